(* C65: hash codes and integer values of strings. *)
From Verif Require Import Lib Spec_Natcmp M_Strnum Spec_Strnum P_Strnum.

(* On x86 and on big endian machines the hash code of a string does not depend on its address; it is a 32-bit number on all
   machines. Full statement, for all machines, refuted below. *)
Theorem C65_hash_partial : forall m o o' s, (m = X86 \/ m = Other false -> hashcode m o s = hashcode m o' s) /\ 0 <= hashcode m o s < 2 ^ 32.
Proof. exact (fun m o o' s => conj (hash_same m o o' s) (hash_range m o s)). Qed.
Print Assumptions C65_hash_partial.
(* "abcdefg" at an odd address of a big endian machine and of x86. *)
Example C65_hash_example : hashcode (Other false) true [97; 98; 99; 100; 101; 102; 103] = hashcode (Other false) false [97; 98; 99; 100; 101; 102; 103] /\
  hashcode X86 true [97; 98; 99; 100; 101; 102; 103] <> hashcode X86 true [97; 98; 99; 100; 101; 102; 104].
Proof. split; [reflexivity|vm_compute; discriminate]. Qed.

(* On little endian machines other than x86, equal strings have different hash codes at even and odd addresses. *)
Theorem C65_hash_refuted : exists s, hashcode (Other true) false s <> hashcode (Other true) true s.
Proof. exact hash_differs. Qed.
Print Assumptions C65_hash_refuted.

(* to_i gives the integer at the beginning of a string if a long can hold it, and its remainder otherwise. *)
Theorem C65_to_i : forall s v, begins s v -> (- 2 ^ 63 <= v < 2 ^ 63 -> to_i s = v) /\ - 2 ^ 63 <= to_i s < 2 ^ 63 /\ (to_i s - v) mod 2 ^ 64 = 0.
Proof. exact (fun s v H => conj (to_i_exact s v H) (to_i_value s v H)). Qed.
Print Assumptions C65_to_i.
(* "-120x". *)
Example C65_to_i_example : begins [45; 49; 50; 48; 120] (-120) /\ to_i [45; 49; 50; 48; 120] = -120.
Proof.
  split; [|reflexivity]. exists [45], true, [49; 50; 48], [120]. split; [reflexivity|]. split; [constructor|]. unfold number, ends, digit. split; [split; [discriminate|repeat constructor; lia]|]. split; [lia|reflexivity].
Qed.

(* Other strings give 0. *)
Theorem C65_to_i_other : forall s, (exists v, begins s v) \/ to_i s = 0.
Proof. exact to_i_other. Qed.
Print Assumptions C65_to_i_other.
(* "--1" is such a string. *)
Example C65_to_i_other_example : (forall v, ~ begins [45; 45; 49] v) /\ to_i [45; 45; 49] = 0.
Proof.
  split; [|reflexivity]. intros v (g & neg & d & t & E & Hg & (N & H) & _). destruct d as [|c d]; [contradiction|]. inversion H as [|? ? Hc _]; subst. unfold digit in Hc. destruct Hg; cbn [app] in E; injection E as E; lia.
Qed.

(* A positive integer too large for a long is read as 0: "18446744073709551616". *)
Theorem C65_to_i_refuted : exists s v, begins s v /\ 0 < v /\ to_i s = 0.
Proof. exact to_i_wraps. Qed.
Print Assumptions C65_to_i_refuted.
