(* C60: a small_vector is a sequence, and its elements are made and destroyed exactly once. *)
From Verif Require Import Lib M_Smallvec Spec_Smallvec P_Smallvec4.

(* Any program over any number of vectors that is defined on sequences, keeps every sequence at 2^30 elements or fewer and
   hands push_back no element of the vector it appends to: no step is undefined (no object is made over another, none is
   destroyed or read that is not there, none read after it was moved from, no storage is released with objects in it, twice or
   under a wrong size), and at the end each vector shows its sequence. Partial: programs with push_back(v[k]) on v itself and
   longer sequences are left out, see C60_alias_refuted and C60_size_refuted. *)
Theorem C60_values_partial (N : nat) (l : list vop) (q : seqs) :
  (1 <= N)%nat -> Z.of_nat N <= 2 ^ 30 -> srun (fun _ => None) l = Some q -> stays_small (fun _ => None) l -> Forall no_alias l ->
  exists s, vrun false N vst0 l = Some s /\ forall i, match q i with Some r => shows s i r | None => s_env s i = None end.
Proof. exact (fun HN HN2 Hs Sm Hf => sv_values false N l q HN HN2 Hs Sm (or_intror Hf)). Qed.
Print Assumptions C60_values_partial.

(* A program with a copy, growth by push_back, resize and assignment, and the sequences it makes. *)
Definition prog : list vop := [New 0; Push 0 1; Push 0 2; Push 0 3; Copy 1 0; Erase 0 0 2; Resize 1 7 9; Erase 1 1 3; PushAt 0 1 2; Put 1 0 8; New 2; Assign 2 1; Pop 2; Clear 1].
Definition to (q : option seqs) (i : nat) : option (list Z) := match q with Some f => f i | None => None end.
Ltac small_tac := cbn [stays_small sstep]; repeat (cbn [sput Nat.eqb nth_error length Nat.leb Nat.ltb andb removelast firstn skipn repeat app Nat.sub]; split);
  try exact Logic.I; unfold small, sput; intros i r; repeat (destruct (Nat.eqb i _)); intros E; try discriminate; injection E as <-; cbn; lia.
Example C60_values_example : map (to (srun (fun _ => None) prog)) [0; 1; 2; 3]%nat = [Some [3; 9]; Some []; Some [8; 9; 9; 9]; None] /\ stays_small (fun _ => None) prog /\ Forall no_alias prog.
Proof. split; [reflexivity|]. split; [unfold prog; small_tac|]. repeat constructor; discriminate. Qed.

(* After any such program the objects that exist are those of the vectors, as many as each vector's size, in storage of its
   own; when every vector is destroyed nothing is left, no object and no storage. *)
Theorem C60_objects_partial (N : nat) (l : list vop) (q : seqs) (s : vst) :
  (1 <= N)%nat -> Z.of_nat N <= 2 ^ 30 -> srun (fun _ => None) l = Some q -> stays_small (fun _ => None) l -> Forall no_alias l -> vrun false N vst0 l = Some s ->
  (forall p b, s_mem s p = Some b -> exists i x, s_env s i = Some x /\ (p = v_first x /\ objects b = v_size x \/ p = Inl i /\ p <> v_first x /\ objects b = 0%nat)) /\
  (forall i j x y, s_env s i = Some x -> s_env s j = Some y -> i <> j -> v_first x <> v_first y) /\
  ((forall i, q i = None) -> forall p, s_mem s p = None).
Proof. exact (fun HN HN2 Hs Sm Hf => sv_objects false N l q s HN HN2 Hs Sm (or_intror Hf)). Qed.
Print Assumptions C60_objects_partial.
Example C60_objects_example :
  match vrun false 2 vst0 prog with
  | Some s => map (s_mem s) [Inl 0; Hp 0; Hp 2; Hp 3]%nat = [Some [Raw; Raw]; Some [Obj (Some 3); Obj (Some 9); Raw; Raw]; Some (repeat Raw 8); Some (map (fun v => Obj (Some v)) [8; 9; 9; 9] ++ repeat Raw 4)]
  | None => False
  end /\
  match vrun false 2 vst0 (prog ++ [Drop 0; Drop 1; Drop 2]), srun (fun _ => None) (prog ++ [Drop 0; Drop 1; Drop 2]) with
  | Some s, Some q => map (s_mem s) [Inl 0; Inl 1; Inl 2; Hp 0; Hp 1; Hp 2; Hp 3]%nat = repeat None 7 /\ map q [0; 1; 2; 3]%nat = repeat None 4
  | _, _ => False
  end.
Proof. vm_compute. repeat split. Qed.

(* push_back of an element of the same vector is undefined when the vector is full: grow moves the element away and
   destroys it before it is copied. *)
Theorem C60_alias_refuted : exists l q, srun (fun _ => None) l = Some q /\ q 0%nat = Some [7; 7] /\ stays_small (fun _ => None) l /\ vrun false 1 vst0 l = None.
Proof. exact sv_alias. Qed.
Print Assumptions C60_alias_refuted.

(* With a push_back that copies its argument before it grows, programs with such calls are defined too, show their
   sequences and leave nothing behind. Partial: still at most 2^30 elements. *)
Theorem C60_repaired_partial (N : nat) (l : list vop) (q : seqs) :
  (1 <= N)%nat -> Z.of_nat N <= 2 ^ 30 -> srun (fun _ => None) l = Some q -> stays_small (fun _ => None) l ->
  exists s, vrun true N vst0 l = Some s /\ (forall i, match q i with Some r => shows s i r | None => s_env s i = None end) /\ ((forall i, q i = None) -> forall p, s_mem s p = None).
Proof. exact (sv_repaired N l q). Qed.
Print Assumptions C60_repaired_partial.
Definition prog2 : list vop := [New 0; Push 0 1; PushAt 0 0 0; PushAt 0 0 1; PushAt 0 0 0].
Example C60_repaired_example : to (srun (fun _ => None) prog2) 0 = Some [1; 1; 1; 1] /\ stays_small (fun _ => None) prog2 /\ vrun false 1 vst0 prog2 = None /\ vrun true 1 vst0 prog2 <> None.
Proof. split; [reflexivity|]. split; [unfold prog2; small_tac|]. split; [reflexivity|vm_compute; discriminate]. Qed.

(* N = 0 compiles, but the first push_back doubles a capacity of 0 and writes outside the storage. *)
Theorem C60_zero_refuted (fix_ : bool) : exists l q, srun (fun _ => None) l = Some q /\ q 0%nat = Some [7] /\ Forall no_alias l /\ vrun fix_ 0 vst0 l = None.
Proof. exact (sv_zero fix_). Qed.
Print Assumptions C60_zero_refuted.

(* A full vector with a capacity of 2^31 doubles it to 0 in 32 bits. *)
Theorem C60_size_refuted (fix_ : bool) : exists l q r, srun (fun _ => None) l = Some q /\ q 0%nat = Some r /\ Forall no_alias l /\ vrun fix_ 1 vst0 l = None.
Proof. exact (sv_size fix_). Qed.
Print Assumptions C60_size_refuted.
