(* C32: reads and checkpoints of string rows. *)
From Verif Require Import Lib M_Bag M_Strrow P_Strcol.

(* A column named by an offset and a length is the part of the row in that range, as far as the row reaches; index 0 is the whole row.
   Full statement, for the empty range at 0 too, refuted below. *)
Theorem C32_col_partial : forall r, sr_col r 0 = Some (sr_s r) /\ forall off l, 0 <= off < 2 ^ 16 -> 0 <= l < 2 ^ 16 -> 0 < off + l ->
  sr_col r (make_index off l) = Some (firstn (Z.to_nat l) (skipn (Z.to_nat off) (sr_s r))).
Proof. exact col_reads. Qed.
Print Assumptions C32_col_partial.
(* Ranges inside the row, across its end and behind it. *)
Example C32_col_example : let r := sr_create1 [1; 2; 3; 4] 10 in
  sr_col r (make_index 1 2) = Some [Some 2; Some 3] /\ sr_col r (make_index 3 5) = Some [Some 4] /\ sr_col r (make_index 7 1) = Some [].
Proof. vm_compute. auto. Qed.

(* The empty range at 0 has index 0 and shows the whole row. *)
Theorem C32_col_refuted : forall v ts, sr_col (sr_create1 v ts) (make_index 0 0) = Some (map Some v).
Proof. exact empty_range. Qed.
Print Assumptions C32_col_refuted.
Example C32_col_refuted_example : sr_col (sr_create1 [5; 6] 1) (make_index 0 0) <> Some [].
Proof. discriminate. Qed.

(* A new row shows its value and its timestamp. *)
Theorem C32_create1 : forall v ts, sr_col (sr_create1 v ts) 0 = Some (map Some v) /\ sr_timestamp (sr_create1 v ts) = ts.
Proof. exact create_col. Qed.
Print Assumptions C32_create1.
Example C32_create1_example : sr_col (sr_create1 [5; 6] 9) 0 = Some [Some 5; Some 6].
Proof. reflexivity. Qed.

(* A row all of whose bytes were written comes back from a checkpoint as it was. *)
Theorem C32_checkpoint : forall r v, sr_col r 0 = Some (map Some v) -> exists w, init (sr_checkpoint_write r) = Some w /\ sr_checkpoint_read w (sr_timestamp r) = r /\ w = v.
Proof. exact checkpoint_col. Qed.
Print Assumptions C32_checkpoint.
Example C32_checkpoint_example : exists r, sr_update (sr_create1 [1; 2] 10) [(make_index 1 2, [8; 9])] 20 = Some r /\ sr_col r 0 = Some (map Some [1; 8; 9]).
Proof. eexists. split; [vm_compute; reflexivity|]. vm_compute. reflexivity. Qed.
