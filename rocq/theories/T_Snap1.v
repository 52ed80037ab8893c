(* C31: snapshots of one column. *)
From Verif Require Import Lib M_Bag M_Array Spec_Row M_Rowrun P_Snap1.

(* A snapshot of one column that the row has shows that column. For a column the row does not have: C31_snapshot_index_refuted. *)
Theorem C31_snapshot_one : forall h r i, 0 <= i < vv_ncol r -> vv_ncol r <= len (vv_cols r) -> len (vv_cols r) < 2 ^ 15 ->
  exists s, vv_snapshot h r None [i] = Some (h, s) /\ vv_ncol s = vv_ncol r /\ vv_col h s i = vv_col h r i.
Proof. exact snapshot_one. Qed.
Print Assumptions C31_snapshot_one.
(* The second of two columns. *)
Example C31_snapshot_one_example : exists h r s, vv_run [(RPut [(0, [5]); (1, [7; 8])], 30)] = Some (h, r) /\ (vv_ncol r = 2 /\ len (vv_cols r) = 2) /\
  vv_snapshot h r None [1] = Some (h, s) /\ vv_col h s 1 = Some [7; 8].
Proof. do 3 eexists. split; [vm_compute; reflexivity|]. split; [split; reflexivity|]. split; [vm_compute; reflexivity|]. vm_compute. reflexivity. Qed.
