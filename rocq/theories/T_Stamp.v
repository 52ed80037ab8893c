(* Property C19: timestamps of the updates of a key. *)
From Verif Require Import Lib Spec_String Spec_Stamp M_Circular M_Tree M_Stamp M_Stampc P_Stamp3 P_Stampc3 P_Stampc4.

(* Operations of any threads, one at a time: every run succeeds, later updates of a key have larger timestamps, each
   update names the version it replaces, and a get finds the row whose update has the largest timestamp. Missing for
   the full claim: overlapping operations (below), rows updated in place (below), clocks that wrap around, and
   restarts, which lose the phantom epochs. *)
Theorem C19_sequential_partial clock ops : (forall i, 0 <= clock i < 2 ^ 62) -> Forall sop_ok ops -> 4 * Z.of_nat (length ops) + 8 < 2 ^ 62 ->
  exists t es, sruns (s_init clock) ops = Ok (t, es) /\ ts_increase (map to_upd es) /\ prev_names (map to_upd es) /\
    forall k, bytes_ok k -> tree_get (t_heap (s_table t)) (t_root (s_table t)) k = Ok (newest k (map to_upd es)).
Proof. exact (sequential clock ops). Qed.
Print Assumptions C19_sequential_partial.

(* Threads that overlap step by step, in one layer: the same, if remove_leaf never exchanges a leaf's phantom epoch
   while another thread is between reading that epoch and using it. Missing: the other schedules, for which the claim
   is false (the three theorems after this one), and layers. *)
Theorem C19_concurrent_partial clock ops s es : (forall i, 0 <= clock i < 2 ^ 62) -> 4 * Z.of_nat (length ops) + 8 < 2 ^ 62 ->
  apart (c_init clock) ops -> cruns (c_init clock) ops = Some (s, es) ->
  ts_increase (map to_upd es) /\ prev_names (map to_upd es) /\ forall k, row_get k (c_rows s (resp s k)) = newest [k] (map to_upd es).
Proof. exact (concurrent clock ops s es). Qed.
Print Assumptions C19_concurrent_partial.

(* A split overlaps the removal of the next leaf: a key put again gets a smaller timestamp than its removal, and
   the log's largest timestamp says the key is gone while the table has it. *)
Theorem C19_split_race_refuted : exists clock ops s es k x, (forall i, 0 <= clock i < 2 ^ 62) /\ cruns (c_init clock) ops = Some (s, es) /\
  ~ ts_increase (map to_upd es) /\ row_get k (c_rows s (resp s k)) = Some x /\ newest [k] (map to_upd es) = None.
Proof. exact split_race_refuted. Qed.
Print Assumptions C19_split_race_refuted.

(* A removal from a leaf overlaps the removal of the next leaf; no split is involved. *)
Theorem C19_store_race_refuted : exists clock ops s es k x, (forall i, 0 <= clock i < 2 ^ 62) /\ cruns (c_init clock) ops = Some (s, es) /\
  c_fresh s = 2%nat /\ ~ ts_increase (map to_upd es) /\ row_get k (c_rows s (resp s k)) = Some x /\ newest [k] (map to_upd es) = None.
Proof. exact store_race_refuted. Qed.
Print Assumptions C19_store_race_refuted.

(* Two neighbouring leaves are removed at the same time. *)
Theorem C19_chain_race_refuted : exists clock ops s es k x, (forall i, 0 <= clock i < 2 ^ 62) /\ cruns (c_init clock) ops = Some (s, es) /\
  ~ ts_increase (map to_upd es) /\ row_get k (c_rows s (resp s k)) = Some x /\ newest [k] (map to_upd es) = None.
Proof. exact chain_race_refuted. Qed.
Print Assumptions C19_chain_race_refuted.

(* Rows updated in place, one operation at a time: the latest update has not the largest timestamp. *)
Theorem C19_in_place_refuted : exists clock ops t es k a c, (forall i, 0 <= clock i < 2 ^ 62) /\ sruns (s_init clock) ops = Ok (t, es) /\
  latest k (map to_upd es) = Some a /\ largest k (map to_upd es) = Some c /\ u_ts a < u_ts c.
Proof. exact in_place_refuted. Qed.
Print Assumptions C19_in_place_refuted.

(* Examples. A leaf splits, the second leaf is emptied and removed by thread 1, whose clock is ahead, and thread 2, whose clock is
   behind, puts a key of it again and gets a larger timestamp. *)
Definition ex_ops : list sop :=
  map (fun k => SPut 0 [k] false) [10; 20; 30; 40; 50; 60; 70; 80; 90; 100; 110; 120; 130; 140; 150; 160] ++
  [SRemove 1 [160]; SPut 2 [160] false; SPut 2 [1; 2; 3; 4; 5; 6; 7; 8; 9] false; SPut 2 [1; 2; 3; 4; 5; 6; 7; 8; 10] false; SRemove 1 [1; 2; 3; 4; 5; 6; 7; 8; 9];
   SRemove 0 [1; 2; 3; 4; 5; 6; 7; 8; 10]; SGc 0; SPut 2 [1; 2; 3; 4; 5; 6; 7; 8; 9] false].
Example C19_sequential_example : Forall sop_ok ex_ops /\
  match sruns (s_init ahead) ex_ops with
  | Ok (t, es) => length es = 23%nat /\ map e_ts (skipn 15 es) = [2; 100; 102; 102; 102; 104; 104; 106]
  | Err _ => False
  end.
Proof.
  split; [|vm_compute; auto]. unfold ex_ops. repeat (apply Forall_cons || apply Forall_nil || apply Forall_app; split); cbn; repeat split; repeat constructor; try (intro; discriminate); try reflexivity.
Qed.
(* The same with overlapping steps: the removal of leaf 1 while leaf 0 is locked but not between. *)
Definition ex_sched : list clabel := two_leaves ++ [CBegin 0 false 10] ++ op_rem 1 160 8 ++ [CGo 0; CGo 0] ++ op_put 2 160 1.
Example C19_concurrent_example : apart (c_init ahead) ex_sched /\ match cruns (c_init ahead) ex_sched with Some (s, es) => map e_ts (skipn 16 es) = [100; 4; 102] | None => False end.
Proof. split; [|vm_compute; reflexivity]. apply (apart_b_ok 3); [reflexivity|]. vm_compute. reflexivity. Qed.
