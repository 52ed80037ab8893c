(* Property C55: destroying a table. *)
From Verif Require Import Lib Spec_Map M_Key M_Permuter M_Tree M_Destroy Spec_Destroy P_Destroy3.

(* C55. After any operations, destroying the table succeeds: no node is used after it was freed and none is freed
   twice. Only nodes of the table are freed and all other nodes are as before. All nodes of the table are freed if no
   layer pointer is behind a split. Missing: that last condition, see C55_leak_refuted. *)
Theorem C55_destroy_partial : forall ops t rs, Forall op_ok ops -> truns table_init ops = Ok (t, rs) ->
  exists h', destroy false t = Ok h' /\ only_own (t_heap t) h' (t_root t) /\
    (up_to_date (t_heap t) (t_root t) -> all_freed (t_heap t) h' (t_root t)).
Proof. exact destroy_plain. Qed.
Print Assumptions C55_destroy_partial.

(* Seventeen keys sharing eight bytes: the second layer has three nodes and its pointer is up to date. *)
Example C55_destroy_ex : Forall op_ok (wputs 17) /\ truns table_init (wputs 17) = Ok (wtable (wputs 17), wresults (wputs 17)) /\
  up_to_date (t_heap (wtable (wputs 17))) (t_root (wtable (wputs 17))) /\ hp_next (t_heap (wtable (wputs 17))) = 4%nat.
Proof.
  split; [apply wputs_ok; lia|]. split; [vm_compute; reflexivity|]. split; [|vm_compute; reflexivity].
  apply (check_ok (wputs 17) _ (wresults (wputs 17))); [apply wputs_ok; lia|vm_compute; reflexivity|vm_compute; reflexivity].
Qed.

(* With sixteen keys the layer's root has just been split and the pointer still names the first leaf: the other leaf
   and the new root are never freed. *)
Theorem C55_leak_refuted : exists ops t rs h' a, Forall op_ok ops /\ truns table_init ops = Ok (t, rs) /\
  destroy false t = Ok h' /\ part (t_heap t) (t_root t) a /\ hp_node h' a <> None.
Proof. exact leak_witness. Qed.
Print Assumptions C55_leak_refuted.

(* C55 in full for the code that climbs from a layer pointer to the layer's root before queueing it. *)
Theorem C55_repaired : forall ops t rs, Forall op_ok ops -> truns table_init ops = Ok (t, rs) ->
  exists h', destroy true t = Ok h' /\ only_own (t_heap t) h' (t_root t) /\ all_freed (t_heap t) h' (t_root t).
Proof. exact destroy_fixed. Qed.
Print Assumptions C55_repaired.
Example C55_repaired_ex : Forall op_ok (wputs 16) /\ truns table_init (wputs 16) = Ok (wtable (wputs 16), wresults (wputs 16)) /\
  (exists h', destroy true (wtable (wputs 16)) = Ok h' /\ map (hp_node h') [0; 1; 2; 3]%nat = [None; None; None; None]) /\
  map (fun a => match hp_node (t_heap (wtable (wputs 16))) a with Some _ => true | None => false end) [0; 1; 2; 3]%nat = [true; true; true; true].
Proof.
  split; [apply wputs_ok; lia|]. split; [vm_compute; reflexivity|]. split; [|vm_compute; reflexivity].
  eexists. split; vm_compute; reflexivity.
Qed.

(* Between the two runs of the callback the layer collections still pending find the tree marked and change nothing. *)
Theorem C55_marked : forall ops t rs, Forall op_ok ops -> truns table_init ops = Ok (t, rs) ->
  exists h r, destroy_mark (t_heap t) (t_root t) = Ok (h, r) /\ forall it, In it (t_gc t) -> run_gc h it = Ok (h, []).
Proof. exact mark_ok. Qed.
Print Assumptions C55_marked.
Example C55_marked_ex : exists t rs it, Forall op_ok (wputs 2 ++ [ORemove (wkey 0); ORemove (wkey 1)]) /\
  truns table_init (wputs 2 ++ [ORemove (wkey 0); ORemove (wkey 1)]) = Ok (t, rs) /\ In it (t_gc t) /\
  (exists h gc, run_gc (t_heap t) it = Ok (h, gc) /\ perm_size (match hp_node h 0%nat with Some (NLeaf l) => lf_perm l | _ => 15 end) = 0%nat) /\
  perm_size (match hp_node (t_heap t) 0%nat with Some (NLeaf l) => lf_perm l | _ => 15 end) = 1%nat.
Proof.
  exists (wtable (wputs 2 ++ [ORemove (wkey 0); ORemove (wkey 1)])), (wresults (wputs 2 ++ [ORemove (wkey 0); ORemove (wkey 1)])), (0%nat, repeat 1 8).
  split; [apply Forall_app; split; [apply wputs_ok; lia|]; repeat constructor; cbn; lia|].
  split; [vm_compute; reflexivity|]. split; [vm_compute; auto|]. split; [|vm_compute; reflexivity].
  eexists _, _. split; vm_compute; reflexivity.
Qed.

(* A collection that runs after the second run uses a freed node. *)
Theorem C55_late_gc_refuted : exists ops t rs h' it, Forall op_ok ops /\ truns table_init ops = Ok (t, rs) /\ In it (t_gc t) /\
  destroy false t = Ok h' /\ run_gc h' it = Err BadPtr.
Proof. exact late_gc_witness. Qed.
Print Assumptions C55_late_gc_refuted.
