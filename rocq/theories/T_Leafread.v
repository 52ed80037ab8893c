(* C15: searches of a leaf without its lock, while others change it. *)
From Verif Require Import Lib M_Key M_Permuter M_Version M_Tree M_Leafread Spec_Leafread P_Leafread8 P_Leafread9.

(* What a search without the lock returns was true of the leaf, outside any marked modification, at a moment between its
   read of the version and its return. s_late excludes searches during which the version counter can have come full circle
   (2^19 completed modifications, C13_unbounded_refuted); those are what is missing from the full claim, here and below. *)
Theorem C15_read_partial : forall m0 s t k t0 a, quiet_leaf m0 -> lreach m0 s -> s_late s = false -> s_pc s t = PDone k t0 a ->
  exists m, during s t0 m /\ good_leaf m /\ nv_dirty (m_v m) = false /\ lookup (entries m) k = a.
Proof. exact read_true. Qed.
Print Assumptions C15_read_partial.

(* A search that ends with the lock held is exact for the leaf as it is now, although it searched without the lock. *)
Theorem C15_cursor_partial : forall m0 s t k i p mt, quiet_leaf m0 -> lreach m0 s -> s_late s = false -> s_pc s t = PHeld k i p mt ->
  cursor_exact (s_m s) k i p mt.
Proof. exact locked_exact. Qed.
Print Assumptions C15_cursor_partial.

(* After every single store the leaf is in order: also in the middle of inserts, splits and removals. *)
Theorem C15_always_good_partial : forall m0 s, quiet_leaf m0 -> lreach m0 s -> s_late s = false -> good_leaf (s_m s).
Proof. exact always_good. Qed.
Print Assumptions C15_always_good_partial.

(* A leaf with one short key (slice 5, length 3, value 50, slot 0) and one long one (slice 9, suffix "ab", value 60, slot 1). *)
Definition ex_mem : lmem :=
  MkMem (Z.lor (nv_init true) nv_root_bit) (perm_make_sorted W 2) MsInsert
    (fun p => match p with 0%nat => 5 | 1%nat => 9 | _ => 0 end) (fun p => match p with 0%nat => 3 | 1%nat => 64 | _ => 0 end)
    (fun p => match p with 0%nat => 50 | 1%nat => 60 | _ => 0 end)
    0 (fun _ p => match p with 1%nat => 2%nat | _ => 0%nat end) (fun _ _ j => match j with 0%nat => 97 | _ => 98 end) 1.
Example ex_quiet : quiet_leaf ex_mem.
Proof.
  split; [|vm_compute; repeat split; congruence]. apply good_wf. constructor.
  - apply (P_Permuter2.make_sorted_spec W 2); unfold W; lia.
  - intros i j H. assert (i = 0 /\ j = 1)%nat as [-> ->] by (vm_compute in H; lia). left. reflexivity.
  - intros p (j & L & E). assert (j = 0 \/ j = 1)%nat as [-> | ->] by (vm_compute in L; lia); vm_compute in E; subst p; cbn; lia.
  - cbn. lia.
Qed.
Definition k7 : mkey := MkKey 7 2 [] 0.
Definition k9 : mkey := MkKey 9 10 [0; 0; 0; 0; 0; 0; 0; 9; 97; 98] 0.
(* Thread 0 looks for key 7 and has loaded the permutation; thread 1 inserts key 7 with value 70 completely; thread 0 goes on.
   Then thread 0 looks again, and thread 2 looks for the long key. *)
Definition ex_run : list act :=
  [ABegin 0 k7 GGet; AGo 0; AGo 0; ABegin 1 k7 GPut] ++ repeat (AGo 1) 11 ++ [AInsert 1 true true [70]] ++ repeat (AGo 1) 7 ++ repeat (AGo 0) 5.
Definition pcs (o : option lst) (n : nat) : option (list lpc * bool) := match o with Some s => Some (map (s_pc s) (seq 0 n), s_late s) | None => None end.
Example ex_absent : pcs (lrun (linit ex_mem) ex_run) 2 = Some ([PDone k7 2 Absent; PIdle], false).
Proof. vm_compute. reflexivity. Qed.
(* The lock holder in the middle of it. *)
Example ex_held : pcs (lrun (linit ex_mem) (firstn 15 ex_run)) 2 =
  Some ([PIkey (MkFnd k7 GGet (Z.lor (nv_init true) nv_root_bit) 2 0) (perm_make_sorted W 2) (perm_make_sorted W 2) 0 2; PHeld k7 1 None 0], false).
Proof. vm_compute. reflexivity. Qed.
Definition ex_more : list act :=
  ex_run ++ [ABegin 0 k7 GGet; ABegin 2 k9 GGet] ++ repeat (AGo 0) 7 ++ repeat (AGo 2) 13.
Example ex_found : pcs (lrun (linit ex_mem) ex_more) 3 = Some ([PDone k7 31 (Found 70); PIdle; PDone k9 38 (Found 60)], false).
Proof. vm_compute. reflexivity. Qed.
(* Thread 1 removes key 7 while thread 0 has found it: the first removal after an insert marks the leaf, and thread 0 must start again. *)
Definition ex_reject : list act :=
  ex_run ++ [ABegin 0 k7 GGet] ++ repeat (AGo 0) 6 ++ [ABegin 1 k7 GPut] ++ repeat (AGo 1) 11 ++ [ARemove 1 false] ++ repeat (AGo 1) 6 ++ [AGo 0].
Example ex_again : pcs (lrun (linit ex_mem) ex_reject) 2 = Some ([PIdle; PIdle], false).
Proof. vm_compute. reflexivity. Qed.
Example ex_reachable : exists s, lreach ex_mem s /\ s_late s = false /\ s_pc s 0%nat = PDone k7 2 Absent /\ lookup (entries (s_m s)) k7 = Found 70.
Proof.
  destruct (lrun (linit ex_mem) ex_run) as [s|] eqn:E; [|vm_compute in E; discriminate].
  exists s. split; [exact (lrun_reach ex_mem _ _ _ (LInit _) E)|]. vm_compute in E. injection E as <-. vm_compute. repeat split.
Qed.
