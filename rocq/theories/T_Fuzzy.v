(* C57: recovery from a checkpoint taken while updates run. *)
From Coq Require Import Permutation.
From Verif Require Import Lib M_Msgpack M_Bag Spec_Log Spec_Row M_Rowrun M_Replay Spec_Replay M_Fuzzy Spec_Fuzzy P_Fuzzy2 P_Fuzzy3.

(* The table always holds what the stored updates left, every record in a log is of a stored update, and every stored
   update is in a log or its thread is still to record it. *)
Theorem C57_history (fix_ : bool) (nlog : nat) (es : list fev) (s : fstate) :
  Forall fev_ok es -> frun fix_ nlog f_init es = Some s -> all_fit (f_hist s) ->
  (forall k col, 0 <= col < 2 ^ 31 ->
     rt_get (fun k => match f_tab s k with Some b => CRow b | None => CNil end) k col = Some (column (ops (of k (f_hist s))) col)) /\
  (forall e en, In (e, en) (f_log s) -> exists i, In i (f_hist s) /\ i_epoch i = e /\ i_entry i = en) /\
  (forall i, In i (f_hist s) -> In (i_epoch i, i_entry i) (f_log s) \/
     exists t l k, f_pc s t = TStored l k (i_epoch i) (i_entry i) \/ f_pc s t = TOpen l k (i_epoch i) (i_entry i)).
Proof. exact (history fix_ nlog es s). Qed.
Print Assumptions C57_history.

(* C57. l: the records of the logs that recovery replays, in any order. Missing: a checkpoint that starts while a thread
   holds an epoch that is over (C57_race_refuted), removals, change sets that do not fit a marker. *)
Theorem C57_restored_partial (nlog : nat) (es : list fev) (s : fstate) (c : ckp) (cm mx : Z) (l : list entry) :
  Forall fev_ok es -> quiet_starts false nlog f_init es -> frun false nlog f_init es = Some s ->
  f_ck s = Some c -> c_max c = Some cm -> (forall k, c_seen c k = true) -> cm < mx -> recorded mx s -> all_fit (f_hist s) ->
  Permutation l (map snd (filter (wanted_rec (c_min c) mx) (f_log s))) ->
  exists t, run_entries (loaded c) l = Some t /\
    forall k col, 0 <= col < 2 ^ 31 -> rt_get t k col = Some (column (ops (before mx (of k (f_hist s)))) col).
Proof. exact (fun F Q => restored false nlog es s c cm mx l F (fun _ => Q)). Qed.
Print Assumptions C57_restored_partial.

(* With the lock of every log taken and released between reading min_epoch and the scans, no condition on the runs is
   left. *)
Theorem C57_repaired (nlog : nat) (es : list fev) (s : fstate) (c : ckp) (cm mx : Z) (l : list entry) :
  Forall fev_ok es -> frun true nlog f_init es = Some s ->
  f_ck s = Some c -> c_max c = Some cm -> (forall k, c_seen c k = true) -> cm < mx -> recorded mx s -> all_fit (f_hist s) ->
  Permutation l (map snd (filter (wanted_rec (c_min c) mx) (f_log s))) ->
  exists t, run_entries (loaded c) l = Some t /\
    forall k col, 0 <= col < 2 ^ 31 -> rt_get t k col = Some (column (ops (before mx (of k (f_hist s)))) col).
Proof. exact (fun F => restored true nlog es s c cm mx l F (fun E => False_ind _ (Bool.diff_true_false E))). Qed.
Print Assumptions C57_repaired.

(* A client updates "a" and then "b", both before the end of the range that is replayed, and both are in the log; after
   recovery "b" is there and "a" is not. *)
Theorem C57_race_refuted : exists (es : list fev) (s : fstate) (c : ckp) (t : rtable),
  Forall fev_ok es /\ frun false 1 f_init es = Some s /\ f_ck s = Some c /\ c_max c = Some 2 /\ (forall k, c_seen c k = true) /\
  recorded 3 s /\ all_fit (f_hist s) /\ run_entries (loaded c) (map snd (filter (wanted_rec (c_min c) 3) (f_log s))) = Some t /\
  before 3 (f_hist s) = f_hist s /\ column (ops (of [97] (f_hist s))) 0 = Some [1] /\ rt_get t [97] 0 = Some None /\
  column (ops (of [98] (f_hist s))) 0 = Some [2] /\ rt_get t [98] 0 = Some (Some [2]).
Proof. exact (ex_intro _ _ (match race_b_lost with ex_intro _ s (ex_intro _ c (ex_intro _ t H)) => ex_intro _ s (ex_intro _ c (ex_intro _ t (conj race_b_ok H))) end)). Qed.
Print Assumptions C57_race_refuted.

(* The second update is a change of a column of "a", in an epoch after the checkpoint began, recorded and replayed: it is
   lost too, because its record refers to the lost row. *)
Theorem C57_later_refuted : exists (es : list fev) (s : fstate) (c : ckp) (t : rtable),
  Forall fev_ok es /\ frun false 1 f_init es = Some s /\ f_ck s = Some c /\ c_max c = Some 2 /\ (forall k, c_seen c k = true) /\
  recorded 3 s /\ all_fit (f_hist s) /\ run_entries (loaded c) (map snd (filter (wanted_rec (c_min c) 3) (f_log s))) = Some t /\
  before 3 (f_hist s) = f_hist s /\ column (ops (of [97] (f_hist s))) 0 = Some [2] /\ rt_get t [97] 0 = Some None.
Proof. exact (ex_intro _ _ (match race_a_lost with ex_intro _ s (ex_intro _ c (ex_intro _ t H)) => ex_intro _ s (ex_intro _ c (ex_intro _ t (conj race_a_ok H))) end)). Qed.
Print Assumptions C57_later_refuted.

(* Two threads and two logs. "a" is written in epoch 1. When the checkpoint starts in epoch 2 thread 1 has the epoch for
   its update of "b" but has not stored it; "a" is scanned, thread 1 stores, the rest is scanned, and "a" is changed
   again. "c" is written in epoch 3. *)
Definition put (i : Z) (v : list Z) : upd := UPut [JInt i; JStr v] [(i, v)].
Definition whole (t l : nat) (k : list Z) (o : upd) (ts : Z) : list fev := [FBegin t l k o; FStep t 0; FStep t 0; FStep t ts; FStep t 0; FStep t 0].
Definition pre : list fev := whole 0 0 [97] (put 0 [1]) 2 ++ [FAdvance; FBegin 1 1 [98] (put 1 [5]); FStep 1 0; FStep 1 0].
Definition post : list fev :=
  [CPass (fun k => keq k [97]); FStep 1 10; CPass (fun _ => true); FStep 1 0; FStep 1 0] ++ whole 0 0 [97] (put 1 [3]) 4 ++ [CEnd; FAdvance] ++ whole 0 0 [99] (UReplace [7]) 6.
Definition st (fix_ : bool) (es : list fev) : fstate := match frun fix_ 2 f_init es with Some s => s | None => f_init end.
Definition hist : list item :=
  [MkI [99] (RReplace [7]) 6 3 (EReplace [99] [7] 6); MkI [97] (RPut [(1, [3])]) 4 2 (EModify [97] (flat_map unparse [JInt 1; JStr [3]]) 4 2);
   MkI [98] (RPut [(1, [5])]) 10 2 (EPut [98] (flat_map unparse [JInt 1; JStr [5]]) 10); MkI [97] (RPut [(0, [1])]) 2 1 (EPut [97] (flat_map unparse [JInt 0; JStr [1]]) 2)].
Example C57_restored_partial_example :
  let es := pre ++ CStart :: post in let s := st false es in let c := ck_of s in
  Forall fev_ok es /\ quiet_starts false 2 f_init es /\ frun false 2 f_init es = Some s /\ f_ck s = Some c /\ c_max c = Some 2 /\
  (forall k, c_seen c k = true) /\ recorded 3 s /\ all_fit (f_hist s) /\ f_hist s = hist /\ c_min c = 2 /\
  map snd (filter (wanted_rec (c_min c) 3) (f_log s)) = [EModify [97] (flat_map unparse [JInt 1; JStr [3]]) 4 2; EPut [98] (flat_map unparse [JInt 1; JStr [5]]) 10] /\
  let t := recovered s 3 in map (rt_get t [97]) [0; 1] = [Some (Some [1]); Some (Some [3])] /\ rt_get t [98] 1 = Some (Some [5]) /\ rt_get t [99] 0 = Some None.
Proof.
  cbn zeta.
  assert (H : f_hist (st false (pre ++ CStart :: post)) = hist) by (vm_compute; reflexivity).
  assert (P : forall t, f_pc (st false (pre ++ CStart :: post)) t = TIdle) by (intros [|[|t]]; vm_compute; reflexivity).
  split; [repeat constructor; try discriminate; cbn; lia|]. split.
  { eapply quiet_one; [repeat constructor; discriminate|repeat constructor; discriminate|apply frun_some; vm_compute; reflexivity|].
    intros t l k o e. set (q := match frun false 2 f_init pre with Some s => s | None => f_init end). assert (Q : f_ge q = 2) by (vm_compute; reflexivity). rewrite Q.
    destruct t as [|[|t]]; vm_compute; congruence. }
  split; [apply frun_some; vm_compute; reflexivity|]. split; [vm_compute; reflexivity|]. split; [vm_compute; reflexivity|].
  split; [intros k; transitivity ((false || keq k [97]) || true); [vm_compute; reflexivity|apply orb_true_r]|]. split; [intros t; rewrite P; exact I|]. rewrite H. split.
  { split; [|repeat constructor]. intros k. unfold of, keq, hist. cbn [filter i_key].
    destruct (list_eq_dec Z.eq_dec [97] k), (list_eq_dec Z.eq_dec [98] k), (list_eq_dec Z.eq_dec [99] k); try congruence; cbn [ops map fst i_rop i_ts throughout]; unfold fits_bag; repeat split; vm_compute; reflexivity. }
  repeat split; vm_compute; reflexivity.
Qed.

(* The repaired code on the race: the log of the thread held up cannot be passed before it has recorded. *)
Definition held : list fev := [FBegin 0 0 [97] (UReplace [1]); FStep 0 0; FStep 0 0; FAdvance; CStart; CSync 1].
Definition held_end : list fev := [FStep 0 2; FStep 0 0; FStep 0 0; CSync 0; CPass (fun _ => true)] ++ whole 1 1 [98] (UReplace [2]) 2 ++ [CEnd; FAdvance].
Definition held_hist : list item := [MkI [98] (RReplace [2]) 2 2 (EReplace [98] [2] 2); MkI [97] (RReplace [1]) 2 1 (EReplace [97] [1] 2)].
Example C57_repaired_example :
  let es := held ++ held_end in let s := st true es in let c := ck_of s in
  fstep true 2 (st true held) (CPass (fun _ => true)) = None /\ fstep true 2 (st true held) (CSync 0) = None /\
  Forall fev_ok es /\ frun true 2 f_init es = Some s /\ f_ck s = Some c /\ c_max c = Some 2 /\
  (forall k, c_seen c k = true) /\ recorded 3 s /\ all_fit (f_hist s) /\ f_hist s = held_hist /\ c_min c = 2 /\
  let t := recovered s 3 in rt_get t [97] 0 = Some (Some [1]) /\ rt_get t [98] 0 = Some (Some [2]) /\ rt_get t [99] 0 = Some None.
Proof.
  cbn zeta.
  assert (H : f_hist (st true (held ++ held_end)) = held_hist) by (vm_compute; reflexivity).
  assert (P : forall t, f_pc (st true (held ++ held_end)) t = TIdle) by (intros [|[|t]]; vm_compute; reflexivity).
  split; [vm_compute; reflexivity|]. split; [vm_compute; reflexivity|]. split; [repeat constructor; discriminate|].
  split; [apply frun_some; vm_compute; reflexivity|]. split; [vm_compute; reflexivity|]. split; [vm_compute; reflexivity|].
  split; [intros k; vm_compute; reflexivity|]. split; [intros t; rewrite P; exact I|]. rewrite H. split.
  { split; [|repeat constructor]. intros k. unfold of, keq, held_hist. cbn [filter i_key].
    destruct (list_eq_dec Z.eq_dec [97] k), (list_eq_dec Z.eq_dec [98] k); try congruence; cbn [ops map fst i_rop i_ts throughout]; unfold fits_bag; repeat split; vm_compute; reflexivity. }
  repeat split; vm_compute; reflexivity.
Qed.
(* C57_history in the middle of a run: thread 1 has stored "b" and not recorded it. *)
Example C57_history_example :
  let es := pre ++ [FStep 1 10] in let s := st false es in
  Forall fev_ok es /\ frun false 2 f_init es = Some s /\ all_fit (f_hist s) /\ length (f_hist s) = 2%nat /\ length (f_log s) = 1%nat /\
  f_pc s 1 = TStored 1 [98] 2 (EPut [98] (flat_map unparse [JInt 1; JStr [5]]) 10).
Proof.
  cbn zeta. split; [repeat constructor; try discriminate; cbn; lia|]. split; [apply frun_some; vm_compute; reflexivity|].
  assert (H : f_hist (st false (pre ++ [FStep 1 10])) = skipn 2 hist) by (vm_compute; reflexivity). rewrite H. split.
  { split; [|repeat constructor]. intros k. unfold of, keq, hist. cbn [skipn filter i_key].
    destruct (list_eq_dec Z.eq_dec [97] k), (list_eq_dec Z.eq_dec [98] k); try congruence; cbn [ops map fst i_rop i_ts throughout]; unfold fits_bag; repeat split; vm_compute; reflexivity. }
  repeat split; vm_compute; reflexivity.
Qed.
