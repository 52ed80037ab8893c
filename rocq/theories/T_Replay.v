(* C23, C24, C41: what replaying log records does to rows. *)
From Coq Require Import Permutation.
From Verif Require Import Lib M_Msgpack Spec_Msgpack M_Bag M_Log Spec_Log Spec_Row M_Rowrun M_Replay Spec_Replay P_Replay4 P_Replay5.

(* C23. t0 holds, for every key, the row left by its older updates; l holds every later record, in any order, and any of
   the older ones. Missing: histories with removals, and change sets that fit a row but not a marker. *)
Theorem C23_replay_partial (older newer : list Z -> list (rop * Z)) (t0 : rtable) (l : list entry) :
  Forall (fun e => update_key e <> None) l ->
  (forall k, start (t0 k) (older k)) -> (forall k, hist_ok (newer k ++ older k)) ->
  (forall k, exists es eso stale, logged k (newer k ++ older k) (es ++ eso) /\ length es = length (newer k) /\ Forall marker_fits es /\
     incl stale eso /\ Permutation (of_key k l) (es ++ stale)) ->
  exists t, run_entries t0 l = Some t /\ (forall k, start (t k) (newer k ++ older k)) /\
    forall k col, 0 <= col < 2 ^ 31 ->
      rt_get t k col = Some (match newer k ++ older k with [] => None | _ => Some (last_written (map fst (newer k ++ older k)) col) end).
Proof. exact (replay_any older newer t0 l). Qed.
Print Assumptions C23_replay_partial.

(* Key "a" has a row from a checkpoint and three later updates, replayed in the order third, first, second around a stale
   record; key "b" is new. *)
Definition ex_older (k : list Z) : list (rop * Z) := if list_eq_dec Z.eq_dec k [97] then [(RPut [(0, [1])], 2)] else [].
Definition ex_newer (k : list Z) : list (rop * Z) :=
  if list_eq_dec Z.eq_dec k [97] then [(RPut [(2, [9])], 8); (RPut [(1, [8; 8])], 6); (RPut [(0, [7])], 4)]
  else if list_eq_dec Z.eq_dec k [98] then [(RPut [(0, [4])], 12); (RReplace [3; 3], 10)] else [].
Definition ex_t0 : rtable := match bag_run [(RPut [(0, [1])], 2)] with Some b => rt_set rt_empty [97] (CRow b) | None => rt_empty end.
Definition ex_ch (i : Z) (v : list Z) : list Z := flat_map unparse [JInt i; JStr v].
Definition ex_l : list entry :=
  [EModify [97] (ex_ch 2 [9]) 8 6; EModify [98] (ex_ch 0 [4]) 12 10; EModify [97] (ex_ch 0 [7]) 4 2; EPut [97] (ex_ch 0 [1]) 2;
   EReplace [98] [3; 3] 10; EModify [97] (ex_ch 1 [8; 8]) 6 4].
Example C23_replay_partial_example :
  Forall (fun e => update_key e <> None) ex_l /\ (forall k, start (ex_t0 k) (ex_older k)) /\ (forall k, hist_ok (ex_newer k ++ ex_older k)) /\
  (forall k, exists es eso stale, logged k (ex_newer k ++ ex_older k) (es ++ eso) /\ length es = length (ex_newer k) /\ Forall marker_fits es /\
     incl stale eso /\ Permutation (of_key k ex_l) (es ++ stale)) /\
  exists t, run_entries ex_t0 ex_l = Some t /\ map (rt_get t [97]) [0; 1; 2; 3] = [Some (Some [7]); Some (Some [8; 8]); Some (Some [9]); Some (Some [])] /\
    rt_get t [98] 0 = Some (Some [4]) /\ rt_get t [99] 0 = Some None.
Proof.
  assert (S : forall i v, 0 <= i < 2 ^ 32 -> len v < 2 ^ 31 -> exists cs, sent cs [(i, v)] /\ ex_ch i v = flat_map unparse cs).
  { intros i v A B. exists [JInt i; JStr v]. split; [|reflexivity]. constructor; auto. constructor. }
  split; [repeat constructor; discriminate|]. split; [|split; [|split]].
  - intros k. unfold ex_older. destruct (list_eq_dec Z.eq_dec k [97]) as [->|N].
    + eexists. split; reflexivity.
    + unfold start, ex_t0. assert (H : match bag_run [(RPut [(0, [1])], 2)] with Some _ => true | None => false end = true) by reflexivity. destruct (bag_run [(RPut [(0, [1])], 2)]); [|discriminate].
      unfold rt_set, rt_empty. destruct (list_eq_dec Z.eq_dec k [97]); [easy|reflexivity].
  - intros k. unfold ex_older, ex_newer. destruct (list_eq_dec Z.eq_dec k [97]) as [->|N]; [|destruct (list_eq_dec Z.eq_dec k [98]) as [->|N2]]; cbn [app];
      (split; [repeat constructor; cbn; lia|split; [cbn [map fst throughout]; unfold fits_bag; repeat split; vm_compute; reflexivity|cbn [stamped last_stamp]; repeat split; lia]]).
  - intros k. unfold ex_older, ex_newer. destruct (list_eq_dec Z.eq_dec k [97]) as [->|N]; [|destruct (list_eq_dec Z.eq_dec k [98]) as [->|N2]]; cbn [app].
    + exists [EModify [97] (ex_ch 2 [9]) 8 6; EModify [97] (ex_ch 1 [8; 8]) 6 4; EModify [97] (ex_ch 0 [7]) 4 2], [EPut [97] (ex_ch 0 [1]) 2], [EPut [97] (ex_ch 0 [1]) 2].
      split; [cbn [logged app last_stamp]; repeat split; try (eexists; split; [|reflexivity]; constructor; [now left|lia|cbn; lia|constructor])|].
      split; [reflexivity|]. split; [repeat constructor|]. split; [apply incl_refl|].
      change (of_key [97] ex_l) with [EModify [97] (ex_ch 2 [9]) 8 6; EModify [97] (ex_ch 0 [7]) 4 2; EPut [97] (ex_ch 0 [1]) 2; EModify [97] (ex_ch 1 [8; 8]) 6 4].
      apply perm_skip. cbn [app]. apply Permutation_sym. change (EModify [97] (ex_ch 0 [7]) 4 2 :: EPut [97] (ex_ch 0 [1]) 2 :: [EModify [97] (ex_ch 1 [8; 8]) 6 4]) with ([EModify [97] (ex_ch 0 [7]) 4 2; EPut [97] (ex_ch 0 [1]) 2] ++ [EModify [97] (ex_ch 1 [8; 8]) 6 4]).
      apply Permutation_cons_append.
    + exists [EModify [98] (ex_ch 0 [4]) 12 10; EReplace [98] [3; 3] 10], [], [].
      split; [cbn [logged app last_stamp]; repeat split; try (eexists; split; [|reflexivity]; constructor; [now left|lia|cbn; lia|constructor])|].
      split; [reflexivity|]. split; [repeat constructor|]. split; [apply incl_refl|]. apply Permutation_refl.
    + exists [], [], []. split; [exact I|]. split; [reflexivity|]. split; [constructor|]. split; [apply incl_refl|].
      assert (E : of_key k ex_l = []). { unfold of_key, ex_l. cbn [filter update_key]. destruct (list_eq_dec Z.eq_dec [97] k); [congruence|]. destruct (list_eq_dec Z.eq_dec [98] k); [congruence|]. reflexivity. }
      rewrite E. constructor.
  - eexists. split; [vm_compute; reflexivity|]. repeat split; vm_compute; reflexivity.
Qed.

(* C23 without the condition on markers is false: a change set of 65510 bytes fits a row, and replaying its record before
   the record of the row it changes fails; replaying it after that record works. *)
Theorem C23_marker_refuted : exists k h es, hist_ok h /\ logged k h es /\ run_entries rt_empty es = None /\
  exists t, run_entries rt_empty (rev es) = Some t /\ rt_get t k 0 = Some (Some (last_written (map fst h) 0)).
Proof. exact big_marker. Qed.
Print Assumptions C23_marker_refuted.

(* C24. Replaying the record of a removal fails on every key: never updated, or with any row the removal is newer than. *)
Theorem C24_remove_refuted k h v ts t : hist_ok h -> start (t k) h -> Z.even ts = true -> last_stamp h <= ts ->
  run_entry t (ERemove k v ts) = None.
Proof. exact (remove_after k h v ts t). Qed.
Print Assumptions C24_remove_refuted.
Example C24_remove_example : exists t, run_entries rt_empty [EPut [97] (ex_ch 0 [1]) 2] = Some t /\ rt_get t [97] 0 = Some (Some [1]) /\
  hist_ok [(RPut [(0, [1])], 2)] /\ start (t [97]) [(RPut [(0, [1])], 2)] /\ run_entries rt_empty [EPut [97] (ex_ch 0 [1]) 2; ERemove [97] [] 4] = None.
Proof.
  eexists. split; [vm_compute; reflexivity|]. split; [vm_compute; reflexivity|]. split.
  { split; [repeat constructor; cbn; lia|]. split; [cbn [map fst throughout]; unfold fits_bag; repeat split; vm_compute; reflexivity|cbn [stamped last_stamp]; repeat split; lia]. }
  split; [eexists; split; [vm_compute; reflexivity|vm_compute; reflexivity]|]. vm_compute. reflexivity.
Qed.

(* C41. The change set logged from the bytes of a request is parsed as the change set the client sent. *)
Theorem C41_request_record_partial seq cmd key cs ch : json_ok seq -> narrow seq -> json_ok cmd -> narrow cmd -> json_ok (JStr key) -> sent cs ch -> len cs + 3 < 2 ^ 31 ->
  exists v, put_changeset (unparse (JArr (seq :: cmd :: JStr key :: cs))) = Some v /\ parse_changeset v = Some ch.
Proof. exact (request_record seq cmd key cs ch). Qed.
Print Assumptions C41_request_record_partial.
Example C41_request_record_example : sent [JInt 0; JStr [1; 2]; JUns 300; JStr []] [(0, [1; 2]); (300, [])] /\
  exists v, put_changeset (unparse (JArr [JInt 5; JInt 8; JStr [97]; JInt 0; JStr [1; 2]; JUns 300; JStr []])) = Some v /\ parse_changeset v = Some [(0, [1; 2]); (300, [])].
Proof.
  split; [constructor; [now left|lia|cbn; lia|constructor; [now right|lia|cbn; lia|constructor]]|]. eexists. split; [vm_compute; reflexivity|]. vm_compute. reflexivity.
Qed.
(* The change set logged from a parsed request is not: replaying such a record fails. *)
Theorem C41_parsed_record_refuted k h cs ts t : hist_ok h -> start (t k) h -> Z.even ts = true -> last_stamp h < ts -> 0 < len cs ->
  run_entry t (EPut k (record_parsed cs) ts) = None.
Proof. exact (parsed_after k h cs ts t). Qed.
Print Assumptions C41_parsed_record_refuted.
Example C41_parsed_record_example : hist_ok [] /\ start (rt_empty [97]) [] /\ run_entry rt_empty (EPut [97] (record_parsed [JInt 0; JStr [1]]) 2) = None /\
  run_entry rt_empty (EPut [97] (ex_ch 0 [1]) 2) <> None.
Proof.
  split; [split; [constructor|split; [cbn [map throughout]; unfold fits_bag; vm_compute; reflexivity|exact I]]|]. split; [reflexivity|]. split; [vm_compute; reflexivity|]. vm_compute. discriminate.
Qed.
