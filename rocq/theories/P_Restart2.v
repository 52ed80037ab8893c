(* Restarting from a checkpoint: the theorem and the runs after which the server cannot restart. *)
From Verif Require Import Lib M_Key P_Key M_Circular P_Circular M_Msgpack M_Bag M_Log Spec_Log M_Logfile P_Log1 P_Log2 P_Log3 P_Log4 M_Logset P_Logset P_Recover P_Recover2 M_Restart Spec_Restart P_Restart1.

Lemma run_epoch : forall l s s', Forall (inv (s_epoch s)) (s_logs s) -> 0 < s_epoch s -> s_epoch s + len l < 2 ^ 63 -> no_stalls l -> updates_ok l -> ls_run s l = Some s' -> s_epoch s <= s_epoch s' <= s_epoch s + len l.
Proof.
  induction l as [|a l IH]; intros s0 s0' W G1 G2 G3 G4 G5; cbn [ls_run] in G5; [injection G5 as <-; unfold len; cbn; lia|]. destruct (ls_step s0 a) as [s2|] eqn:Es; [|discriminate]. unfold len in *. cbn [length] in G2 |- *.
  destruct (step_inv s0 a s2 W G1 ltac:(lia)) as [A B]; auto. { intros i ->. apply (G3 i). now left. } { intros i u ->. apply (G4 i u). now left. }
  specialize (IH s2 s0' A ltac:(lia) ltac:(lia)). rewrite (Nat2Z.inj_succ (length l)). assert (X : s_epoch s2 <= s_epoch s0' <= s_epoch s2 + Z.of_nat (length l)); [|lia].
  apply IH; auto; [intros i Hi; apply (G3 i); now right|intros i u Hi; apply (G4 i u); now right].
Qed.

Lemma life_restart epoch old a b c d s s' junk ck_min ck_max files : old_ok epoch old -> epoch + len (a ++ b ++ c ++ d) < 2 ^ 63 - 1 -> no_stalls (a ++ b ++ c ++ d) -> updates_ok (a ++ b ++ c ++ d) ->
  ck_life (ls_init epoch old) a b c s ck_min ck_max -> awake s ck_max -> ls_run s d = Some s' -> slept_after s' ck_max -> began_before s' ck_min ->
  Forall2 crash_file (s_logs s') files -> exists r, recover junk ck_min ck_max files = Some r /\ rec_min r = ck_min /\ ck_max < rec_max r.
Proof.
  intros H1 H2 H3 H4 (s1 & s2 & R1 & E1 & R2 & E2 & R3 & HM) HA R4 HS HB HF.
  assert (R12 : ls_run (ls_init epoch old) (a ++ b) = Some s2) by (rewrite (run_app a b _ _ R1); exact R2).
  assert (R123 : ls_run (ls_init epoch old) ((a ++ b) ++ c) = Some s) by (rewrite (run_app (a ++ b) c _ _ R12); exact R3).
  assert (LL : len (a ++ b ++ c ++ d) = len a + len b + len c + len d) by (unfold len; rewrite !app_length; lia).
  assert (LP : 0 <= len a /\ 0 <= len b /\ 0 <= len c /\ 0 <= len d) by (unfold len; lia).
  assert (Na : no_stalls a) by (intros i Hi; apply (H3 i), in_app_iff; auto). assert (Ua : updates_ok a) by (intros i u Hi; apply (H4 i u), in_app_iff; auto).
  assert (Nb : no_stalls b) by (intros i Hi; apply (H3 i), in_app_iff; right; apply in_app_iff; auto). assert (Ub : updates_ok b) by (intros i u Hi; apply (H4 i u), in_app_iff; right; apply in_app_iff; auto).
  pose proof (run_epoch a _ _ (init_inv epoch old H1) (proj1 H1) ltac:(cbn; lia) Na Ua R1) as P1. cbn [ls_init s_epoch] in P1.
  destruct (reach_inv epoch old a s1 H1 ltac:(lia) Na Ua R1) as [V1 _]. pose proof (proj1 H1) as Pe.
  pose proof (run_epoch b _ _ V1 ltac:(lia) ltac:(lia) Nb Ub R2) as P2.
  replace (a ++ b ++ c ++ d) with (((a ++ b) ++ c) ++ d) in * by now rewrite <- !app_assoc.
  eapply (ck_restart epoch old ((a ++ b) ++ c) d s s'); eauto; lia.
Qed.

Lemma logs_restart epoch old acts s junk files : old_ok epoch old -> epoch + len acts < 2 ^ 63 -> no_stalls acts -> updates_ok acts -> ls_run (ls_init epoch old) acts = Some s ->
  Forall2 crash_file (s_logs s) files -> exists r, recover junk 0 0 files = Some r.
Proof. intros H1 H2 H3 H4 H5 H6. destruct (recover_starts epoch old acts s junk 0 0 files H1 H2 H3 H4 H5 H6 ltac:(lia) ltac:(lia) (or_introl eq_refl)) as (r & Hr & _). eauto. Qed.

(* Facts about a life with a checkpoint, checked by computation. *)
Definition life (s0 : lset) (a b c d : list act) : option (lset * lset * Z * Z) :=
  match ls_run s0 a with None => None | Some s1 => match ls_run s1 b with None => None | Some s2 => match ls_run s2 c with None => None | Some s =>
  match ls_run s d with None => None | Some s' => if may_commit s (s_epoch s2) then Some (s, s', s_epoch s1, s_epoch s2) else None end end end end.
Lemma life_facts s0 a b c d (P : lset -> lset -> Z -> Z -> bool) : match life s0 a b c d with Some (s, s', m, x) => P s s' m x | None => false end = true ->
  exists s s' m x, ck_life s0 a b c s m x /\ ls_run s d = Some s' /\ P s s' m x = true.
Proof.
  unfold life. destruct (ls_run s0 a) as [s1|] eqn:E1; [|discriminate]. destruct (ls_run s1 b) as [s2|] eqn:E2; [|discriminate]. destruct (ls_run s2 c) as [s|] eqn:E3; [|discriminate].
  destruct (ls_run s d) as [s'|] eqn:E4; [|discriminate]. destruct (may_commit s (s_epoch s2)) eqn:E5; [|discriminate]. intros H. exists s, s', (s_epoch s1), (s_epoch s2). split; [|auto]. exists s1, s2. auto 10.
Qed.
Definition awakeb (s : lset) (x : Z) : bool := forallb (fun g => if lg_quiescent g then x <? l_flushed g else negb (l_flushed g =? 0)) (s_logs s).
Lemma awakeb_ok s x : awakeb s x = true -> awake s x.
Proof. unfold awakeb. rewrite forallb_forall. intros H g Hg. specialize (H g Hg). destruct (lg_quiescent g); lia. Qed.
Definition sleptb (s : lset) (x : Z) : bool := forallb (fun g => negb (ends_quiescent (firstn (l_disk g) (l_all g))) || (x <? epoch_after 0 (firstn (l_disk g) (l_all g)))) (s_logs s).
Lemma sleptb_ok s x : sleptb s x = true -> slept_after s x.
Proof. unfold sleptb. rewrite forallb_forall. intros H g Hg Q. specialize (H g Hg). rewrite Q in H. cbn in H. lia. Qed.
Definition beganb (s : lset) (m : Z) : bool := forallb (fun g => first_epoch (l_all g) <? m) (s_logs s).
Lemma beganb_ok s m : beganb s m = true -> began_before s m.
Proof. unfold beganb. rewrite forallb_forall. intros H g Hg. specialize (H g Hg). lia. Qed.
Definition stops (m x : Z) (files : list (list Z)) : bool := match recover true m x files, recover false m x files with None, None => true | _, _ => false end.
Lemma stops_ok m x files : stops m x files = true -> forall junk, recover junk m x files = None.
Proof. unfold stops. intros H []; destruct (recover true m x files), (recover false m x files); auto; discriminate. Qed.
Definition plus (i : nat) (u : entry) : list act := [Begin i; Commit i u].
Definition flush (i : nat) : list act := [Logger i; Synced i].
Definition legal (a b c d : list act) : Prop := no_stalls (a ++ b ++ c ++ d) /\ updates_ok (a ++ b ++ c ++ d).
Ltac is_legal := split; [apply no_stallsb_ok; reflexivity|apply updates_okb_ok; vm_compute; reflexivity].
Ltac bools := repeat match goal with H : _ && _ = true |- _ => apply andb_true_iff in H; destruct H end.

(* 1. The checkpoint begins in the first epoch of a log. *)
Lemma stop_first : exists a b c d s s' ck_min ck_max files, legal a b c d /\ ck_life (ls_init 1 [[]; []]) a b c s ck_min ck_max /\ awake s ck_max /\ ls_run s d = Some s' /\ slept_after s' ck_max /\
  Forall2 crash_file (s_logs s') files /\ forall junk, recover junk ck_min ck_max files = None.
Proof.
  pose (b := plus 0 (up 97 2) ++ plus 1 (up 98 2) ++ [Tick]). pose (c := [Tick] ++ plus 0 (up 99 4) ++ plus 1 (up 100 4) ++ flush 0 ++ flush 1).
  destruct (life_facts (ls_init 1 [[]; []]) [] b c [] (fun s s' m x => awakeb s x && (sleptb s' x && (disk_le s' && stops m x (disk_files s'))))) as (s & s' & m & x & L & R & B); [vm_compute; reflexivity|]. bools.
  exists [], b, c, [], s, s', m, x, (disk_files s'). split; [is_legal|]. repeat split; auto using awakeb_ok, sleptb_ok, disk_crash, stops_ok.
Qed.
(* 2. A log asleep at the commit is about to record an update that was begun before the checkpoint ended. *)
Lemma stop_held : exists a b c d s s' ck_min ck_max files, legal a b c d /\ ck_life (ls_init 1 [[]; []]) a b c s ck_min ck_max /\ ls_run s d = Some s' /\ slept_after s' ck_max /\ began_before s' ck_min /\
  (forall g, In g (s_logs s) -> l_flushed g <> 0) /\ Forall2 crash_file (s_logs s') files /\ forall junk, recover junk ck_min ck_max files = None.
Proof.
  pose (a := flush 0 ++ flush 1 ++ [Tick]). pose (b := [Begin 0]). pose (c := [Tick] ++ plus 1 (up 98 4) ++ flush 1). pose (d := [Commit 0 (up 97 4)] ++ flush 0).
  destruct (life_facts (ls_init 1 [[]; []]) a b c d (fun s s' m x => sleptb s' x && (beganb s' m && (forallb (fun g => negb (l_flushed g =? 0)) (s_logs s) && (disk_le s' && stops m x (disk_files s')))))) as (s & s' & m & x & L & R & B); [vm_compute; reflexivity|]. bools.
  exists a, b, c, d, s, s', m, x, (disk_files s'). split; [is_legal|]. repeat split; auto using sleptb_ok, beganb_ok, disk_crash, stops_ok.
  rewrite forallb_forall in H1. intros g Hg. specialize (H1 g Hg). lia.
Qed.
(* 3. A log that has not been flushed so far makes max_flushed_epoch 0. *)
Lemma stop_unflushed : exists a b c d s s' ck_min ck_max files, legal a b c d /\ ck_life (ls_init 1 [[]; []]) a b c s ck_min ck_max /\ ls_run s d = Some s' /\ slept_after s' ck_max /\ began_before s' ck_min /\
  (forall g, In g (s_logs s) -> lg_quiescent g = false) /\ Forall2 crash_file (s_logs s') files /\ forall junk, recover junk ck_min ck_max files = None.
Proof.
  pose (a := plus 0 (up 97 2) ++ plus 1 (up 98 2) ++ flush 0 ++ [Logger 1; Tick]). pose (d := [Synced 1]).
  destruct (life_facts (ls_init 1 [[]; []]) a [] [] d (fun s s' m x => sleptb s' x && (beganb s' m && (forallb (fun g => negb (lg_quiescent g)) (s_logs s) && (disk_le s' && stops m x (disk_files s')))))) as (s & s' & m & x & L & R & B); [vm_compute; reflexivity|]. bools.
  exists a, [], [], d, s, s', m, x, (disk_files s'). split; [is_legal|]. repeat split; auto using sleptb_ok, beganb_ok, disk_crash, stops_ok.
  rewrite forallb_forall in H1. intros g Hg. specialize (H1 g Hg). now apply negb_true_iff.
Qed.
(* 4. A log asleep since before the checkpoint records an update just before the commit; the crash loses it. *)
Lemma stop_asleep : exists a b c d s s' ck_min ck_max files, legal a b c d /\ ck_life (ls_init 1 [[]; []]) a b c s ck_min ck_max /\ awake s ck_max /\ ls_run s d = Some s' /\ began_before s' ck_min /\
  Forall2 crash_file (s_logs s') files /\ forall junk, recover junk ck_min ck_max files = None.
Proof.
  pose (a := flush 0 ++ flush 1 ++ [Tick]). pose (b := plus 0 (up 97 2)). pose (c := [Tick] ++ plus 1 (up 98 4) ++ plus 0 (up 99 4) ++ flush 0).
  destruct (life_facts (ls_init 1 [[]; []]) a b c [] (fun s s' m x => awakeb s x && (beganb s' m && (disk_le s' && stops m x (disk_files s'))))) as (s & s' & m & x & L & R & B); [vm_compute; reflexivity|]. bools.
  exists a, b, c, [], s, s', m, x, (disk_files s'). split; [is_legal|]. repeat split; auto using awakeb_ok, beganb_ok, disk_crash, stops_ok.
Qed.
(* 5. A restart with one more log. *)
Definition grown : list (list entry) := [[EEpoch 1; up 97 2; EEpoch 3]; []].
Lemma stop_more_logs : exists a b c d s s' ck_min ck_max files r old acts2 s2 files2, legal a b c d /\ ck_life (ls_init 1 [[]]) a b c s ck_min ck_max /\ awake s ck_max /\ ls_run s d = Some s' /\ slept_after s' ck_max /\ began_before s' ck_min /\
  Forall2 crash_file (s_logs s') files /\ recover true ck_min ck_max (files ++ [[]]) = Some r /\ left_files (files ++ [[]]) r = map (fun l => log_file (plain l)) old /\
  no_stalls acts2 /\ updates_ok acts2 /\ ls_run (ls_init (rec_epoch r) old) acts2 = Some s2 /\ awake s2 ck_max /\ slept_after s2 ck_max /\ Forall2 crash_file (s_logs s2) files2 /\
  forall junk, recover junk ck_min ck_max files2 = None.
Proof.
  pose (a := plus 0 (up 97 2) ++ [Tick]). pose (c := [Tick] ++ plus 0 (up 98 4) ++ flush 0). pose (acts2 := plus 0 (up 99 6) ++ plus 1 (up 100 6) ++ flush 0 ++ flush 1).
  destruct (life_facts (ls_init 1 [[]]) a [] c [] (fun s s' m x => awakeb s x && (sleptb s' x && (beganb s' m && (disk_le s' && ((m =? 2) && ((x =? 2) &&
    match recover true 2 2 (disk_files s' ++ [[]]) with Some r => (rec_epoch r =? 4) && files_b (left_files (disk_files s' ++ [[]]) r) (map (fun l => log_file (plain l)) grown) | None => false end)))))))
    as (s & s' & m & x & L & R & B); [vm_compute; reflexivity|]. bools.
  assert (m = 2) as -> by lia. assert (x = 2) as -> by lia. destruct (recover true 2 2 (disk_files s' ++ [[]])) as [r|] eqn:Er; [|discriminate]. bools. assert (X : rec_epoch r = 4) by lia.
  destruct (outcome_facts (ls_init 4 grown) acts2 (fun s2 _ => awakeb s2 2 && (sleptb s2 2 && (disk_le s2 && stops 2 2 (disk_files s2))))) as (s2 & r2 & E1 & _ & B2); [vm_compute; reflexivity|]. bools.
  exists a, [], c, [], s, s', 2, 2, (disk_files s'), r, grown, acts2, s2, (disk_files s2). split; [is_legal|].
  split; [exact L|]. split; [now apply awakeb_ok|]. split; [exact R|]. split; [now apply sleptb_ok|]. split; [now apply beganb_ok|]. split; [now apply disk_crash|]. split; [exact Er|].
  split; [now apply files_t|]. split; [apply no_stallsb_ok; reflexivity|]. split; [apply updates_okb_ok; vm_compute; reflexivity|]. split; [rewrite X; exact E1|]. split; [now apply awakeb_ok|]. split; [now apply sleptb_ok|].
  split; [now apply disk_crash|]. now apply stops_ok.
Qed.
(* 6. A restart with one log fewer loses a synced and reported update without any complaint. *)
Lemma lose_fewer_logs : exists acts s files r r' g t u, no_stalls acts /\ updates_ok acts /\ ls_run (ls_init 1 [[]; []]) acts = Some s /\ Forall2 crash_file (s_logs s) files /\
  nth_error (s_logs s) 1 = Some g /\ In (t, u) (tagged 0 (firstn (l_disk g) (l_all g))) /\ t < max_flushed_epoch s /\
  recover true 0 0 files = Some r /\ In (Some u) (applied r) /\ recover true 0 0 (firstn 1 files) = Some r' /\ ~ In (Some u) (applied r').
Proof.
  pose (acts := plus 0 (up 97 2) ++ plus 1 (up 98 2) ++ [Tick] ++ plus 0 (up 99 4) ++ plus 1 (up 100 4) ++ flush 0 ++ flush 1).
  destruct (outcome_facts fresh2 acts (fun s r => disk_le s && (applied_b r (up 98 2) && (Nat.ltb 1 (length (s_logs s)) && (tagged_b (1, up 98 2) (firstn (l_disk (log_at s 1)) (l_all (log_at s 1))) && ((1 <? max_flushed_epoch s) &&
    match recover true 0 0 (firstn 1 (disk_files s)) with Some r' => negb (applied_b r' (up 98 2)) | None => false end)))))) as (s & r & E1 & E2 & B); [vm_compute; reflexivity|]. bools.
  destruct (recover true 0 0 (firstn 1 (disk_files s))) as [r'|] eqn:Er; [|discriminate].
  exists acts, s, (disk_files s), r, r', (log_at s 1), 1, (up 98 2). split; [apply no_stallsb_ok; reflexivity|]. split; [apply updates_okb_ok; vm_compute; reflexivity|].
  split; [exact E1|]. split; [now apply disk_crash|]. split; [now apply log_at_ok|]. split; [now apply tagged_t|]. split; [lia|]. split; [exact E2|]. split; [now apply applied_t|]. split; [exact Er|]. now apply applied_f, negb_true_iff.
Qed.
