(* Restarting from the logs and from a checkpoint: C58. *)
From Verif Require Import Lib M_Key P_Key M_Circular P_Circular M_Msgpack M_Bag M_Log Spec_Log M_Logfile P_Log1 P_Log2 P_Log3 P_Log4 M_Logset P_Logset P_Recover P_Recover2 M_Restart Spec_Restart P_Restart1 P_Restart2.

(* Without a checkpoint, recovery never stops, whatever the crash left of the logs. Missing: stalled updates. *)
Theorem C58_logs_partial (epoch : Z) (old : list (list entry)) (acts : list act) (s : lset) (junk : bool) (files : list (list Z)) :
  old_ok epoch old -> epoch + len acts < 2 ^ 63 -> no_stalls acts -> updates_ok acts -> ls_run (ls_init epoch old) acts = Some s ->
  Forall2 crash_file (s_logs s) files -> exists r, recover junk 0 0 files = Some r.
Proof. exact (logs_restart epoch old acts s junk files). Qed.
Print Assumptions C58_logs_partial.

(* A server that commits a checkpoint while no log has been asleep since the checkpoint ended can restart from it after
   any crash that finds no log asleep for longer than that, provided every log began before the checkpoint; and it replays
   the epochs of the checkpoint. Missing for the full claim: those conditions (see the refutations), stalled updates. *)
Theorem C58_checkpoint_partial (epoch : Z) (old : list (list entry)) (a b c d : list act) (s s' : lset) (junk : bool) (ck_min ck_max : Z) (files : list (list Z)) :
  old_ok epoch old -> epoch + len (a ++ b ++ c ++ d) < 2 ^ 63 - 1 -> no_stalls (a ++ b ++ c ++ d) -> updates_ok (a ++ b ++ c ++ d) ->
  ck_life (ls_init epoch old) a b c s ck_min ck_max -> awake s ck_max -> ls_run s d = Some s' -> slept_after s' ck_max -> began_before s' ck_min ->
  Forall2 crash_file (s_logs s') files -> exists r, recover junk ck_min ck_max files = Some r /\ rec_min r = ck_min /\ ck_max < rec_max r.
Proof. exact (life_restart epoch old a b c d s s' junk ck_min ck_max files). Qed.
Print Assumptions C58_checkpoint_partial.

(* A checkpoint of the epochs 2 and 3; log 1 falls asleep in epoch 5, after the commit, and log 0 is written once more. *)
Definition good_a : list act := plus 0 (up 97 2) ++ plus 1 (up 98 2) ++ flush 0 ++ flush 1 ++ [Tick].
Definition good_b : list act := plus 0 (up 99 4) ++ [Tick].
Definition good_c : list act := [Tick] ++ plus 0 (up 100 6) ++ plus 1 (up 101 6) ++ flush 0 ++ flush 1.
Definition good_d : list act := [Tick] ++ flush 1 ++ plus 0 (up 102 8) ++ flush 0.
Example C58_checkpoint_example : legal good_a good_b good_c good_d /\ old_ok 1 [[]; []] /\ exists s s' files,
  ck_life (ls_init 1 [[]; []]) good_a good_b good_c s 2 3 /\ awake s 3 /\ ls_run s good_d = Some s' /\ slept_after s' 3 /\ began_before s' 2 /\ Forall2 crash_file (s_logs s') files /\
  exists r, recover true 2 3 files = Some r /\ rec_max r = 5 /\ applied r = [Some (up 99 4); Some (up 100 6); Some (up 101 6)].
Proof.
  split; [is_legal|]. split; [split; [lia|]; repeat constructor|].
  destruct (life_facts (ls_init 1 [[]; []]) good_a good_b good_c good_d (fun s s' m x => awakeb s x && (sleptb s' x && (beganb s' m && (disk_le s' && ((m =? 2) && ((x =? 3) &&
    match recover true 2 3 (disk_files s') with Some r => (rec_max r =? 5) && (if list_eq_dec oentry_dec (applied r) [Some (up 99 4); Some (up 100 6); Some (up 101 6)] then true else false) | None => false end)))))))
    as (s & s' & m & x & L & R & B); [vm_compute; reflexivity|]. bools.
  assert (m = 2) as -> by lia. assert (x = 3) as -> by lia. destruct (recover true 2 3 (disk_files s')) as [r|] eqn:Er; [|discriminate]. bools.
  exists s, s', (disk_files s'). split; [exact L|]. split; [now apply awakeb_ok|]. split; [exact R|]. split; [now apply sleptb_ok|]. split; [now apply beganb_ok|]. split; [now apply disk_crash|].
  exists r. split; [exact Er|]. split; [lia|]. destruct (list_eq_dec oentry_dec (applied r) [Some (up 99 4); Some (up 100 6); Some (up 101 6)]); [assumption|discriminate].
Qed.
Example C58_logs_example : no_stalls wake_acts /\ updates_ok wake_acts /\ exists s r, ls_run (ls_init 1 [[]; []]) wake_acts = Some s /\ Forall2 crash_file (s_logs s) (disk_files s) /\ recover true 0 0 (disk_files s) = Some r.
Proof.
  split; [apply no_stallsb_ok; reflexivity|]. split; [apply updates_okb_ok; vm_compute; reflexivity|].
  destruct (outcome_facts fresh2 wake_acts (fun s _ => disk_le s)) as (s & r & E1 & E2 & B); [vm_compute; reflexivity|]. exists s, r. auto using disk_crash.
Qed.

(* A checkpoint that begins in the first epoch of a log: the server commits it and cannot start again. *)
Theorem C58_first_refuted : exists a b c d s s' ck_min ck_max files, legal a b c d /\ ck_life (ls_init 1 [[]; []]) a b c s ck_min ck_max /\ awake s ck_max /\
  ls_run s d = Some s' /\ slept_after s' ck_max /\ Forall2 crash_file (s_logs s') files /\ forall junk, recover junk ck_min ck_max files = None.
Proof. exact stop_first. Qed.
Print Assumptions C58_first_refuted.
(* A log asleep at the commit records an update whose epoch was read before the checkpoint ended. *)
Theorem C58_held_refuted : exists a b c d s s' ck_min ck_max files, legal a b c d /\ ck_life (ls_init 1 [[]; []]) a b c s ck_min ck_max /\
  ls_run s d = Some s' /\ slept_after s' ck_max /\ began_before s' ck_min /\ (forall g, In g (s_logs s) -> l_flushed g <> 0) /\
  Forall2 crash_file (s_logs s') files /\ forall junk, recover junk ck_min ck_max files = None.
Proof. exact stop_held. Qed.
Print Assumptions C58_held_refuted.
(* A log that has never been flushed: max_flushed_epoch is 0 and the checkpoint is committed at once. *)
Theorem C58_unflushed_refuted : exists a b c d s s' ck_min ck_max files, legal a b c d /\ ck_life (ls_init 1 [[]; []]) a b c s ck_min ck_max /\
  ls_run s d = Some s' /\ slept_after s' ck_max /\ began_before s' ck_min /\ (forall g, In g (s_logs s) -> lg_quiescent g = false) /\
  Forall2 crash_file (s_logs s') files /\ forall junk, recover junk ck_min ck_max files = None.
Proof. exact stop_unflushed. Qed.
Print Assumptions C58_unflushed_refuted.
(* A log asleep since before the checkpoint: the update that counts it as flushed is not on disk. *)
Theorem C58_asleep_refuted : exists a b c d s s' ck_min ck_max files, legal a b c d /\ ck_life (ls_init 1 [[]; []]) a b c s ck_min ck_max /\ awake s ck_max /\
  ls_run s d = Some s' /\ began_before s' ck_min /\ Forall2 crash_file (s_logs s') files /\ forall junk, recover junk ck_min ck_max files = None.
Proof. exact stop_asleep. Qed.
Print Assumptions C58_asleep_refuted.
(* A server restarted with one more log, from a checkpoint and logs that meet every condition, runs; after the next crash
   it cannot start again from that checkpoint. *)
Theorem C58_more_logs_refuted : exists a b c d s s' ck_min ck_max files r old acts2 s2 files2,
  legal a b c d /\ ck_life (ls_init 1 [[]]) a b c s ck_min ck_max /\ awake s ck_max /\ ls_run s d = Some s' /\ slept_after s' ck_max /\ began_before s' ck_min /\
  Forall2 crash_file (s_logs s') files /\ recover true ck_min ck_max (files ++ [[]]) = Some r /\ left_files (files ++ [[]]) r = map (fun l => log_file (plain l)) old /\
  no_stalls acts2 /\ updates_ok acts2 /\ ls_run (ls_init (rec_epoch r) old) acts2 = Some s2 /\ awake s2 ck_max /\ slept_after s2 ck_max /\ Forall2 crash_file (s_logs s2) files2 /\
  forall junk, recover junk ck_min ck_max files2 = None.
Proof. exact stop_more_logs. Qed.
Print Assumptions C58_more_logs_refuted.
(* A server restarted with one log fewer starts, without an update that was on disk and reported. *)
Theorem C58_fewer_logs_refuted : exists acts s files r r' g t u, no_stalls acts /\ updates_ok acts /\ ls_run (ls_init 1 [[]; []]) acts = Some s /\ Forall2 crash_file (s_logs s) files /\
  nth_error (s_logs s) 1 = Some g /\ In (t, u) (tagged 0 (firstn (l_disk g) (l_all g))) /\ t < max_flushed_epoch s /\
  recover true 0 0 files = Some r /\ In (Some u) (applied r) /\ recover true 0 0 (firstn 1 files) = Some r' /\ ~ In (Some u) (applied r').
Proof. exact lose_fewer_logs. Qed.
Print Assumptions C58_fewer_logs_refuted.
