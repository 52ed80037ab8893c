(* Several logs, their flushing, and recovery: C26, C36, C40. *)
From Verif Require Import Lib M_Key P_Key M_Circular P_Circular M_Msgpack M_Bag M_Log Spec_Log M_Logfile P_Log1 P_Log2 P_Log3 P_Log4 M_Logset P_Logset P_Recover P_Recover2.

(* Recovery reads a prefix of every log, at least what was synced, and applies exactly the updates of that prefix whose
   epochs lie in the range common to all logs; unless the log's file ends quiescent, no update of that range is missing
   from it. Missing for the full claim: files that end quiescent (see the refutations), stalled updates. *)
Theorem C26_kept_partial (epoch : Z) (old : list (list entry)) (acts : list act) (s : lset) (junk : bool) (ck_min ck_max : Z) (files : list (list Z))
    (r : recovered) (i : nat) (g : lg) (f : list Z) (run : replayed) :
  old_ok epoch old -> epoch + len acts < 2 ^ 63 -> no_stalls acts -> updates_ok acts -> ls_run (ls_init epoch old) acts = Some s ->
  Forall2 crash_file (s_logs s) files -> 0 <= ck_min < 2 ^ 63 -> 0 <= ck_max < 2 ^ 63 - 1 -> recover junk ck_min ck_max files = Some r ->
  nth_error (s_logs s) i = Some g -> nth_error files i = Some f -> nth_error (rec_logs r) i = Some run ->
  exists m rs, (l_disk g <= m <= length (l_all g))%nat /\ read_log f = Some rs /\ map view rs = map Some (firstn m (l_all g)) /\
    map view (rp_run run) = map (fun x => Some (snd x)) (filter has_key (wanted ck_min (rec_max r) (firstn m (l_all g)))) /\
    (ends_quiescent (firstn m (l_all g)) = false -> wanted ck_min (rec_max r) (firstn m (l_all g)) = wanted ck_min (rec_max r) (l_all g)).
Proof. exact (recover_spec epoch old acts s junk ck_min ck_max files r i g f run). Qed.
Print Assumptions C26_kept_partial.

(* Two logs; log 0 has an unflushed update in epoch 3; the cut is at epoch 2. *)
Definition kept_acts : list act :=
  [Begin 0; Commit 0 (up 97 2); Begin 1; Commit 1 (up 98 2); Tick; Begin 0; Commit 0 (up 99 4); Begin 1; Commit 1 (up 100 4); Logger 0; Synced 0; Logger 1; Synced 1; Tick; Begin 0; Commit 0 (up 101 6)].
Example C26_kept_example : no_stalls kept_acts /\ updates_ok kept_acts /\
  match outcome fresh2 kept_acts with
  | Some (s, r) => disk_le s = true /\ rec_max r = 2 /\ map (fun x => map view (rp_run x)) (rec_logs r) = [[Some (up 97 2)]; [Some (up 98 2)]] /\ max_flushed_epoch s = 2
  | None => False
  end.
Proof. split; [apply no_stallsb_ok; reflexivity|]. split; [apply updates_okb_ok; vm_compute; reflexivity|]. vm_compute. auto. Qed.

(* No cut: an update is lost although one recorded after it is kept. No update stalls, every log file has contents. *)
Theorem C26_wake_refuted : exists acts s files r a b pre mid post,
  no_stalls acts /\ updates_ok acts /\ ls_run (ls_init 1 [[]; []]) acts = Some s /\
  Forall2 crash_file (s_logs s) files /\ Forall (fun f => f <> []) files /\ recover true 0 0 files = Some r /\
  recorded acts = pre ++ a :: mid ++ b :: post /\ ~ In (Some a) (applied r) /\ In (Some b) (applied r).
Proof. exact lose_wake. Qed.
Print Assumptions C26_wake_refuted.
(* The same for a log file that is still empty. *)
Theorem C26_fresh_refuted : exists acts s files r a b pre mid post,
  no_stalls acts /\ updates_ok acts /\ ls_run (ls_init 1 [[]; []]) acts = Some s /\
  Forall2 crash_file (s_logs s) files /\ recover true 0 0 files = Some r /\
  recorded acts = pre ++ a :: mid ++ b :: post /\ ~ In (Some a) (applied r) /\ In (Some b) (applied r).
Proof. exact lose_fresh. Qed.
Print Assumptions C26_fresh_refuted.

(* The updates of a log that are not synced have epochs at or after its flushed epoch, and there are none if the log
   is quiescent. *)
Theorem C36_flushed_partial (epoch : Z) (old : list (list entry)) (acts : list act) (s : lset) (i : nat) (g : lg) :
  old_ok epoch old -> epoch + len acts < 2 ^ 63 -> no_stalls acts -> updates_ok acts -> ls_run (ls_init epoch old) acts = Some s ->
  nth_error (s_logs s) i = Some g ->
  exists rest, tagged 0 (l_all g) = tagged 0 (firstn (l_disk g) (l_all g)) ++ rest /\ (forall t u, In (t, u) rest -> l_flushed g <= t) /\ (lg_quiescent g = true -> rest = []).
Proof. exact (flushed_ok epoch old acts s i g). Qed.
Print Assumptions C36_flushed_partial.

(* What the server reports (max_flushed_epoch): every update of an earlier epoch is synced, in whichever log it is. Missing
   for the full claim: logs never flushed so far (C36_never_flushed_refuted), and that recovery replays these epochs. *)
Theorem C36_report_partial (epoch : Z) (old : list (list entry)) (acts : list act) (s : lset) (i : nat) (g : lg) (t : Z) (u : entry) :
  old_ok epoch old -> epoch + len acts < 2 ^ 63 -> no_stalls acts -> updates_ok acts -> ls_run (ls_init epoch old) acts = Some s ->
  (forall g', In g' (s_logs s) -> lg_quiescent g' = false -> l_flushed g' <> 0) ->
  nth_error (s_logs s) i = Some g -> In (t, u) (tagged 0 (l_all g)) -> t < max_flushed_epoch s ->
  In (t, u) (tagged 0 (firstn (l_disk g) (l_all g))).
Proof. exact (report_ok epoch old acts s i g t u). Qed.
Print Assumptions C36_report_partial.
(* Both logs have been flushed, to different epochs; the report is the smaller one. *)
Example C36_report_example : let acts := kept_acts ++ [Logger 0; Synced 0] in no_stalls acts /\ updates_ok acts /\
  match ls_run (ls_init 1 [[]; []]) acts with
  | Some s => map l_flushed (s_logs s) = [3; 2] /\ map lg_quiescent (s_logs s) = [false; false] /\ max_flushed_epoch s = 2
  | None => False
  end.
Proof. split; [apply no_stallsb_ok; reflexivity|]. split; [apply updates_okb_ok; vm_compute; reflexivity|]. vm_compute. auto. Qed.

(* An update below its log's flushed epoch, or of a quiescent log, is restored if recovery replays its epoch. Missing for
   the full claim: recovery replays every epoch below max_flushed_epoch, which is false, as the next theorems show;
   empty keys, see C25_empty_key_refuted. *)
Theorem C36_restored_partial (epoch : Z) (old : list (list entry)) (acts : list act) (s : lset) (junk : bool) (ck_min ck_max : Z) (files : list (list Z))
    (r : recovered) (i : nat) (g : lg) (f : list Z) (run : replayed) (t : Z) (u : entry) :
  old_ok epoch old -> epoch + len acts < 2 ^ 63 -> no_stalls acts -> updates_ok acts -> ls_run (ls_init epoch old) acts = Some s ->
  Forall2 crash_file (s_logs s) files -> 0 <= ck_min < 2 ^ 63 -> 0 <= ck_max < 2 ^ 63 - 1 -> recover junk ck_min ck_max files = Some r ->
  nth_error (s_logs s) i = Some g -> nth_error files i = Some f -> nth_error (rec_logs r) i = Some run ->
  In (t, u) (tagged 0 (l_all g)) -> update_key u <> Some [] -> t < l_flushed g \/ lg_quiescent g = true -> ck_min <= t < rec_max r ->
  In (Some u) (map view (rp_run run)).
Proof. exact (restored epoch old acts s junk ck_min ck_max files r i g f run t u). Qed.
Print Assumptions C36_restored_partial.
Example C36_example : no_stalls kept_acts /\ updates_ok kept_acts /\
  match outcome fresh2 kept_acts with
  | Some (s, r) => match nth_error (s_logs s) 0 with
                   | Some g => tagged 0 (l_all g) = [(1, up 97 2); (2, up 99 4); (3, up 101 6)] /\ l_flushed g = 2 /\ l_disk g = 4%nat /\ 1 < rec_max r
                   | None => False
                   end
  | None => False
  end.
Proof. split; [apply no_stallsb_ok; reflexivity|]. split; [apply updates_okb_ok; vm_compute; reflexivity|]. vm_compute. auto. Qed.

(* An update that waited for room in the buffer is recorded behind a later epoch; it is synced, below max_flushed_epoch
   and in the replayed range, and yet not restored. *)
Theorem C36_stall_refuted : exists acts s files r g t u,
  updates_ok acts /\ ls_run (ls_init 1 [[]; []]) acts = Some s /\ Forall2 crash_file (s_logs s) files /\ recover true 0 0 files = Some r /\
  nth_error (s_logs s) 0 = Some g /\ In (t, u) (tagged 0 (firstn (l_disk g) (l_all g))) /\ t < max_flushed_epoch s /\ 0 < t < rec_max r /\ ~ In (Some u) (applied r).
Proof. exact lose_stall. Qed.
Print Assumptions C36_stall_refuted.
(* Another log is quiescent and its thread has not noticed a wake: updates that are synced and below max_flushed_epoch are
   not restored; with a checkpoint of these epochs, recovery fails. *)
Theorem C36_quiescent_refuted : exists acts s files r g t u,
  no_stalls acts /\ updates_ok acts /\ ls_run (ls_init 1 [[]; []]) acts = Some s /\ Forall2 crash_file (s_logs s) files /\ recover true 0 0 files = Some r /\
  nth_error (s_logs s) 0 = Some g /\ In (t, u) (tagged 0 (firstn (l_disk g) (l_all g))) /\ t + 1 < max_flushed_epoch s /\ ~ In (Some u) (applied r) /\
  recover true t (t + 1) files = None.
Proof. exact lose_asleep. Qed.
Print Assumptions C36_quiescent_refuted.
(* A log that has never been flushed does not hold back max_flushed_epoch. *)
Theorem C36_never_flushed_refuted : exists acts s g t u,
  no_stalls acts /\ updates_ok acts /\ ls_run (ls_init 1 [[]; []]) acts = Some s /\ nth_error (s_logs s) 0 = Some g /\
  In (t, u) (tagged 0 (l_all g)) /\ t < max_flushed_epoch s /\ ~ In (t, u) (tagged 0 (firstn (l_disk g) (l_all g))) /\ l_xe g = None.
Proof. exact lose_unflushed. Qed.
Print Assumptions C36_never_flushed_refuted.

(* A log left by recovery may end with an epoch after the one at which the server resumes; updates recorded and synced
   after that are not restored by the next recovery, although it replays their epoch. *)
Theorem C40_second_recovery_refuted : exists acts1 s1 files1 r1 old acts2 s2 files2 r2 g t u,
  no_stalls acts1 /\ updates_ok acts1 /\ no_stalls acts2 /\ updates_ok acts2 /\
  ls_run (ls_init 1 [[]; []]) acts1 = Some s1 /\ Forall2 crash_file (s_logs s1) files1 /\ recover true 0 0 files1 = Some r1 /\
  left_files files1 r1 = map (fun l => log_file (plain l)) old /\
  ls_run (ls_init (rec_epoch r1) old) acts2 = Some s2 /\ Forall2 crash_file (s_logs s2) files2 /\ recover true 0 0 files2 = Some r2 /\
  nth_error (s_logs s2) 0 = Some g /\ In (t, u) (tagged 0 (firstn (l_disk g) (l_all g))) /\ t < max_flushed_epoch s2 /\ 0 < t < rec_max r2 /\ ~ In (Some u) (applied r2).
Proof. exact lose_twice. Qed.
Print Assumptions C40_second_recovery_refuted.
