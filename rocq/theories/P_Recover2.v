(* Schedules on which recovery loses updates. *)
From Verif Require Import Lib M_Key P_Key M_Circular P_Circular M_Msgpack M_Bag M_Log Spec_Log M_Logfile P_Log1 P_Log2 P_Log3 P_Log4 M_Logset P_Logset P_Recover.

(* The files when exactly the synced entries are found. *)
Definition disk_files (s : lset) : list (list Z) := map (fun g => log_file (plain (firstn (l_disk g) (l_all g)))) (s_logs s).
Definition disk_le (s : lset) : bool := forallb (fun g => Nat.leb (l_disk g) (l_sent g)) (s_logs s).
Lemma disk_crash s : disk_le s = true -> Forall2 crash_file (s_logs s) (disk_files s).
Proof.
  unfold disk_le, disk_files. induction (s_logs s) as [|g l IH]; cbn [forallb map]; intros H; constructor.
  - apply andb_true_iff in H. destruct H as [H _]. apply Nat.leb_le in H. exists (length (log_file (plain (firstn (l_disk g) (l_all g))))). split; [lia|].
    replace (firstn (l_disk g) (l_all g)) with (firstn (l_disk g) (firstn (l_sent g) (l_all g))) by (rewrite firstn_firstn; f_equal; lia).
    rewrite <- plain_firstn. rewrite <- (firstn_skipn (l_disk g) (plain (firstn (l_sent g) (l_all g)))) at 3. rewrite file_app, firstn_app, firstn_all, Nat.sub_diag, firstn_O, app_nil_r. reflexivity.
  - apply IH. apply andb_true_iff in H. tauto.
Qed.
Definition updates_okb (l : list act) : bool := forallb (fun a => match a with Commit _ u => entry_okb u && match update_key u with Some _ => true | None => false end | _ => true end) l.
Lemma updates_okb_ok l : updates_okb l = true -> updates_ok l.
Proof.
  unfold updates_okb, updates_ok. rewrite forallb_forall. intros H i u Hin. apply H in Hin. apply andb_true_iff in Hin. destruct Hin as [A B]. split; [|now apply entry_okb_ok].
  unfold is_upd. destruct (update_key u); [discriminate|discriminate B].
Qed.
Definition no_stallsb (l : list act) : bool := forallb (fun a => match a with Stall _ => false | _ => true end) l.
Lemma no_stallsb_ok l : no_stallsb l = true -> no_stalls l.
Proof. unfold no_stallsb. rewrite forallb_forall. intros H i Hin. apply H in Hin. discriminate. Qed.

Definition up (k ts : Z) : entry := EPut [k] [0; 161; k] ts.
Definition fresh2 : lset := ls_init 1 [[]; []].
Definition outcome (s0 : lset) (acts : list act) : option (lset * recovered) :=
  match ls_run s0 acts with
  | Some s => match recover true 0 0 (disk_files s) with Some r => Some (s, r) | None => None end
  | None => None
  end.
Lemma outcome_ok s0 acts : (exists s r, outcome s0 acts = Some (s, r)) -> exists s r, ls_run s0 acts = Some s /\ recover true 0 0 (disk_files s) = Some r /\ outcome s0 acts = Some (s, r).
Proof. intros (s & r & H). unfold outcome in *. destruct (ls_run s0 acts) as [s1|] eqn:E; [|discriminate]. destruct (recover true 0 0 (disk_files s1)) as [r1|] eqn:E2; [|discriminate]. exists s1, r1. rewrite E2. auto. Qed.

(* 1. Two quiescent logs. An update a wakes log 0 and is not yet flushed. The thread of log 1 notices the wake and
   drops it: update b, recorded later on log 1, writes no wake entry. Log 1 is flushed and goes quiescent again. *)
Definition wake_acts : list act :=
  [Logger 0; Synced 0; Logger 1; Synced 1; Tick; Begin 0; Commit 0 (up 97 2); Logger 1; Begin 1; Commit 1 (up 98 2); Logger 1; Synced 1; Tick; Logger 1; Synced 1].
(* 2. A log that has written nothing so far. *)
Definition fresh_acts : list act :=
  [Begin 0; Commit 0 (up 97 2); Begin 1; Commit 1 (up 98 2); Tick; Begin 1; Commit 1 (up 99 4); Logger 1; Synced 1].
(* 3. A stalled update is recorded behind an epoch later than its own; everything is flushed. *)
Definition stall_acts : list act :=
  [Begin 0; Stall 0; Tick; Begin 1; Commit 1 (up 100 2); Logger 1; Synced 1; Begin 0; Commit 0 (up 98 2); Resume 0; Commit 0 (up 97 4); Tick; Begin 0; Commit 0 (up 99 6); Logger 0; Synced 0].
(* 4. A quiescent log whose thread has not noticed a wake. *)
Definition asleep_acts : list act :=
  [Logger 0; Synced 0; Logger 1; Synced 1; Tick; Begin 0; Commit 0 (up 97 2); Tick; Begin 0; Commit 0 (up 98 4); Tick; Begin 0; Commit 0 (up 99 6); Logger 0; Synced 0].
(* 5. Two lives. *)
Definition life1 : list act :=
  [Begin 0; Commit 0 (up 97 2); Logger 0; Synced 0; Begin 1; Commit 1 (up 98 2); Tick; Begin 1; Commit 1 (up 99 4); Logger 1; Synced 1; Tick; Tick; Tick; Begin 0; Commit 0 (up 100 4); Logger 0; Synced 0].
Definition old2 : list (list entry) := [[EEpoch 1; up 97 2; EEpoch 5]; [EEpoch 1; up 98 2; EEpoch 2]].
Definition life2 : list act :=
  [Begin 0; Commit 0 (up 101 6); Begin 1; Commit 1 (up 102 6); Tick; Begin 0; Commit 0 (up 103 8); Begin 1; Commit 1 (up 104 8); Logger 0; Synced 0; Logger 1; Synced 1].

(* Decisions. *)
Definition entry_dec (a b : entry) : {a = b} + {a <> b}.
Proof. decide equality; try apply Z.eq_dec; apply (list_eq_dec Z.eq_dec). Defined.
Definition oentry_dec (a b : option entry) : {a = b} + {a <> b}.
Proof. decide equality. apply entry_dec. Defined.
Definition tag_dec (a b : Z * entry) : {a = b} + {a <> b}.
Proof. decide equality; [apply entry_dec|apply Z.eq_dec]. Defined.
Definition applied_b (r : recovered) (u : entry) : bool := if in_dec oentry_dec (Some u) (applied r) then true else false.
Definition tagged_b (x : Z * entry) (l : list entry) : bool := if in_dec tag_dec x (tagged 0 l) then true else false.
Lemma applied_t r u : applied_b r u = true -> In (Some u) (applied r).
Proof. unfold applied_b. destruct (in_dec oentry_dec (Some u) (applied r)); [auto|discriminate]. Qed.
Lemma applied_f r u : applied_b r u = false -> ~ In (Some u) (applied r).
Proof. unfold applied_b. destruct (in_dec oentry_dec (Some u) (applied r)); [discriminate|auto]. Qed.
Lemma tagged_t x l : tagged_b x l = true -> In x (tagged 0 l).
Proof. unfold tagged_b. destruct (in_dec tag_dec x (tagged 0 l)); [auto|discriminate]. Qed.
Lemma tagged_f x l : tagged_b x l = false -> ~ In x (tagged 0 l).
Proof. unfold tagged_b. destruct (in_dec tag_dec x (tagged 0 l)); [discriminate|auto]. Qed.

Definition files_b (a b : list (list Z)) : bool := if list_eq_dec (list_eq_dec Z.eq_dec) a b then true else false.
Lemma files_t a b : files_b a b = true -> a = b.
Proof. unfold files_b. destruct (list_eq_dec (list_eq_dec Z.eq_dec) a b); [auto|discriminate]. Qed.

(* Facts about an outcome, checked by computation. *)
Lemma outcome_facts s0 acts (P : lset -> recovered -> bool) : match outcome s0 acts with Some (s, r) => P s r | None => false end = true ->
  exists s r, ls_run s0 acts = Some s /\ recover true 0 0 (disk_files s) = Some r /\ P s r = true.
Proof.
  unfold outcome. destruct (ls_run s0 acts) as [s|]; [|discriminate]. destruct (recover true 0 0 (disk_files s)) as [r|] eqn:E; [|discriminate]. intros H. exists s, r. auto.
Qed.
Definition nonempty_files (l : list (list Z)) : bool := forallb (fun f => match f with [] => false | _ => true end) l.
Lemma nonempty_ok l : nonempty_files l = true -> Forall (fun f => f <> []) l.
Proof. unfold nonempty_files. rewrite forallb_forall, Forall_forall. intros H f Hf. apply H in Hf. now destruct f. Qed.

Lemma lose_wake : exists acts s files r a b pre mid post, no_stalls acts /\ updates_ok acts /\ ls_run (ls_init 1 [[]; []]) acts = Some s /\
  Forall2 crash_file (s_logs s) files /\ Forall (fun f => f <> []) files /\ recover true 0 0 files = Some r /\
  recorded acts = pre ++ a :: mid ++ b :: post /\ ~ In (Some a) (applied r) /\ In (Some b) (applied r).
Proof.
  destruct (outcome_facts fresh2 wake_acts (fun s r => disk_le s && (nonempty_files (disk_files s) && (negb (applied_b r (up 97 2)) && applied_b r (up 98 2))))) as (s & r & E1 & E2 & B); [vm_compute; reflexivity|].
  apply andb_true_iff in B as [B1 B]. apply andb_true_iff in B as [B2 B]. apply andb_true_iff in B as [B3 B4].
  exists wake_acts, s, (disk_files s), r, (up 97 2), (up 98 2), [], [], [].
  split; [apply no_stallsb_ok; reflexivity|]. split; [apply updates_okb_ok; vm_compute; reflexivity|]. split; [exact E1|]. split; [now apply disk_crash|].
  split; [now apply nonempty_ok|]. split; [exact E2|]. split; [reflexivity|]. split; [apply applied_f, negb_true_iff; exact B3|now apply applied_t].
Qed.
Lemma lose_fresh : exists acts s files r a b pre mid post, no_stalls acts /\ updates_ok acts /\ ls_run (ls_init 1 [[]; []]) acts = Some s /\
  Forall2 crash_file (s_logs s) files /\ recover true 0 0 files = Some r /\
  recorded acts = pre ++ a :: mid ++ b :: post /\ ~ In (Some a) (applied r) /\ In (Some b) (applied r).
Proof.
  destruct (outcome_facts fresh2 fresh_acts (fun s r => disk_le s && (negb (applied_b r (up 97 2)) && applied_b r (up 98 2)))) as (s & r & E1 & E2 & B); [vm_compute; reflexivity|].
  apply andb_true_iff in B as [B1 B]. apply andb_true_iff in B as [B3 B4].
  exists fresh_acts, s, (disk_files s), r, (up 97 2), (up 98 2), [], [], [up 99 4].
  split; [apply no_stallsb_ok; reflexivity|]. split; [apply updates_okb_ok; vm_compute; reflexivity|]. split; [exact E1|]. split; [now apply disk_crash|].
  split; [exact E2|]. split; [reflexivity|]. split; [apply applied_f, negb_true_iff; exact B3|now apply applied_t].
Qed.

(* Updates below max_flushed_epoch that recovery does not restore. *)
Definition log_at (s : lset) (i : nat) : lg := nth i (s_logs s) (lg_init []).
Lemma log_at_ok s i : Nat.ltb i (length (s_logs s)) = true -> nth_error (s_logs s) i = Some (log_at s i).
Proof. intros H. apply Nat.ltb_lt in H. now apply nth_error_nth'. Qed.

Lemma lose_stall : exists acts s files r g t u, updates_ok acts /\ ls_run (ls_init 1 [[]; []]) acts = Some s /\
  Forall2 crash_file (s_logs s) files /\ recover true 0 0 files = Some r /\
  nth_error (s_logs s) 0 = Some g /\ In (t, u) (tagged 0 (firstn (l_disk g) (l_all g))) /\ t < max_flushed_epoch s /\ 0 < t < rec_max r /\ ~ In (Some u) (applied r).
Proof.
  destruct (outcome_facts fresh2 stall_acts (fun s r => disk_le s && (negb (applied_b r (up 97 4)) && (Nat.ltb 0 (length (s_logs s)) && (tagged_b (1, up 97 4) (firstn (l_disk (log_at s 0)) (l_all (log_at s 0))) && ((1 <? max_flushed_epoch s) && (1 <? rec_max r))))))) as (s & r & E1 & E2 & B); [vm_compute; reflexivity|].
  apply andb_true_iff in B as [B1 B]. apply andb_true_iff in B as [B2 B]. apply andb_true_iff in B as [B3 B]. apply andb_true_iff in B as [B4 B]. apply andb_true_iff in B as [B5 B6].
  exists stall_acts, s, (disk_files s), r, (log_at s 0), 1, (up 97 4). split; [apply updates_okb_ok; vm_compute; reflexivity|]. split; [exact E1|]. split; [now apply disk_crash|]. split; [exact E2|].
  split; [now apply log_at_ok|]. split; [now apply tagged_t|]. split; [lia|]. split; [lia|]. apply applied_f, negb_true_iff. exact B2.
Qed.
Lemma lose_asleep : exists acts s files r g t u, no_stalls acts /\ updates_ok acts /\ ls_run (ls_init 1 [[]; []]) acts = Some s /\
  Forall2 crash_file (s_logs s) files /\ recover true 0 0 files = Some r /\
  nth_error (s_logs s) 0 = Some g /\ In (t, u) (tagged 0 (firstn (l_disk g) (l_all g))) /\ t + 1 < max_flushed_epoch s /\ ~ In (Some u) (applied r) /\
  recover true t (t + 1) files = None.
Proof.
  destruct (outcome_facts fresh2 asleep_acts (fun s r => disk_le s && (negb (applied_b r (up 97 2)) && (Nat.ltb 0 (length (s_logs s)) && (tagged_b (2, up 97 2) (firstn (l_disk (log_at s 0)) (l_all (log_at s 0))) && ((3 <? max_flushed_epoch s) &&
     match recover true 2 3 (disk_files s) with None => true | Some _ => false end)))))) as (s & r & E1 & E2 & B); [vm_compute; reflexivity|].
  apply andb_true_iff in B as [B1 B]. apply andb_true_iff in B as [B2 B]. apply andb_true_iff in B as [B3 B]. apply andb_true_iff in B as [B4 B]. apply andb_true_iff in B as [B5 B6].
  exists asleep_acts, s, (disk_files s), r, (log_at s 0), 2, (up 97 2). split; [apply no_stallsb_ok; reflexivity|]. split; [apply updates_okb_ok; vm_compute; reflexivity|]. split; [exact E1|]. split; [now apply disk_crash|]. split; [exact E2|].
  split; [now apply log_at_ok|]. split; [now apply tagged_t|]. split; [lia|]. split; [apply applied_f, negb_true_iff; exact B2|].
  change (2 + 1) with 3. destruct (recover true 2 3 (disk_files s)); [discriminate|reflexivity].
Qed.
Lemma lose_unflushed : exists acts s g t u, no_stalls acts /\ updates_ok acts /\ ls_run (ls_init 1 [[]; []]) acts = Some s /\
  nth_error (s_logs s) 0 = Some g /\ In (t, u) (tagged 0 (l_all g)) /\ t < max_flushed_epoch s /\ ~ In (t, u) (tagged 0 (firstn (l_disk g) (l_all g))) /\ l_xe g = None.
Proof.
  destruct (outcome_facts fresh2 fresh_acts (fun s r => (Nat.ltb 0 (length (s_logs s)) && (tagged_b (1, up 97 2) (l_all (log_at s 0)) && ((1 <? max_flushed_epoch s) && (negb (tagged_b (1, up 97 2) (firstn (l_disk (log_at s 0)) (l_all (log_at s 0)))) && match l_xe (log_at s 0) with None => true | Some _ => false end)))))) as (s & r & E1 & E2 & B); [vm_compute; reflexivity|].
  apply andb_true_iff in B as [B1 B]. apply andb_true_iff in B as [B2 B]. apply andb_true_iff in B as [B3 B]. apply andb_true_iff in B as [B4 B5].
  exists fresh_acts, s, (log_at s 0), 1, (up 97 2). split; [apply no_stallsb_ok; reflexivity|]. split; [apply updates_okb_ok; vm_compute; reflexivity|]. split; [exact E1|].
  split; [now apply log_at_ok|]. split; [now apply tagged_t|]. split; [lia|]. split; [apply tagged_f, negb_true_iff; exact B4|]. destruct (l_xe (log_at s 0)); [discriminate|reflexivity].
Qed.
Lemma lose_twice : exists acts1 s1 files1 r1 old acts2 s2 files2 r2 g t u, no_stalls acts1 /\ updates_ok acts1 /\ no_stalls acts2 /\ updates_ok acts2 /\
  ls_run (ls_init 1 [[]; []]) acts1 = Some s1 /\ Forall2 crash_file (s_logs s1) files1 /\ recover true 0 0 files1 = Some r1 /\
  left_files files1 r1 = map (fun l => log_file (plain l)) old /\
  ls_run (ls_init (rec_epoch r1) old) acts2 = Some s2 /\ Forall2 crash_file (s_logs s2) files2 /\ recover true 0 0 files2 = Some r2 /\
  nth_error (s_logs s2) 0 = Some g /\ In (t, u) (tagged 0 (firstn (l_disk g) (l_all g))) /\ t < max_flushed_epoch s2 /\ 0 < t < rec_max r2 /\ ~ In (Some u) (applied r2).
Proof.
  destruct (outcome_facts fresh2 life1 (fun s r => disk_le s && ((rec_epoch r =? 3) && files_b (left_files (disk_files s) r) (map (fun l => log_file (plain l)) old2)))) as (s1 & r1 & E1 & E2 & A); [vm_compute; reflexivity|].
  apply andb_true_iff in A as [A1 A]. apply andb_true_iff in A as [A2 A3].
  destruct (outcome_facts (ls_init 3 old2) life2 (fun s r => disk_le s && (negb (applied_b r (up 101 6)) && (Nat.ltb 0 (length (s_logs s)) && (tagged_b (3, up 101 6) (firstn (l_disk (log_at s 0)) (l_all (log_at s 0))) && ((3 <? max_flushed_epoch s) && (3 <? rec_max r))))))) as (s2 & r2 & F1 & F2 & B); [vm_compute; reflexivity|].
  apply andb_true_iff in B as [B1 B]. apply andb_true_iff in B as [B2 B]. apply andb_true_iff in B as [B3 B]. apply andb_true_iff in B as [B4 B]. apply andb_true_iff in B as [B5 B6].
  exists life1, s1, (disk_files s1), r1, old2, life2, s2, (disk_files s2), r2, (log_at s2 0), 3, (up 101 6).
  split; [apply no_stallsb_ok; reflexivity|]. split; [apply updates_okb_ok; vm_compute; reflexivity|]. split; [apply no_stallsb_ok; reflexivity|]. split; [apply updates_okb_ok; vm_compute; reflexivity|].
  split; [exact E1|]. split; [now apply disk_crash|]. split; [exact E2|]. split; [exact (files_t _ _ A3)|].
  split. { apply Z.eqb_eq in A2. rewrite A2. exact F1. } split; [now apply disk_crash|]. split; [exact F2|].
  split; [now apply log_at_ok|]. split; [now apply tagged_t|]. split; [lia|]. split; [lia|]. apply applied_f, negb_true_iff. exact B2.
Qed.
