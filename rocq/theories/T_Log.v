(* Log files: C21, C22, C25, C39, C40. *)
From Verif Require Import Lib M_Key P_Key M_Circular P_Circular M_Msgpack M_Bag M_Log Spec_Log M_Logfile P_Log1 P_Log2 P_Log3 P_Log4.

(* Every entry is decoded as itself, whatever record was decoded before, and the decoder stops at its end. *)
Theorem C21_record_round_trip (lr : logrecord) (e : entry) (stale rest : list Z) :
  entry_ok e -> len stale = 4 ->
  exists lr', extract lr (store_entry e stale ++ rest) = Some (lr', rest) /\ view lr' = Some e /\
    lr_epoch lr' = (match e with EEpoch x => x | _ => lr_epoch lr end) /\ lr_command lr' <> logcmd_none.
Proof. exact (round_trip lr e stale rest). Qed.
Print Assumptions C21_record_round_trip.

Definition put1 : entry := EPut [107; 49] [1; 0; 161; 97] 7.
Definition mod1 : entry := EModify [107; 49] [1; 1; 161; 98] 12 7.
Definition rem1 : entry := ERemove [107; 49] [1; 0; 0; 0] 21.
Definition log1 : list (entry * list Z) :=
  [(EEpoch 3, [9; 9; 9; 9]); (EWake, [0; 0; 0; 0]); (put1, [9; 9; 9; 9]); (EEpoch 4, [0; 0; 0; 0]); (mod1, [1; 2; 3; 4]); (EEpoch 5, [0; 0; 0; 0]);
   (rem1, [0; 0; 0; 0]); (EEpoch 6, [0; 0; 0; 0]); (EQuiesce, [0; 0; 0; 0])].
Lemma log1_ok : file_ok log1.
Proof. apply file_okb_ok. vm_compute. reflexivity. Qed.
Example C21_example : entry_ok mod1 /\ (exists lr', extract lr_init (store_entry mod1 [1; 2; 3; 4] ++ [5]) = Some (lr', [5]) /\ view lr' = Some mod1).
Proof. split; [apply entry_okb_ok; vm_compute; reflexivity|]. exists (MkLr logcmd_modify [107; 49] [1; 1; 161; 98] 12 7 0). split; [vm_compute; reflexivity|]. vm_compute. reflexivity. Qed.

(* A file of entries reads as those entries. *)
Theorem C21_file_round_trip (l : list (entry * list Z)) :
  file_ok l -> exists rs, read_log (log_file l) = Some rs /\ map view rs = map Some (entries l).
Proof. exact (file_reads l). Qed.
Print Assumptions C21_file_round_trip.
Example C21_file_example : file_ok log1 /\ entries log1 = [EEpoch 3; EWake; put1; EEpoch 4; mod1; EEpoch 5; rem1; EEpoch 6; EQuiesce].
Proof. split; [exact log1_ok|reflexivity]. Qed.

(* Cut at any byte n, the file reads as the entries that lie completely before the cut. *)
Theorem C22_cut (l : list (entry * list Z)) (n : nat) :
  file_ok l -> (n <= length (log_file l))%nat ->
  exists m rs, read_log (firstn n (log_file l)) = Some rs /\ map view rs = map Some (firstn m (entries l)) /\
    (length (log_file (firstn m l)) <= n)%nat /\ (m <= length l)%nat /\ ((m < length l)%nat -> (n < length (log_file (firstn (S m) l)))%nat).
Proof. exact (cut_reads l n). Qed.
Print Assumptions C22_cut.
Example C22_cut_example : file_ok log1 /\ (100 <= length (log_file log1))%nat /\
  match read_log (firstn 100 (log_file log1)) with Some rs => map view rs = map Some [EEpoch 3; EWake; put1; EEpoch 4] | None => False end.
Proof. split; [exact log1_ok|]. split; [vm_compute; lia|]. vm_compute. reflexivity. Qed.

(* So do the summaries recovery computes its bounds from. *)
Theorem C22_cut_info (l : list (entry * list Z)) (n : nat) (qe : Z) :
  file_ok l -> (n <= length (log_file l))%nat -> epochs_from 0 (entries l) -> epochs_small (entries l) -> 0 <= qe < 2 ^ 63 ->
  exists m, let seen := firstn m (entries l) in
    log_info (firstn n (log_file l)) = Some (MkInf (first_epoch seen) (epoch_after 0 seen) (wake_after 0 0 seen) (ends_quiescent seen)) /\
    log_mpqw qe (firstn n (log_file l)) = Some (first_wake 0 qe seen) /\
    (length (log_file (firstn m l)) <= n)%nat /\ (m <= length l)%nat /\ ((m < length l)%nat -> (n < length (log_file (firstn (S m) l)))%nat).
Proof. exact (cut_info l n qe). Qed.
Print Assumptions C22_cut_info.
Example C22_cut_info_example : file_ok log1 /\ epochs_from 0 (entries log1) /\ epochs_small (entries log1) /\
  log_info (log_file log1) = Some (MkInf 3 6 3 true) /\ log_mpqw 2 (log_file log1) = Some 3.
Proof. split; [exact log1_ok|]. split; [cbn; lia|]. split; [cbn; lia|]. split; [vm_compute; reflexivity|]. vm_compute. reflexivity. Qed.

(* Replaying a file cut at any byte applies, in order, the updates of non-empty keys that lie before the cut and in the
   epochs [mn, mx), and nothing else; and recovery can be repeated: the part of the file it keeps replays the same
   updates, any number of times. Missing: updates of the empty key, keys longer than 255 bytes (both below). *)
Theorem C25_replay_partial (mn mx : Z) (l : list (entry * list Z)) (n : nat) :
  0 <= mn -> mn < mx < 2 ^ 63 -> file_ok l -> (n <= length (log_file l))%nat ->
  epochs_from 0 (entries l) -> epochs_small (entries l) -> starts_before mn (entries l) ->
  exists m r, replay_log (firstn n (log_file l)) mn mx = Some r /\
    map view (rp_run r) = map (fun x => Some (snd x)) (filter has_key (wanted mn mx (firstn m (entries l)))) /\
    (length (log_file (firstn m l)) <= n)%nat /\ (m <= length l)%nat /\ ((m < length l)%nat -> (n < length (log_file (firstn (S m) l)))%nat) /\
    forall k, exists r', replay_times k (firstn n (log_file l)) mn mx = Some r' /\ map view (rp_run r') = map view (rp_run r).
Proof. exact (cut_replay mn mx l n). Qed.
Print Assumptions C25_replay_partial.
Example C25_replay_example : file_ok log1 /\ epochs_from 0 (entries log1) /\ epochs_small (entries log1) /\ starts_before 4 (entries log1) /\
  map snd (wanted 4 6 (entries log1)) = [mod1; rem1] /\
  match replay_log (log_file log1) 4 6 with Some r => map view (rp_run r) = [Some mod1; Some rem1] | None => False end.
Proof.
  split; [exact log1_ok|]. split; [cbn; lia|]. split; [cbn; lia|]. split; [cbn; lia|]. split; [vm_compute; reflexivity|]. vm_compute. reflexivity.
Qed.

(* The part of the log that recovery keeps, C40: it holds exactly the replayed updates of the recovered epochs and
   nothing from later ones, and it again starts below the range. *)
Theorem C40_kept_log (mn mx : Z) (l : list (entry * list Z)) (x : entry * list Z) (k : nat) :
  0 <= mn -> mn < mx < 2 ^ 63 -> file_ok l -> entry_ok (fst x) -> len (snd x) = 4 -> (k < length (store_entry (fst x) (snd x)))%nat ->
  epochs_from 0 (entries l) -> epochs_small (entries l) -> starts_before mn (entries l) ->
  exists r, replay_log (torn_file l x k) mn mx = Some r /\
    map view (rp_run r) = map (fun x => Some (snd x)) (filter has_key (wanted mn mx (entries l))) /\
    exists l1 seg l2, l = l1 ++ seg ++ l2 /\ kept_log (torn_file l x k) r = log_file seg /\
      wanted mn mx (entries seg) = wanted mn mx (entries l) /\ starts_before mn (entries seg) /\
      (forall y, In y (tagged 0 (entries seg)) -> fst y < mx).
Proof. exact (replay_torn mn mx l x k). Qed.
Print Assumptions C40_kept_log.
Example C40_kept_example : file_ok log1 /\ starts_before 5 (entries log1) /\
  match replay_log (torn_file log1 (put1, [0; 0; 0; 0]) 20) 5 6 with
  | Some r => kept_log (torn_file log1 (put1, [0; 0; 0; 0]) 20) r = log_file (firstn 5 (skipn 3 log1)) | None => False end.
Proof. split; [exact log1_ok|]. split; [cbn; lia|]. vm_compute. reflexivity. Qed.

(* An update of the empty key is logged and flushed, and replay skips it. *)
Theorem C25_empty_key_refuted : exists (l : list (entry * list Z)) (u : entry) (r : replayed),
  file_ok l /\ epochs_from 0 (entries l) /\ epochs_small (entries l) /\ starts_before 0 (entries l) /\
  In (1, u) (wanted 0 2 (entries l)) /\ replay_log (log_file l) 0 2 = Some r /\ rp_run r = [].
Proof. exact empty_key_skipped. Qed.
Print Assumptions C25_empty_key_refuted.

(* A key of 256 bytes, which the server accepts, ends replay: the updates behind it are dropped as well. *)
Theorem C25_long_key_refuted : exists (l : list (entry * list Z)) (u : entry) (r : replayed),
  Forall (fun x => len (snd x) = 4) l /\ epochs_from 0 (entries l) /\ starts_before 0 (entries l) /\ entry_ok u /\
  (forall k v ts, In (EPut k v ts) (entries l) -> bytes_ok k /\ bytes_ok v /\ len k <= 256) /\
  In (1, u) (wanted 0 2 (entries l)) /\ replay_log (log_file l) 0 2 = Some r /\ rp_run r = [].
Proof. exact long_key_stops. Qed.
Print Assumptions C25_long_key_refuted.

(* Reading an arbitrary file stays inside it unless it ends in a truncated modify record; missing: that case. *)
Theorem C39_corrupt_log_partial (s : list Z) :
  bytes_ok s -> read_log s = None -> exists k, ld (skipn k s) 0 4 = Some logcmd_modify /\ len (skipn k s) < 28.
Proof. exact (read_log_unsafe s). Qed.
Print Assumptions C39_corrupt_log_partial.
Example C39_corrupt_example : bytes_ok (log_file log1 ++ [1; 2; 3; 4; 255; 255; 255; 255; 0]) /\ read_log (log_file log1 ++ [1; 2; 3; 4; 255; 255; 255; 255; 0]) <> None.
Proof. split; [apply bytes_okb_spec; vm_compute; reflexivity|]. vm_compute. discriminate. Qed.

(* Eight bytes of a modify record make the decoder read behind the end of the file. *)
Theorem C39_overread_refuted : exists s, bytes_ok s /\ len s = 8 /\ read_log s = None.
Proof. exact modify_overread. Qed.
Print Assumptions C39_overread_refuted.
