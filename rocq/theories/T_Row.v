(* C30, C31, C32: rows. *)
From Verif Require Import Lib M_Bag M_Array M_Strrow Spec_Row Spec_Strrow M_Rowrun P_Row P_Bag3 P_Array P_Strrow.

(* ---------------------------------------------------------------- C30: bag rows *)
(* After any history of updates and replacements of a row that always fits its 16-bit offsets, every column
   reads as last written, and the row carries the newest timestamp. *)
Theorem C30_bag_history h : Forall (fun o => rop_ok (fst o)) h -> throughout fits_bag (map fst h) ->
  exists b, bag_run h = Some b /\ bag_timestamp b = newest h /\ bag_ncol b = Some (columns (map fst h)) /\
  forall i, 0 <= i < 2 ^ 31 -> bag_col b i = Some (last_written (map fst h) i).
Proof. exact (bag_history h). Qed.
Print Assumptions C30_bag_history.

Example C30_bag_history_example :
  let h := [(RPut [(1, [7; 8]); (4, [9])], 30); (RPut [(0, [1]); (2, [2; 3])], 20); (RReplace [5], 10)] in
  Forall (fun o => rop_ok (fst o)) h /\ throughout fits_bag (map fst h) /\
  exists b, bag_run h = Some b /\ map (bag_col b) [0; 1; 2; 3; 4; 5] = map Some [[1]; [7; 8]; [2; 3]; []; [9]; []].
Proof.
  split; [repeat constructor; cbn; lia|]. split; [repeat split; vm_compute; reflexivity|]. eexists. split; [vm_compute; reflexivity|]. vm_compute. reflexivity.
Qed.

(* The row read back from a checkpoint has the same bytes. *)
Theorem C33_bag_row_checkpoint h ts : Forall (fun o => rop_ok (fst o)) h -> throughout fits_bag (map fst h) ->
  exists b s, bag_run h = Some b /\ bag_checkpoint_write b = Some s /\ bg_s (bag_checkpoint_read s ts) = bg_s b /\
  bag_timestamp (bag_checkpoint_read s ts) = ts.
Proof. exact (bag_checkpoint h ts). Qed.
Print Assumptions C33_bag_row_checkpoint.

Example C33_bag_row_checkpoint_example :
  exists b s, bag_run [(RPut [(1, [7; 8])], 30); (RReplace [5], 10)] = Some b /\ bag_checkpoint_write b = Some s /\
  bag_col (bag_checkpoint_read s 30) 1 = Some [7; 8].
Proof. eexists. eexists. split; [vm_compute; reflexivity|]. split; [vm_compute; reflexivity|]. vm_compute. reflexivity. Qed.

(* Without the size bound the claim fails: a value of 2^16 bytes is read back as empty. *)
Theorem C30_oversize_refuted : exists v b, bag_create [(0, v)] 2 = Some b /\ len v = 2 ^ 16 /\ bag_col b 0 = Some [].
Proof.
  exact oversize_lost.
Qed.
Print Assumptions C30_oversize_refuted.
(* Without the order of columns the update loses values, or writes outside the new row. *)
Theorem C30_unsorted_refuted : (exists b, bag_create [(1, [1]); (0, [2])] 2 = Some b /\ bag_col b 0 = Some [] /\ bag_col b 1 = Some []) /\
  bag_create [(1, [1]); (0, [2]); (5, [3])] 2 = None.
Proof. split; [eexists; split; [vm_compute; reflexivity|]; split|]; vm_compute; reflexivity. Qed.
Print Assumptions C30_unsorted_refuted.

(* ---------------------------------------------------------------- C31: array rows *)
(* After any history every column reads as last written; the strings released are exactly those no longer used
   by the row, each once. *)
Theorem C31_array_history hist : hist <> [] -> Forall (fun o => rop_ok (fst o) /\ put_nonempty (fst o)) hist ->
  throughout fits_short (map fst hist) ->
  exists h r, va_run hist = Some (h, r) /\ va_ts r = snd (hd (RPut [], 0) hist) /\
  (forall i, 0 <= i < 2 ^ 31 -> va_col h r i = Some (last_written (map fst hist) i)) /\
  NoDup (ch_released h) /\ forall p, (p < length (ch_strings h))%nat -> (In p (ch_released h) <-> ~ In (Some p) (va_cols r)).
Proof. exact (va_history hist). Qed.
Print Assumptions C31_array_history.

Theorem C31_versioned_history hist : hist <> [] -> Forall (fun o => rop_ok (fst o) /\ put_nonempty (fst o)) hist ->
  throughout fits_short (map fst hist) ->
  exists h r, vv_run hist = Some (h, r) /\
  (forall i, 0 <= i < 2 ^ 31 -> vv_col h r i = Some (last_written (map fst hist) i)) /\
  NoDup (ch_released h) /\ forall p, (p < length (ch_strings h))%nat -> (In p (ch_released h) <-> ~ In (Some p) (vv_cols r)).
Proof. exact (vv_history hist). Qed.
Print Assumptions C31_versioned_history.

Example C31_history_example :
  let hist := [(RPut [(1, [7; 8]); (4, [])], 30); (RPut [(0, [1]); (1, [2]); (2, [2; 3])], 20); (RReplace [5], 10)] in
  hist <> [] /\ Forall (fun o => rop_ok (fst o) /\ put_nonempty (fst o)) hist /\ throughout fits_short (map fst hist) /\
  (exists h r, va_run hist = Some (h, r) /\ map (va_col h r) [0; 1; 2; 3; 4] = map Some [[1]; [7; 8]; [2; 3]; []; []] /\ ch_released h = [0; 2]%nat) /\
  exists h r, vv_run hist = Some (h, r) /\ map (vv_col h r) [0; 1; 2; 3; 4] = map Some [[1]; [7; 8]; [2; 3]; []; []] /\ ch_released h = [0; 2]%nat.
Proof.
  split; [discriminate|]. split; [repeat constructor; cbn; lia|]. split; [repeat split; vm_compute; reflexivity|].
  split; eexists; eexists; (split; [vm_compute; reflexivity|]); split; vm_compute; reflexivity.
Qed.

(* A snapshot taken by a query object that holds no earlier one shows the row. *)
Theorem C31_first_snapshot h r f : (f = [] \/ exists a b l, f = a :: b :: l) -> 0 <= vv_ncol r <= len (vv_cols r) -> len (vv_cols r) < 2 ^ 15 ->
  exists s, vv_snapshot h r None f = Some (h, s) /\ vv_ncol s = vv_ncol r /\ forall i, vv_col h s i = vv_col h r i.
Proof. exact (first_snapshot h r f). Qed.
Print Assumptions C31_first_snapshot.
Example C31_first_snapshot_example : exists h r s, vv_run [(RPut [(1, [7; 8])], 30)] = Some (h, r) /\ (0 <= vv_ncol r <= len (vv_cols r) /\ len (vv_cols r) < 2 ^ 15) /\
  vv_snapshot h r None [] = Some (h, s) /\ vv_col h s 1 = Some [7; 8].
Proof. do 3 eexists. split; [vm_compute; reflexivity|]. split; [vm_compute; repeat split; discriminate|]. split; [vm_compute; reflexivity|]. vm_compute. reflexivity. Qed.

(* A change set that names a column twice releases the old string twice. *)
Theorem C31_duplicate_column_refuted : exists h r h' r', va_run [(RPut [(0, [1])], 10)] = Some (h, r) /\
  va_put h r [(0, [2]); (0, [3])] 20 = Some (h', r') /\ ~ NoDup (ch_released h').
Proof.
  do 4 eexists. split; [vm_compute; reflexivity|]. split; [vm_compute; reflexivity|]. cbn. intros H. inversion H. apply H2. now left.
Qed.
Print Assumptions C31_duplicate_column_refuted.
(* ncol_ is a short: a row with 2^15 columns reads outside its array. *)
Theorem C31_short_refuted : exists h r, va_create cheap_empty [(2 ^ 15 - 1, [1])] 2 = Some (h, r) /\ va_col h r (2 ^ 15) = None.
Proof. exact short_wraps. Qed.
Print Assumptions C31_short_refuted.
(* An update of a versioned array row in place keeps the old timestamp. *)
Theorem C31_versioned_timestamp_refuted : exists h r h' r', vv_run [(RPut [(0, [1])], 10)] = Some (h, r) /\
  vv_put h r [(0, [2])] 20 = Some (h', r') /\ vv_col h' r' 0 = Some [2] /\ vv_ts r' = 10.
Proof. do 4 eexists. split; [vm_compute; reflexivity|]. split; [vm_compute; reflexivity|]. split; [vm_compute; reflexivity|]. vm_compute. reflexivity. Qed.
Print Assumptions C31_versioned_timestamp_refuted.
(* A query object that takes a snapshot of a row and then of a wider row releases columns of the first row, which
   is still in the table. *)
Theorem C31_snapshot_releases_live_refuted : exists h r1 h2 r2 s1 h3 s2,
  vv_run [(RPut [(0, [1])], 10)] = Some (h, r1) /\ vv_col h r1 0 = Some [1] /\
  vv_create h [(0, [2]); (1, [3])] 20 = Some (h2, r2) /\
  vv_snapshot h2 r1 None [] = Some (h2, s1) /\ vv_snapshot h2 r2 (Some s1) [] = Some (h3, s2) /\
  vv_col h3 r1 0 = None.
Proof.
  do 7 eexists. split; [vm_compute; reflexivity|]. split; [vm_compute; reflexivity|]. split; [vm_compute; reflexivity|].
  split; [vm_compute; reflexivity|]. split; [vm_compute; reflexivity|]. vm_compute. reflexivity.
Qed.
Print Assumptions C31_snapshot_releases_live_refuted.
(* A snapshot for one requested column does not check that the row has it. *)
Theorem C31_snapshot_index_refuted : exists h r, vv_run [(RPut [(0, [1])], 10)] = Some (h, r) /\ vv_col h r 3 = Some [] /\
  vv_snapshot h r None [3] = None.
Proof. do 2 eexists. split; [vm_compute; reflexivity|]. split; [vm_compute; reflexivity|]. vm_compute. reflexivity. Qed.
Print Assumptions C31_snapshot_index_refuted.

(* ---------------------------------------------------------------- C32: string rows *)
(* An update is defined exactly if it keeps no more bytes than the old row has. It then writes exactly the ranges
   named, keeps the other bytes, and a byte covered by neither is never written. *)
Theorem C32_update_exact_partial r ch ts : Forall (fun c => len (snd c) < 2 ^ 31) ch ->
  if kept ch (len (sr_s r)) <=? len (sr_s r)
  then exists r', sr_update r ch ts = Some r' /\ sr_ts r' = ts /\ len (sr_s r') = Z.max (reach (ranges ch)) (kept ch (len (sr_s r))) /\
       forall p, nth p (sr_s r') None = match covering (ranges ch) (Z.of_nat p) with Some b => Some b
                                        | None => if Z.of_nat p <? kept ch (len (sr_s r)) then nth p (sr_s r) None else None end
  else sr_update r ch ts = None.
Proof. exact (sr_update_exact r ch ts). Qed.
Print Assumptions C32_update_exact_partial.
Example C32_update_exact_example : Forall (fun c => len (snd c) < 2 ^ 31) [(make_index 1 2, [8; 9]); (make_index 4 1, [7])] /\
  exists r', sr_update (sr_create1 [1; 2; 3; 4] 10) [(make_index 1 2, [8; 9]); (make_index 4 1, [7])] 20 = Some r' /\ sr_col r' 0 = Some (map Some [1; 8; 9; 4; 7]).
Proof. split; [repeat constructor|]. eexists. split; [vm_compute; reflexivity|]. vm_compute. reflexivity. Qed.

(* Replacing the whole value (index 0) by a longer one reads beyond the old row; so does creating a row. *)
Theorem C32_overread_refuted : sr_update (sr_create1 [1] 10) [(0, [5; 6])] 20 = None /\ sr_create [(0, [5])] 10 = None.
Proof. split; reflexivity. Qed.
Print Assumptions C32_overread_refuted.
(* Writing behind the end of the row leaves bytes that were never written, and shows them. *)
Theorem C32_gap_refuted : exists r', sr_update (sr_create1 [1] 10) [(make_index 3 1, [5])] 20 = Some r' /\
  sr_col r' 0 = Some [Some 1; None; None; Some 5].
Proof. eexists. split; [vm_compute; reflexivity|]. vm_compute. reflexivity. Qed.
Print Assumptions C32_gap_refuted.
