(* Histories of bag rows. *)
From Verif Require Import Lib M_Key P_Key M_Bag Spec_Row M_Array M_Rowrun P_Row P_Bag1 P_Bag2.

Lemma empty_of : bag_empty = bag_of 0 [].
Proof. reflexivity. Qed.


Lemma create1_ok v ts : fits16 [v] -> bag_create1 v ts = Some (bag_of ts [v]).
Proof.
  intros F. pose proof (len_nonneg v) as Hv. unfold fits16, image_size in F. cbn [length concat] in F. rewrite app_nil_r in F.
  unfold bag_create1, sz_bagdata, sz_off. pose proof (part_start 1 (len v) Hv) as S. unfold hd_size in *. cbn [Z.of_nat Pos.of_succ_nat] in *.
  change (4 + 2) with 6. replace (6 + len v) with (4 + 2 * 1 + len v) by lia. destruct S as [S|S]; [|lia]. rewrite S.
  pose proof (part_pos 1 (len v) [] [] 6) as P1. cbn [len length Z.of_nat Z.mul Z.add app Pos.of_succ_nat] in P1. rewrite P1 by lia.
  pose proof (part_pos 1 (len v) [6] [] (4 + 2 * 1 + len v)) as P2. change (2 + 2 * len [6]) with 4 in P2. rewrite P2 by (try lia; change (len [6]) with 1; lia). cbn [app] in *.
  assert (E : ld_pos (MkBag ts (part 1 (len v) [6; 4 + 2 * 1 + len v] [])) 0 = Some 6).
  { unfold ld_pos, rd16, rd_bytes. cbn [bg_s]. unfold part. cbn [tab flat_map]. rewrite map_app, <- app_assoc.
    pose proof (rd_mid (map Some (le16 (Z.of_nat 1))) (map Some (le16 6)) (map Some (le16 (4 + 2 * 1 + len v) ++ []) ++ repeat None (Z.to_nat (2 * (Z.of_nat 1 + 1 - len [6; 4 + 2 * 1 + len v]))) ++ map Some [] ++ repeat None (Z.to_nat (len v - len (@nil Z)))) 2 2) as R.
    rewrite len_map, le16_len in R. rewrite map_app, <- !app_assoc. change (2 + 2 * 0) with 2. rewrite R by reflexivity. rewrite init_map, le16_val by lia. reflexivity. }
  rewrite E. pose proof (part_data 1 (len v) [6; 4 + 2 * 1 + len v] [] v) as D. change (hd_size 1 + len (@nil Z)) with 6 in D.
  rewrite D by (change (len (@nil Z)) with 0; change (len [6; 4 + 2 * 1 + len v]) with 2; lia). cbn [app].
  f_equal. pose proof (part_full 1 [v] ts eq_refl) as F1. cbn [concat] in F1. rewrite app_nil_r in F1. rewrite <- F1. unfold starts, st. cbn [seq map firstn concat].
  rewrite app_nil_r. unfold hd_size. rewrite len_nil. reflexivity.
Qed.

Lemma bag_run_ok h : Forall (fun o => rop_ok (fst o)) h -> throughout (fun h => fits16 (row_after h)) (map fst h) ->
  bag_run h = Some (bag_of (newest h) (row_after (map fst h))).
Proof.
  induction h as [|[[ch|v] ts] h IH]; intros Ho Hf; cbn [bag_run newest map fst throughout] in *.
  - reflexivity.
  - inversion Ho as [|? ? H1 H2]; subst. destruct Hf as [F F2]. rewrite IH by auto.
    apply update_ok; auto using row_after_put. clear - F2. destruct h; [exact F2|apply F2].
  - destruct Hf as [F _]. now apply create1_ok.
Qed.

Lemma fits_bag_iff h : throughout fits_bag h -> throughout (fun h => fits16 (row_after h)) h.
Proof.
  assert (G : forall h, fits_bag h -> fits16 (row_after h)).
  { intros h'. unfold fits_bag, fits16, image_size, hd_size. rewrite <- row_after_len. auto. }
  induction h as [|o h IH]; cbn [throughout]; [apply G|]. intros [A B]. auto.
Qed.

Lemma bag_history h : Forall (fun o => rop_ok (fst o)) h -> throughout fits_bag (map fst h) ->
  exists b, bag_run h = Some b /\ bag_timestamp b = newest h /\ bag_ncol b = Some (columns (map fst h)) /\
  forall i, 0 <= i < 2 ^ 31 -> bag_col b i = Some (last_written (map fst h) i).
Proof.
  intros Ho Hf. apply fits_bag_iff in Hf. eexists. split; [apply bag_run_ok; auto|]. split; [reflexivity|].
  assert (F : fits16 (row_after (map fst h))) by (destruct h; [exact Hf|apply Hf]).
  split.
  - unfold bag_ncol. rewrite ncol_of by auto. now rewrite row_after_len.
  - intros i Hi. rewrite col_of by auto. rewrite row_after_nth. now rewrite Z2Nat.id by lia.
Qed.
Lemma bag_checkpoint h ts : Forall (fun o => rop_ok (fst o)) h -> throughout fits_bag (map fst h) ->
  exists b s, bag_run h = Some b /\ bag_checkpoint_write b = Some s /\ bg_s (bag_checkpoint_read s ts) = bg_s b /\ bag_timestamp (bag_checkpoint_read s ts) = ts.
Proof.
  intros Ho Hf. apply fits_bag_iff in Hf. eexists. eexists. split; [apply bag_run_ok; auto|].
  assert (F : fits16 (row_after (map fst h))) by (destruct h; [exact Hf|apply Hf]).
  unfold bag_checkpoint_write, bag_row_string. rewrite ncol_of by auto. unfold len at 1. rewrite pos_of by auto. cbn [bag_of bg_s].
  rewrite st_all by auto. pose proof (rd_bytes_mid [] (image (row_after (map fst h))) [] 0 (hd_size (length (row_after (map fst h))) + len (concat (row_after (map fst h))))) as R.
  rewrite image_len in R. rewrite app_nil_r in R. cbn [app] in R. rewrite R by reflexivity. split; reflexivity || auto.
Qed.

Lemma oversize_lost : exists v b, bag_create [(0, v)] 2 = Some b /\ len v = 2 ^ 16 /\ bag_col b 0 = Some [].
Proof.
  exists (repeat 7 (Z.to_nat (2 ^ 16))).
  assert (E : match bag_create [(0, repeat 7 (Z.to_nat (2 ^ 16)))] 2 with Some b => match bag_col b 0 with Some [] => true | _ => false end | None => false end = true) by (vm_compute; reflexivity).
  destruct (bag_create _ 2) as [b|]; [|discriminate]. exists b. split; [reflexivity|]. split; [now rewrite len_repeat by lia|].
  destruct (bag_col b 0) as [[|]|]; auto; discriminate.
Qed.
