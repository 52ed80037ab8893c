(* Version words, and updates of the columns. *)
From Verif Require Import Lib M_Rowver Spec_Rowver.

Lemma dirty_spec v : 0 <= v < 2 ^ 32 -> rv_dirty v = (2 ^ 31 <=? v).
Proof.
  intros H. unfold rv_dirty. destruct (Z.leb_spec (2 ^ 31) v) as [A|A].
  - rewrite Z.testbit_true by lia. assert (E : v / 2 ^ 31 = 1) by (symmetry; apply Z.div_unique with (r := v - 2 ^ 31); lia). rewrite E. reflexivity.
  - apply Z.bits_above_log2; [lia|]. destruct (Z.eq_dec v 0) as [->|N]; [cbn; lia|]. apply Z.log2_lt_pow2; lia.
Qed.
Lemma lor_high v : 0 <= v < 2 ^ 31 -> Z.lor v (2 ^ 31) = v + 2 ^ 31.
Proof.
  intros H.
  rewrite <- Z.lxor_lor; [rewrite Z.add_nocarry_lxor; [reflexivity|]|]; apply Z.bits_inj'; intros n Hn; rewrite Z.land_spec, Z.bits_0, Z.pow2_bits_eqb by lia;
    destruct (Z.eqb_spec 31 n) as [<-|N]; rewrite ?andb_false_r; auto; rewrite andb_true_r; pose proof (dirty_spec v ltac:(lia)) as D; unfold rv_dirty in D; rewrite D; apply Z.leb_gt; lia.
Qed.
Lemma setdirty_clean v : 0 <= v < 2 ^ 32 -> rv_dirty v = false ->
  rv_dirty (rv_setdirty v) = true /\ rv_ctr (rv_setdirty v) = rv_ctr v /\ 0 <= rv_setdirty v < 2 ^ 32.
Proof.
  intros H D. rewrite dirty_spec in D by auto. apply Z.leb_gt in D. unfold rv_setdirty. rewrite lor_high by lia.
  split; [rewrite dirty_spec by lia; apply Z.leb_le; lia|]. split; [|lia]. unfold rv_ctr. rewrite <- (Z.mul_1_l (2 ^ 31)) at 1. apply Z.mod_add. lia.
Qed.
Lemma clearandbump_ok v : 0 <= v < 2 ^ 32 ->
  rv_dirty (rv_clearandbump v) = false /\ rv_ctr (rv_clearandbump v) = (rv_ctr v + 1) mod 2 ^ 31 /\ 0 <= rv_clearandbump v < 2 ^ 32.
Proof.
  intros H. unfold rv_clearandbump. change (2 ^ 31 - 1) with (Z.ones 31). rewrite Z.land_ones by lia.
  assert (E : ((v + 1) mod 2 ^ 32) mod 2 ^ 31 = (v + 1) mod 2 ^ 31).
  { change (2 ^ 32) with (2 ^ 31 * 2). rewrite Z.rem_mul_r by lia. rewrite Z.mul_comm, Z.mod_add by lia. apply Z.mod_mod. lia. }
  rewrite E. pose proof (Z.mod_pos_bound (v + 1) (2 ^ 31) ltac:(lia)).
  split; [rewrite dirty_spec by lia; apply Z.leb_gt; lia|]. split; [|lia].
  unfold rv_ctr. rewrite Z.mod_mod by lia. rewrite Zplus_mod_idemp_l. reflexivity.
Qed.

(* ---- columns ---- *)
Lemma lset_in : forall l i c, (i < length l)%nat -> lset l i c = Some (put1 l i c).
Proof. induction l as [|x l IH]; intros [|i] c H; cbn in *; try lia; auto. rewrite IH by lia. auto. Qed.
Lemma lset_some : forall l i c l', lset l i c = Some l' -> l' = put1 l i c /\ length l' = length l.
Proof.
  induction l as [|x l IH]; intros [|i] c l' H; cbn in *; try discriminate; [injection H as <-; auto|].
  destruct (lset l i c) as [l2|] eqn:E; [|discriminate]. injection H as <-. destruct (IH _ _ _ E) as [-> L]. cbn. auto.
Qed.
Lemma put1_length : forall i l c, (length (put1 l i c) = Nat.max (length l) (S i))%nat.
Proof. induction i as [|i IH]; intros [|x l] c; cbn [put1 length]; auto; rewrite ?IH; cbn [length]; lia. Qed.
Definition puts (l : list Z) (ch : list (nat * Z)) : list Z := fold_left (fun l x => put1 l (fst x) (snd x)) ch l.
Lemma puts_app l a b : puts l (a ++ b) = puts (puts l a) b. Proof. apply fold_left_app. Qed.
Lemma puts_length_mono : forall ch l, (length l <= length (puts l ch))%nat.
Proof. induction ch as [|[i c] ch IH]; intros l; cbn; auto. specialize (IH (put1 l i c)). unfold puts in IH. rewrite put1_length in IH. lia. Qed.
Lemma puts_length_last : forall ch l d, ch <> [] -> (S (fst (last ch d)) <= length (puts l ch))%nat.
Proof.
  induction ch as [|[i c] ch IH]; intros l d H; [congruence|]. change (puts l ((i, c) :: ch)) with (puts (put1 l i c) ch).
  destruct ch as [|y ch].
  - cbn. rewrite put1_length. lia.
  - change (last ((i, c) :: y :: ch) d) with (last (y :: ch) d). apply IH. discriminate.
Qed.
Definition ext (n : nat) (l : list Z) : list Z := l ++ repeat 0 (n - length l).
Lemma ext_length n l : length (ext n l) = Nat.max n (length l).
Proof. unfold ext. rewrite app_length, repeat_length. lia. Qed.
Lemma ext_id n l : (n <= length l)%nat -> ext n l = l.
Proof. intros H. unfold ext. replace (n - length l)%nat with 0%nat by lia. apply app_nil_r. Qed.
Lemma ext_put1 : forall i n l c, (i < n)%nat -> put1 (ext n l) i c = ext n (put1 l i c).
Proof.
  induction i as [|i IH]; intros n l c H; destruct n as [|n]; try lia; destruct l as [|x l]; unfold ext; cbn [length app put1 Nat.sub repeat].
  - now rewrite Nat.sub_0_r.
  - reflexivity.
  - f_equal. pose proof (IH n [] c ltac:(lia)) as E. unfold ext in E. cbn [length app] in E. rewrite Nat.sub_0_r in E. exact E.
  - f_equal. apply (IH n l c). lia.
Qed.
Lemma lsets_ext : forall ch n l, (forall x, In x ch -> (fst x < n)%nat) -> lsets (ext n l) ch = Some (ext n (puts l ch)).
Proof.
  induction ch as [|[i c] ch IH]; intros n l H; cbn [lsets]; auto.
  pose proof (H (i, c) (or_introl eq_refl)) as Hi. cbn in Hi. rewrite lset_in by (rewrite ext_length; lia). rewrite ext_put1 by auto.
  apply IH. intros x Hx. apply H. right. auto.
Qed.
Lemma increasing_last : forall ch d x, increasing ch -> In x ch -> (fst x <= fst (last ch d))%nat.
Proof.
  induction ch as [|y ch IH]; intros d x I H; [destruct H|]. destruct ch as [|z ch].
  - destruct H as [->|[]]. cbn. lia.
  - destruct I as [A B]. change (last (y :: z :: ch) d) with (last (z :: ch) d). destruct H as [->|H]; [|apply IH; auto].
    pose proof (IH d z B (or_introl eq_refl)). lia.
Qed.
Lemma changes_bound ch x : increasing ch -> In x ch -> (fst x < ncol_of ch)%nat.
Proof. intros I H. unfold ncol_of. pose proof (increasing_last ch (0%nat, 0) x I H). lia. Qed.
(* A put that needs a new row. *)
Lemma lsets_new ch l : ch <> [] -> increasing ch -> lsets (l ++ repeat 0 (ncol_of ch - length l)) ch = Some (puts l ch).
Proof.
  intros N I. change (l ++ repeat 0 (ncol_of ch - length l)) with (ext (ncol_of ch) l).
  rewrite lsets_ext by (intros x Hx; apply changes_bound; auto). f_equal. apply ext_id. apply puts_length_last. auto.
Qed.
