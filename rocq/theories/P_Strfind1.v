(* Searches find what the documentation says; patterns: the language and the cut of the common end. *)
From Verif Require Import Lib M_Strfind Spec_Strfind.

Lemma same_eq a b : same a b = true <-> a = b.
Proof.
  revert b. induction a as [|x a IH]; intros [|y b]; simpl; try (split; congruence). rewrite andb_true_iff, IH, Z.eqb_eq. split; [intros [-> ->]; auto|]. intros E. inversion E; auto.
Qed.

Lemma up_ok ok (P : Z -> Prop) i k r : (forall j, i <= j < i + Z.of_nat k -> exists b, ok j = Some b /\ (b = true <-> P j)) -> (forall j, i + Z.of_nat k <= j -> ~ P j) -> up ok i k = r ->
  exists z, r = At z /\ leftmost P i z.
Proof.
  revert i r. induction k as [|k IH]; intros i r Hok Hout <-.
  - simpl. exists (-1). split; auto. right. split; auto. intros j Hj. apply Hout. lia.
  - simpl. destruct (Hok i ltac:(lia)) as (b & -> & Hb). destruct b.
    + exists i. split; auto. left. split; [lia|]. split; [apply Hb; auto|lia].
    + destruct (IH (i + 1) _ ltac:(intros j Hj; apply Hok; lia) ltac:(intros j Hj; apply Hout; lia) eq_refl) as (z & -> & Hz). exists z. split; auto.
      assert (Hn : ~ P i) by (intros C; apply Hb in C; discriminate).
      destruct Hz as [(A & B & C)|(A & B)]; [left|right].
      * split; [lia|]. split; auto. intros j Hj. destruct (Z.eq_dec j i) as [-> | Hne]; auto. apply C. lia.
      * split; auto. intros j Hj. destruct (Z.eq_dec j i) as [-> | Hne]; auto. apply B. lia.
Qed.
Lemma down_ok ok (P : Z -> Prop) i k r : Z.of_nat k = Z.max 0 (i + 1) -> (forall j, 0 <= j <= i -> exists b, ok j = Some b /\ (b = true <-> P j)) -> (forall j, j < 0 -> ~ P j) -> down ok i k = r ->
  exists z, r = At z /\ rightmost P i z.
Proof.
  revert i r. induction k as [|k IH]; intros i r Hk Hok Hneg <-.
  - simpl. exists (-1). split; auto. right. split; auto. intros j Hj. apply Hneg. lia.
  - simpl. destruct (Hok i ltac:(lia)) as (b & -> & Hb). destruct b.
    + exists i. split; auto. left. split; [lia|]. split; [apply Hb; auto|lia].
    + destruct (IH (i - 1) _ ltac:(lia) ltac:(intros j Hj; apply Hok; lia) Hneg eq_refl) as (z & -> & Hz). exists z. split; auto.
      assert (Hn : ~ P i) by (intros C; apply Hb in C; discriminate).
      destruct Hz as [(A & B & C)|(A & B)]; [left|right].
      * split; [lia|]. split; auto. intros j Hj. destruct (Z.eq_dec j i) as [-> | Hne]; auto. apply C. lia.
      * split; auto. intros j Hj. destruct (Z.eq_dec j i) as [-> | Hne]; auto. apply B. lia.
Qed.
Lemma occurs_range s x i : occurs s x i -> 0 <= i /\ i + len x <= len s.
Proof. intros (a & b & -> & <-). rewrite !len_app. pose proof (len_nonneg a). pose proof (len_nonneg b). lia. Qed.
Lemma bytes_at_ok s x i : 0 <= i -> i + len x <= len s -> exists b, bytes_at s x i = Some b /\ (b = true <-> occurs s x i).
Proof.
  intros H1 H2. unfold bytes_at. replace ((0 <=? i) && (i + len x <=? len s)) with true by lia. eexists. split; [reflexivity|]. rewrite same_eq. unfold len in H2. split.
  - intros E. exists (firstn (Z.to_nat i) s), (skipn (length x) (skipn (Z.to_nat i) s)). split.
    + rewrite <- E at 1. rewrite firstn_skipn, firstn_skipn. auto.
    + unfold len. rewrite firstn_length. lia.
  - intros (a & b & -> & E). unfold len in E. replace (Z.to_nat i) with (length a + 0)%nat by lia. rewrite skipn_app, Nat.add_0_r, skipn_all, Nat.sub_diag. simpl. rewrite firstn_app, Nat.sub_diag, firstn_all. simpl. apply app_nil_r.
Qed.
Lemma byte_at_ok s x i : 0 <= i < len s -> exists b, byte_at s x i = Some b /\ (b = true <-> occurs s [x] i).
Proof.
  intros H. destruct (bytes_at_ok s [x] i ltac:(lia) ltac:(rewrite len_cons, len_nil; lia)) as (b & E & Hb). unfold byte_at. replace ((0 <=? i) && (i <? len s)) with true by lia. eexists. split; [reflexivity|].
  rewrite <- Hb. unfold bytes_at in E. change (len [x]) with 1 in E. replace ((0 <=? i) && (i + 1 <=? len s)) with true in E by lia. injection E as E'. clear Hb.
  assert (Hs : skipn (Z.to_nat i) s = nth (Z.to_nat i) s 0 :: skipn (Datatypes.S (Z.to_nat i)) s).
  { assert (Hl : (Z.to_nat i < length s)%nat) by (unfold len in H; lia). clear - Hl. revert Hl. generalize (Z.to_nat i). induction s as [|y s IH]; intros n Hl; simpl in Hl; [lia|]. destruct n as [|n]; auto. simpl. apply IH. lia. }
  rewrite Hs in E'. simpl in E'. rewrite andb_true_r in E'. rewrite E'. tauto.
Qed.
Lemma find_left_c_ok s start x : exists r, find_left_c s start x = At r /\ leftmost (occurs s [x]) (Z.max 0 start) r.
Proof.
  unfold find_left_c. replace (if start <? 0 then 0 else start) with (Z.max 0 start) by (destruct (start <? 0) eqn:E; lia). cbv zeta. eapply up_ok; [| |reflexivity].
  - intros j Hj. apply byte_at_ok. lia.
  - intros j Hj C. apply occurs_range in C. change (len [x]) with 1 in C. lia.
Qed.
Lemma occurs_nil s i : 0 <= i <= len s -> occurs s [] i.
Proof. intros H. exists (firstn (Z.to_nat i) s), (skipn (Z.to_nat i) s). simpl. rewrite firstn_skipn. split; auto. unfold len in *. rewrite firstn_length. lia. Qed.
Lemma find_left_ok s start x : exists r, find_left s start x = At r /\ leftmost (occurs s x) (Z.max 0 start) r.
Proof.
  unfold find_left. replace (if start <? 0 then 0 else start) with (Z.max 0 start) by (destruct (start <? 0) eqn:E; lia). cbv zeta. destruct (len x =? 0) eqn:E.
  - assert (x = []) as -> by (destruct x; auto; rewrite len_cons in E; pose proof (len_nonneg x); lia). eexists. split; [reflexivity|]. destruct (Z.max 0 start <=? len s) eqn:F; [left|right].
    + split; [lia|]. split; [apply occurs_nil; lia|lia].
    + split; auto. intros j Hj C. apply occurs_range in C. change (len (@nil Z)) with 0 in C. lia.
  - eapply up_ok; [| |reflexivity].
    + intros j Hj. apply bytes_at_ok; lia.
    + intros j Hj C. apply occurs_range in C. pose proof (len_nonneg x). lia.
Qed.
Lemma rightmost_le P hi hi' r : hi' <= hi -> (forall i, hi' < i <= hi -> ~ P i) -> rightmost P hi' r -> rightmost P hi r.
Proof.
  intros H H1 [(A & B & C)|(A & B)]; [left|right].
  - split; [lia|]. split; auto. intros i Hi. destruct (Z_le_gt_dec i hi'); [apply C|apply H1]; lia.
  - split; auto. intros i Hi. destruct (Z_le_gt_dec i hi'); [apply B|apply H1]; lia.
Qed.
Lemma find_right_c_ok s start x : exists r, find_right_c s start x = At r /\ rightmost (occurs s [x]) start r.
Proof.
  unfold find_right_c. cbv zeta. set (st := if len s <=? start then len s - 1 else start).
  assert (Hst : st <= start /\ st < len s /\ forall i, st < i -> i <= start -> len s <= i) by (unfold st; destruct (len s <=? start) eqn:E; (split; [lia|]; split; [lia|]; intros; lia)).
  destruct (down_ok (byte_at s x) (occurs s [x]) st (Z.to_nat (st + 1)) _ ltac:(lia) ltac:(intros j Hj; apply byte_at_ok; lia) ltac:(intros j Hj C; apply occurs_range in C; lia) eq_refl) as (r & E & Hr).
  exists r. split; auto. apply (rightmost_le _ _ st); auto; [lia|]. intros i Hi C. apply occurs_range in C. change (len [x]) with 1 in C. destruct Hst as (_ & _ & Hst). specialize (Hst i). lia.
Qed.
Lemma find_right_ok rep s start x : rep = true \/ len s <= start \/ start + len x <= len s -> exists r, find_right rep s start x = At r /\ rightmost (occurs s x) start r.
Proof.
  intros Hc. unfold find_right. cbv zeta. set (st := if (len s <=? start) || rep && (len s - len x <? start) then len s - len x else start).
  pose proof (len_nonneg x) as Hx.
  assert (Hst : st <= start /\ st + len x <= len s /\ forall i, st < i -> i <= start -> len s < i + len x) by (unfold st; destruct (len s <=? start) eqn:E, rep; simpl; try (destruct (len s - len x <? start) eqn:F); destruct Hc as [Hc|Hc]; try discriminate; (split; [lia|]; split; [lia|]; intros; lia)).
  destruct Hst as (S1 & S2 & S3). destruct (len x =? 0) eqn:E.
  - assert (x = []) as -> by (destruct x; auto; rewrite len_cons in E; pose proof (len_nonneg x); lia). change (len (@nil Z)) with 0 in *. eexists. split; [reflexivity|]. apply (rightmost_le _ _ st); auto.
    + intros i Hi C. apply occurs_range in C. change (len (@nil Z)) with 0 in C. specialize (S3 i). lia.
    + destruct (0 <=? st) eqn:F; [left|right].
      * split; [lia|]. split; [apply occurs_nil; lia|lia].
      * split; auto. intros i Hi C. apply occurs_range in C. lia.
  - destruct (down_ok (bytes_at s x) (occurs s x) st (Z.to_nat (st + 1)) _ ltac:(lia) ltac:(intros j Hj; apply bytes_at_ok; lia) ltac:(intros j Hj C; apply occurs_range in C; lia) eq_refl) as (r & Er & Hr).
    exists r. split; auto. apply (rightmost_le _ _ st); auto. intros i Hi C. apply occurs_range in C. specialize (S3 i). lia.
Qed.
