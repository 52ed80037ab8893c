(* Byte-range updates of string rows. *)
From Verif Require Import Lib M_Bag P_Bag1 M_Strrow Spec_Strrow.

Lemma offset_range idx : 0 <= index_offset idx < 2 ^ 16.
Proof. apply Z.mod_pos_bound. lia. Qed.
Lemma reach_nonneg ch : 0 <= reach ch.
Proof. induction ch as [|c ch IH]; cbn [reach fold_right]; [lia|]. fold (reach ch). lia. Qed.
Lemma kept_nonneg ch old : 0 <= old -> 0 <= kept ch old.
Proof. revert old. induction ch as [|[i v] ch IH]; intros old Ho; cbn [kept]; auto. apply IH. destruct (i =? 0); auto. apply len_nonneg. Qed.

Lemma sizes_eq ch : Forall (fun c => len (snd c) < 2 ^ 31) ch -> forall n cut, 0 <= n -> sr_sizes ch n cut = (Z.max n (reach (ranges ch)), kept ch cut).
Proof.
  induction 1 as [|[i v] ch Hv H IH]; intros n cut Hn; cbn [sr_sizes ranges map reach fold_right kept fst snd].
  - f_equal. lia.
  - change (i mod 2 ^ 16) with (index_offset i). fold (ranges ch). fold (reach (ranges ch)). cbn [snd] in Hv. pose proof (offset_range i). pose proof (len_nonneg v). rewrite Z.mod_small by lia.
    rewrite IH by lia. f_equal. lia.
Qed.

Lemma nth_wr m off bs m' p : wr m off bs = Some m' -> nth p m' None = if (off <=? Z.of_nat p) && (Z.of_nat p <? off + len bs) then nth (p - Z.to_nat off) bs None else nth p m None.
Proof.
  unfold wr. destruct (_ && _) eqn:E; [|discriminate]. apply andb_prop in E as [E1 E2]. intros H. injection H as <-. unfold len in *.
  destruct (off <=? Z.of_nat p) eqn:E3; [destruct (Z.of_nat p <? off + _) eqn:E4|]; cbn [andb].
  - rewrite app_nth2; rewrite firstn_length_le by lia; [|lia]. now rewrite app_nth1 by lia.
  - rewrite !app_nth2; rewrite ?firstn_length_le by lia; [|lia|lia].
    assert (N : forall n (l : mem) k, nth k (skipn n l) None = nth (n + k) l None). { clear. induction n; intros [|x l] k; cbn; auto. now destruct k. }
    rewrite N. f_equal. lia.
  - rewrite app_nth1 by (rewrite firstn_length_le; lia).
    assert (N : forall n (l : mem) k, (k < n)%nat -> nth k (firstn n l) None = nth k l None). { clear. induction n; intros [|x l] [|k] Hk; cbn; auto; try lia. apply IHn. lia. }
    apply N. lia.
Qed.
Lemma wr_len m off bs m' : wr m off bs = Some m' -> len m' = len m.
Proof.
  unfold wr. destruct (_ && _) eqn:E; [|discriminate]. apply andb_prop in E as [E1 E2]. intros H. injection H as <-.
  unfold len in *. rewrite !app_length, firstn_length, skipn_length. lia.
Qed.
Lemma wr_some m off bs : 0 <= off -> off + len bs <= len m -> exists m', wr m off bs = Some m'.
Proof. intros H1 H2. unfold wr. replace (0 <=? off) with true by lia. replace (_ <=? len m) with true by lia. eexists. reflexivity. Qed.

Lemma store_ok ch : forall m, reach (ranges ch) <= len m -> exists m', sr_store m ch = Some m' /\ len m' = len m /\
  forall p, nth p m' None = match covering (ranges ch) (Z.of_nat p) with Some b => Some b | None => nth p m None end.
Proof.
  induction ch as [|[i v] ch IH]; intros m Hr; cbn [sr_store ranges map reach fold_right covering fst snd] in *.
  - exists m. auto.
  - change (i mod 2 ^ 16) with (index_offset i) in *. fold (ranges ch) in *. fold (reach (ranges ch)) in Hr. pose proof (offset_range i).
    destruct (wr_some m (index_offset i) (map Some v)) as [m1 E]; [lia|unfold len in *; rewrite map_length; lia|]. rewrite E.
    pose proof (wr_len _ _ _ _ E) as L. destruct (IH m1 ltac:(lia)) as (m' & -> & L' & N). exists m'. split; auto. split; [lia|]. intros p. rewrite N.
    destruct (covering (ranges ch) (Z.of_nat p)); auto. rewrite (nth_wr _ _ _ _ _ E). unfold len. rewrite map_length.
    destruct (_ && _) eqn:Eb; auto. apply andb_prop in Eb as [B1 B2].
    rewrite nth_indep with (d' := Some 0) by (rewrite map_length; lia). rewrite (map_nth Some). do 2 f_equal. lia.
Qed.

Lemma sr_update_exact r ch ts : Forall (fun c => len (snd c) < 2 ^ 31) ch ->
  if kept ch (len (sr_s r)) <=? len (sr_s r)
  then exists r', sr_update r ch ts = Some r' /\ sr_ts r' = ts /\ len (sr_s r') = Z.max (reach (ranges ch)) (kept ch (len (sr_s r))) /\
       forall p, nth p (sr_s r') None = match covering (ranges ch) (Z.of_nat p) with Some b => Some b
                                        | None => if Z.of_nat p <? kept ch (len (sr_s r)) then nth p (sr_s r) None else None end
  else sr_update r ch ts = None.
Proof.
  intros Hv. unfold sr_update. rewrite sizes_eq by (auto; lia). set (k := kept ch (len (sr_s r))).
  assert (0 <= k) by (apply kept_nonneg, len_nonneg). pose proof (reach_nonneg (ranges ch)).
  unfold rd. replace (0 <=? 0) with true by lia. replace (0 <=? k) with true by lia. cbn [andb]. rewrite Z.add_0_l.
  destruct (k <=? len (sr_s r)) eqn:E; auto. cbn [Z.to_nat skipn].
  set (src := firstn (Z.to_nat k) (sr_s r)). set (row := repeat None _).
  assert (Ls : len src = k) by (unfold src, len in *; rewrite firstn_length; lia).
  assert (Lr : len row = Z.max (reach (ranges ch)) k) by (unfold row; rewrite len_repeat; lia).
  destruct (wr_some row 0 src) as [m1 E1]; [lia|lia|]. rewrite E1. pose proof (wr_len _ _ _ _ E1) as L1.
  destruct (store_ok ch m1) as (m2 & -> & L2 & N2); [lia|]. exists (MkSrow ts m2). cbn [sr_s sr_ts]. split; auto. split; auto. split; [lia|].
  intros p. rewrite N2. destruct (covering _ _); auto. rewrite (nth_wr _ _ _ _ _ E1), Ls. cbn [Z.leb andb].
  replace (0 <=? Z.of_nat p) with true by lia. cbn [andb]. rewrite Z.add_0_l. destruct (Z.of_nat p <? k) eqn:Ep.
  - cbn [Z.to_nat]. rewrite Nat.sub_0_r. unfold src.
    assert (Nf : forall n (l : mem) k, (k < n)%nat -> nth k (firstn n l) None = nth k l None). { clear. induction n; intros [|x l] [|k] Hk; cbn; auto; try lia. apply IHn. lia. }
    apply Nf. lia.
  - unfold row. apply nth_repeat.
Qed.
