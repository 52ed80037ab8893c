(** The functions of StringAccum. *)

From Coq Require Import List ZArith Lia Bool.
From Verif Require Import M_StringRep Spec_StringRep P_StringRep1 P_StringRep2 P_StringRep3.
Import ListNotations.
Open Scope Z_scope.

Definition hasa (a : nat -> Z) (x : acc) : Prop := forall b, a_blk x = Some b -> 0 < a b.

Definition aval (h : heap) (x : acc) (l : list Z) : Prop :=
  a_len x = len l /\ len l <= max_len /\
  match a_blk x with
  | None => a_cap x = 0 /\ l = []
  | Some b => exists m, nth_error h b = Some (Some m) /\ a_cap x = m_cap m /\
      len l <= a_cap x /\ 0 < a_cap x /\ len (m_buf m) = a_cap x /\ sub (m_buf m) 0 (len l) = l
  end.

(** Only the block of [x], and new blocks, are written. *)
Definition elsewhere (x : acc) (h h' : heap) : Prop :=
  (length h <= length h')%nat /\
  forall b, (b < length h)%nat -> a_blk x <> Some b -> nth_error h' b = nth_error h b.

Lemma elsewhere_refl x h : elsewhere x h h.
Proof. split; auto. Qed.

(** [x] is replaced by [x'] with the value [l]. *)
Definition areplaced (h : heap) (c a : nat -> Z) (x : acc) (h' : heap) (x' : acc) (l : list Z)
  : Prop :=
  heap_ok h' c (fun b => a b - one (a_blk x) b + one (a_blk x') b) /\
  elsewhere x h h' /\ aval h' x' l.

Lemma aval_empty h : aval h empty_acc [].
Proof. split; auto. unfold max_len, len. simpl. split; auto. lia. Qed.

Lemma aval_given h c a x l i n : aval h x l -> hasa a x -> heap_ok h c a ->
  0 <= i -> 0 <= n -> i + n <= len l -> given h c a (a_ptr x i) n (sub l i n).
Proof.
  intros (V1 & V2 & V3) H O Hi Hn Hl. split. { apply sub_len; auto. }
  unfold a_ptr. destruct (a_blk x) as [b|] eqn:Em.
  - destruct V3 as (m & E & C & L & P & B & S). split; auto. exists m. split; auto.
    split. { rewrite <- S. rewrite sub_sub by lia. f_equal. }
    split; [lia|]. right. apply H; auto.
  - destruct V3 as [_ ->]. unfold len in *. simpl in *.
    split; auto. split; [lia|]. replace i with 0 by lia. replace n with 0 by lia. auto.
Qed.

Lemma given_block h c a p n l b o :
  given h c a p n l -> p = PM b o -> heap_ok h c a -> 0 < c b \/ 0 < a b.
Proof. intros [_ G] -> O. destruct G as (_ & x & _ & _ & _ & [[G _]|G]); auto. Qed.

Lemma given_elsewhere h h' c a a' x p n l :
  elsewhere x h h' -> given h c a p n l ->
  (forall b o, p = PM b o -> a_blk x <> Some b) ->
  (forall b, a_blk x <> Some b -> a b <= a' b) ->
  given h' c a' p n l.
Proof.
  intros [L G] [V1 V2] N A. split; auto. destruct p as [b o|]; auto.
  destruct V2 as (Ho & m & E & S & B & C). split; auto. exists m.
  specialize (N _ _ eq_refl). rewrite G; auto; [|apply nth_lt in E; auto].
  split; auto. split; auto. split; auto. specialize (A _ N). destruct C as [C|C]; auto. right. lia.
Qed.

Lemma free_ok h c a x l :
  heap_ok h c a -> hasa a x -> aval h x l ->
  exists h', acc_free h x = Fine h' /\ heap_ok h' c (fun b => a b - one (a_blk x) b) /\
    elsewhere x h h'.
Proof.
  intros O H (V1 & V2 & V3). unfold acc_free. destruct (a_blk x) as [b|] eqn:Em.
  - destruct V3 as (m & E & C & L & P & B & S). replace (0 <? a_cap x) with true by lia.
    unfold free, block. rewrite E. cbn [bind]. eexists. split; [reflexivity|].
    destruct (heap_ok_acc _ _ _ b O (H _ Em)) as (m' & _ & _ & _ & Cb & Ab).
    split.
    + apply (heap_ok_set h c a); auto.
      * apply nth_lt in E; auto.
      * intros d N. rewrite one_other by congruence. lia.
      * lia.
      * rewrite one_self. lia.
    + split. { rewrite put_length. auto. }
      intros d _ N. apply put_other. congruence.
  - destruct V3 as [-> _]. simpl. exists h. split; auto. split.
    + eapply heap_ok_ext; eauto. intros; cbn beta; simpl; lia.
    + apply elsewhere_refl.
Qed.

Lemma capacity_ok cap ncap : 0 <= cap <= ncap -> ncap <= max_len ->
  exists k, acc_capacity cap ncap = Fine k /\ 0 < k < 2 ^ 31 - 12 /\ ncap <= k /\
    (cap = ncap -> ncap < k).
Proof.
  unfold max_len. intros C M. unfold acc_capacity.
  destruct (Z.ltb_spec ncap 128). { eexists. split; eauto. lia. }
  destruct (Z.ltb_spec cap (2 ^ 20)); cbn [andb].
  - destruct (Z.ltb_spec ncap ((cap + 12) * 2 - 12)). { eexists. split; eauto. lia. }
    replace (2 ^ 20 <=? cap) with false by lia. eexists. split; eauto. lia.
  - replace (2 ^ 20 <=? cap) with true by lia. rewrite int_fine by lia. cbn [bind].
    eexists. split; eauto. destruct (Z.ltb_spec ncap (cap + 2 ^ 19)); lia.
Qed.

Lemma aval_cap h x l : aval h x l -> len l <= a_cap x.
Proof.
  intros (V1 & V2 & V3). destruct (a_blk x).
  - destruct V3 as (m & _ & _ & ? & _). auto.
  - destruct V3 as [-> ->]. unfold len. simpl. lia.
Qed.

Lemma grow_ok h c a x l ncap :
  heap_ok h c a -> hasa a x -> aval h x l -> 0 <= ncap <= max_len -> a_len x <= ncap ->
  exists h' x', acc_grow h x ncap = Fine (h', x') /\ areplaced h c a x h' x' l /\
    hasa (fun b => a b - one (a_blk x) b + one (a_blk x') b) x' /\
    a_blk x' <> None /\
    ncap <= a_cap x' /\ (a_cap x = ncap -> ncap < a_cap x') /\
    (a_cap x <= ncap -> a_blk x' = Some (length h)).
Proof.
  intros O H V N Ln. pose proof V as (V1 & V2 & V3). pose proof (aval_cap _ _ _ V) as Lc.
  pose proof (len_nonneg l) as LN.
  unfold acc_grow. destruct (Z.ltb_spec ncap (a_cap x)) as [Q|Q].
  - exists h, x. split; auto. split.
    { split; [|split; auto using elsewhere_refl].
      eapply heap_ok_ext; eauto. intros; cbn beta; lia. }
    split. { intros b Eb. cbn beta. specialize (H b Eb). lia. }
    split. { destruct (a_blk x); [discriminate|]. destruct V3. lia. }
    split; [lia|]. split; lia.
  - destruct (capacity_ok (a_cap x) ncap) as (k & Ek & K1 & K2 & K3); [lia|lia|].
    rewrite Ek. cbn [bind]. rewrite alloc_fine by lia. cbn [bind].
    set (b := length h). set (h1 := h ++ [Some (fresh k 0)]).
    pose proof (alloc_acc h c a k 0 O K1 ltac:(lia)) as O1. fold b h1 in O1.
    assert (Nb : nth_error h1 b = Some (Some (fresh k 0))) by apply nth_last.
    assert (Ab : a b = 0).
    { destruct (O b) as [_ K]. replace (nth_error h b) with (@None (option memo)) in K
        by (symmetry; apply nth_error_None; unfold b; auto). lia. }
    assert (Nx : a_blk x <> Some b).
    { intros Q'. specialize (H _ Q'). lia. }
    assert (E1 : elsewhere x h h1).
    { split. { unfold h1. rewrite app_length. lia. }
      intros d Ld _. apply nth_error_app1. auto. }
    destruct (a_blk x) as [bx|] eqn:Ex.
    + pose proof V3 as (m & Em & C & L & P & B & S). replace (0 <? a_cap x) with true by lia.
      assert (Gv : given h1 c (fun d => a d + one (Some b) d) (a_ptr x 0) (a_len x) l).
      { pose proof (aval_given h c a x l 0 (len l) V) as Gv. rewrite sub_all in Gv.
        rewrite V1. specialize (Gv ltac:(intros d Ed; apply H; congruence) O).
        specialize (Gv ltac:(lia) ltac:(lia) ltac:(lia)).
        destruct Gv as [W1 W2]. split; auto. unfold a_ptr in *. rewrite Ex in *.
        destruct W2 as (Ho & y & Ey & Sy & By & Cy). split; auto. exists y.
        unfold h1. rewrite nth_error_app1 by (apply nth_lt in Ey; auto).
        split; auto. split; auto. split; auto. right.
        specialize (H _ Ex). pose proof (one_range (Some b) bx). lia. }
      unfold copy. rewrite (load_given _ _ _ _ _ _ Gv). cbn [bind].
      assert (Ov : overlap (a_ptr x 0) b 0 (a_len x) = false).
      { unfold a_ptr. rewrite Ex. simpl. destruct (Nat.eqb_spec b bx); auto. congruence. }
      rewrite Ov. cbn [negb need bind].
      assert (Bl : 0 + len l <= len (m_buf (fresh k 0))).
      { simpl. rewrite len_repeat; lia. }
      rewrite (store_fine _ _ _ _ _ Nb) by (auto; lia). cbn [bind].
      set (h2 := put h1 b (Some (written (fresh k 0) 0 l))).
      assert (O2 : heap_ok h2 c (fun d => a d + one (Some b) d)) by (apply store_ok; auto; lia).
      assert (N2 : nth_error h2 bx = Some (Some m)).
      { unfold h2. rewrite put_other by congruence. unfold h1.
        rewrite nth_error_app1; auto. apply nth_lt in Em; auto. }
      destruct (free_ok h2 c _ x l O2) as (h3 & E3 & O3 & El3).
      { intros d Ed. cbn beta. rewrite Ex in Ed. injection Ed as <-. specialize (H _ Ex).
        pose proof (one_range (Some b) bx). lia. }
      { split; auto. split; auto. rewrite Ex. exists m. auto 10. }
      rewrite E3. cbn [bind]. eexists _, _. split; [reflexivity|].
      rewrite Ex in *.
      assert (L2 : length h2 = Datatypes.S (length h)).
      { unfold h2, h1. rewrite put_length, app_length. simpl. lia. }
      assert (N3 : nth_error h3 b = Some (Some (written (fresh k 0) 0 l))).
      { destruct El3 as [_ El3]. rewrite El3; auto. 2: { unfold b. lia. } 2: congruence.
        unfold h2. apply put_same. apply nth_lt in Nb; auto. }
      split; [split; [|split]|].
      * eapply heap_ok_ext; [exact O3| |]; intros; cbn beta; cbn [a_blk]; auto. rewrite Ex. lia.
      * destruct El3 as [L3 El3]. split; [lia|]. intros d Ld Nd.
        rewrite El3; [|lia|congruence]. unfold h2. rewrite put_other by (unfold b; lia).
        destruct E1 as [_ E1]. apply E1; auto.
      * split; auto. split; auto. simpl. eexists. split; [exact N3|].
        simpl. split; auto. split; [lia|]. split; [lia|]. split.
        { rewrite splice_len by (auto; lia). apply len_repeat. lia. }
        apply splice_at; auto. lia.
      * split. { intros d Ed. simpl in Ed. injection Ed as <-. simpl a_blk. cbn beta.
                 rewrite one_self, one_other by congruence. lia. }
        simpl. split; [discriminate|]. split; auto.
    + destruct V3 as [C0 ->]. rewrite C0. cbn [bind Z.ltb Z.compare].
      eexists _, _. split; [reflexivity|].
      split; [split; [|split]|].
      * eapply heap_ok_ext; [exact O1| |]; intros; cbn beta; cbn [a_blk]; auto. rewrite Ex. simpl. lia.
      * exact E1.
      * split; auto. split; auto. simpl. exists (fresh k 0). split; auto.
        unfold len at 1 3. simpl. split; auto. split; [lia|]. split; [lia|]. split; auto.
        apply len_repeat. lia.
      * split. { intros d Ed. simpl in Ed. injection Ed as <-. simpl a_blk. cbn beta.
                 rewrite one_self. simpl. lia. }
        simpl. split; [discriminate|]. split; auto. split; auto. rewrite <- C0. auto.
Qed.

Lemma put_ok h c a x l s :
  heap_ok h c a -> hasa a x -> aval h x l -> len l + len s <= a_cap x ->
  len l + len s <= max_len ->
  exists h' x', acc_put h x s = Fine (h', x') /\ areplaced h c a x h' x' (l ++ s) /\
    a_blk x' = a_blk x /\ a_cap x' = a_cap x /\ length h' = length h.
Proof.
  intros O H (V1 & V2 & V3) C M. pose proof (len_nonneg l). pose proof (len_nonneg s).
  unfold acc_put. destruct (a_blk x) as [b|] eqn:Ex.
  - destruct V3 as (m & Em & Cm & L & P & B & S).
    rewrite (store_fine _ _ m) by (auto; lia). cbn [bind].
    eexists _, _. split; [reflexivity|]. split; [split; [|split]|].
    + rewrite Ex. simpl. eapply heap_ok_ext with (c := c) (a := a).
      * apply store_ok; auto; lia.
      * auto.
      * intros; cbn beta; lia.
    + split. { rewrite put_length. auto. } intros d _ N. apply put_other. congruence.
    + split. { simpl. rewrite len_app. lia. } split. { rewrite len_app. auto. }
      simpl. eexists. split. { apply put_same. apply nth_lt in Em. auto. }
      simpl. split; auto. rewrite len_app. split; auto. split; auto.
      split. { rewrite splice_len by lia. auto. }
      rewrite V1, sub_app by lia. f_equal.
      * rewrite splice_before by lia. auto.
      * simpl. apply splice_at; lia.
    + simpl. rewrite put_length. auto.
  - destruct V3 as [C0 ->]. unfold len in C at 1. simpl in C.
    assert (s = []) as ->. { destruct s; auto. unfold len in *; simpl in *; lia. }
    simpl. exists h, x. split; auto. split; auto. split; [|split; auto using elsewhere_refl].
    + eapply heap_ok_ext; eauto. intros; cbn beta; lia.
    + split; auto. split; auto. rewrite Ex. auto.
Qed.

Lemma copy_ok h c a x l p n s :
  heap_ok h c a -> hasa a x -> aval h x l -> given h c a p n s ->
  len l + n <= a_cap x -> len l + n <= max_len ->
  (forall b o, a_blk x = Some b -> p = PM b o -> o + n <= len l) ->
  exists h' x', acc_copy h x p n = Fine (h', x') /\ areplaced h c a x h' x' (l ++ s) /\
    a_blk x' = a_blk x /\ a_cap x' = a_cap x /\ length h' = length h.
Proof.
  intros O H V G C M D. unfold acc_copy. rewrite (load_given _ _ _ _ _ _ G). cbn [bind].
  pose proof (proj1 G) as Ln. pose proof (len_nonneg s).
  assert (Ov : match a_blk x with Some b => overlap p b (a_len x) n | None => false end = false).
  { destruct (a_blk x) as [b|] eqn:Ex; auto. destruct p as [b' o|]; simpl; auto.
    destruct (Nat.eqb_spec b b'); auto. subst b'. specialize (D _ _ eq_refl eq_refl).
    rewrite (proj1 V). simpl. lia. }
  rewrite Ov. cbn [negb need bind]. apply put_ok; auto; lia.
Qed.

Lemma heap_ok_a h c a a' : heap_ok h c a -> (forall b, a' b = a b) -> heap_ok h c a'.
Proof. intros. eapply heap_ok_ext; eauto. Qed.

Lemma acc_append_ok h c a x l p n s :
  heap_ok h c a -> hasa a x -> aval h x l -> given h c a p n s ->
  len l + n <= max_len ->
  (forall b o, a_blk x = Some b -> p = PM b o -> o + n <= len l) ->
  exists h' x', acc_append h x p n = Fine (h', x') /\ areplaced h c a x h' x' (l ++ s).
Proof.
  intros O H V G M D. pose proof (proj1 G) as Ln. pose proof (len_nonneg s) as LNs.
  pose proof (len_nonneg l) as LNl. pose proof V as (V1 & V2 & V3).
  assert (M' := M). unfold max_len in M'.
  unfold acc_append. rewrite V1. rewrite int_fine by lia. cbn [bind].
  destruct (Z.leb_spec (len l + n) (a_cap x)) as [Q|Q].
  { destruct (copy_ok h c a x l p n s O H V G Q M D) as (h' & x' & E & R & _). eauto. }
  assert (Cx : 0 <= a_cap x).
  { pose proof (aval_cap _ _ _ V). lia. }
  destruct (acc_inside x p) eqn:In; cbn [negb].
  - unfold acc_inside in In. destruct (a_blk x) as [b|] eqn:Ex; [|discriminate].
    destruct p as [b' o|]; [|discriminate].
    apply andb_true_iff in In as [In I3]. apply andb_true_iff in In as [I1 I2].
    apply Nat.eqb_eq in I1. subst b'. specialize (D _ _ eq_refl eq_refl).
    pose proof (aval_empty h) as Ve.
    assert (He : hasa a empty_acc) by (intros d Ed; discriminate).
    destruct (grow_ok h c a empty_acc [] (len l + n) O He Ve) as
      (h1 & x1 & E1 & (O1 & El1 & V1') & H1 & B1 & K1 & _ & Fr1); [lia|simpl; lia|].
    rewrite E1. cbn [bind].
    specialize (Fr1 ltac:(simpl; lia)).
    assert (Nb : b <> length h).
    { destruct V3 as (m & Em & _). apply nth_lt in Em. lia. }
    set (a1 := fun b => a b - one (a_blk empty_acc) b + one (a_blk x1) b) in *.
    assert (A1 : forall d, a d <= a1 d).
    { intros d. unfold a1. simpl. pose proof (one_range (a_blk x1) d). lia. }
    assert (Gx : given h c a (a_ptr x 0) (a_len x) l).
    { pose proof (aval_given h c a x l 0 (len l) V) as Gx. rewrite sub_all in Gx.
      rewrite V1. apply Gx; auto; lia. }
    assert (Gx1 : given h1 c a1 (a_ptr x 0) (a_len x) l).
    { eapply given_elsewhere; eauto. intros; discriminate. }
    assert (Gp1 : given h1 c a1 (PM b o) n s).
    { eapply given_elsewhere; eauto. intros; discriminate. }
    rewrite <- V1.
    destruct (copy_ok h1 c a1 x1 [] (a_ptr x 0) (a_len x) l O1 H1 V1' Gx1) as
      (h2 & x2 & E2 & (O2 & El2 & V2') & B2 & C2 & L2).
    { unfold len at 1; simpl. lia. } { unfold len at 1; simpl. lia. }
    { intros d q Ed Ep. unfold a_ptr in Ep. rewrite Ex in Ep. congruence. }
    rewrite E2. cbn [bind]. simpl app in V2'.
    assert (O2' : heap_ok h2 c a1).
    { eapply heap_ok_a; eauto. intros d; cbn beta. rewrite B2. lia. }
    assert (H2 : hasa a1 x2).
    { intros d Ed. apply H1. congruence. }
    assert (Gp2 : given h2 c a1 (PM b o) n s).
    { eapply given_elsewhere; eauto. 2: intros; lia. intros d q Ep. congruence. }
    destruct (copy_ok h2 c a1 x2 l (PM b o) n s O2' H2 V2' Gp2) as
      (h3 & x3 & E3 & (O3 & El3 & V3') & B3 & C3 & L3); auto.
    { lia. }
    { intros d q Ed Ep. congruence. }
    rewrite E3. cbn [bind].
    assert (O3' : heap_ok h3 c a1).
    { eapply heap_ok_a; eauto. intros d; cbn beta. rewrite B3. lia. }
    destruct V3 as (m & Em & Cm & Lm & Pm & Bm & Sm).
    assert (L : (b < length h)%nat) by (apply nth_lt in Em; auto).
    assert (Em3 : nth_error h3 b = Some (Some m)).
    { destruct El3 as [Lq3 El3]. rewrite El3; [|destruct El1, El2; lia|congruence].
      destruct El2 as [Lq2 El2]. rewrite El2; [|destruct El1; lia|congruence].
      destruct El1 as [Lq1 El1]. rewrite El1; auto. discriminate. }
    destruct (free_ok h3 c a1 x l O3') as (h4 & E4 & O4 & El4).
    { intros d Ed. specialize (A1 d). specialize (H d). specialize (H Ed). lia. }
    { split; auto. split; auto. rewrite Ex. exists m. auto 10. }
    rewrite E4. cbn [bind]. eexists _, _. split; [reflexivity|].
    destruct El1 as [Lq1 El1]. destruct El2 as [Lq2 El2]. destruct El3 as [Lq3 El3].
    destruct El4 as [Lq4 El4].
    split; [|split].
    + eapply heap_ok_a; eauto. intros d; cbn beta. unfold a1. rewrite B3, B2. simpl. lia.
    + split; [lia|]. intros d Ld Nd.
      rewrite El4, El3, El2, El1; auto; try lia; try discriminate; try congruence.
      * rewrite Fr1. intros Z0; injection Z0; lia.
      * rewrite B2, Fr1. intros Z0; injection Z0; lia.
    + destruct V3' as (W1 & W2 & W3). split; auto. split; auto.
      rewrite B3, B2, Fr1 in *. destruct W3 as (y & Ey & W3). exists y. split; auto.
      rewrite El4; auto; [apply nth_lt in Ey; lia|congruence].
  - assert (Np : forall b o, p = PM b o -> a_blk x <> Some b).
    { intros b o -> Eb. unfold acc_inside in In. rewrite Eb, Nat.eqb_refl in In.
      destruct G as [_ (Ho & m' & Em' & S & B & _)].
      rewrite Eb in V3. destruct V3 as (m & Em & Cm & Lm & Pm & Bm & Sm).
      assert (m' = m) by congruence. subst m'. simpl in In. lia. }
    destruct (grow_ok h c a x l (len l + n) O H V) as
      (h1 & x1 & E1 & (O1 & El1 & V1') & H1 & B1 & K1 & _ & Fr1); [lia|lia|].
    rewrite E1. cbn [bind]. specialize (Fr1 ltac:(lia)).
    set (a1 := fun b => a b - one (a_blk x) b + one (a_blk x1) b) in *.
    assert (Gp1 : given h1 c a1 p n s).
    { eapply given_elsewhere; eauto. intros b Nb. unfold a1.
      assert (one (a_blk x) b = 0) as ->.
      { destruct (a_blk x); auto. apply one_other. congruence. }
      pose proof (one_range (a_blk x1) b). lia. }
    destruct (copy_ok h1 c a1 x1 l p n s O1 H1 V1' Gp1) as
      (h2 & x2 & E2 & (O2 & El2 & V2') & B2 & C2 & L2); auto.
    { intros b o Eb ->. exfalso. rewrite Fr1 in Eb. injection Eb as <-.
      destruct G as [_ (_ & m & Em & _)]. apply nth_lt in Em. lia. }
    rewrite E2. eexists _, _. split; [reflexivity|].
    destruct El1 as [Lq1 El1]. destruct El2 as [Lq2 El2].
    split; [|split; auto].
    + eapply heap_ok_a; eauto. intros d; cbn beta. unfold a1. rewrite B2. lia.
    + split; [lia|]. intros d Ld Nd. rewrite El2, El1; auto; try lia.
      rewrite Fr1. intros Z0; injection Z0; lia.
Qed.

Lemma ready_ok h c a x l :
  heap_ok h c a -> hasa a x -> aval h x l ->
  exists h' x', (if a_len x <? a_cap x then Fine (h, x) else acc_grow h x (a_len x))
                = Fine (h', x') /\ areplaced h c a x h' x' l /\
    hasa (fun b => a b - one (a_blk x) b + one (a_blk x') b) x' /\
    a_blk x' <> None /\ len l + 1 <= a_cap x' /\
    (a_blk x' = a_blk x \/ a_blk x' = Some (length h)).
Proof.
  intros O H V. pose proof V as (V1 & V2 & V3). pose proof (len_nonneg l) as LNl.
  destruct (Z.ltb_spec (a_len x) (a_cap x)) as [Q|Q].
  - exists h, x. split; auto. split.
    { split; [|split; auto using elsewhere_refl].
      eapply heap_ok_ext; eauto. intros; cbn beta; lia. }
    split. { intros b Eb. cbn beta. specialize (H b Eb). lia. }
    split. { destruct (a_blk x); [discriminate|]. destruct V3. lia. }
    split; [lia|]. auto.
  - pose proof (aval_cap _ _ _ V) as LC.
    destruct (grow_ok h c a x l (a_len x) O H V) as
      (h1 & x1 & E1 & R1 & H1 & B1 & K1 & K2 & Fr1); [lia|lia|].
    exists h1, x1. split; auto. split; auto. split; auto. split; auto.
    specialize (K2 ltac:(lia)). split; [lia|]. right. apply Fr1. lia.
Qed.

Lemma elsewhere_trans x x' h h' h'' :
  elsewhere x h h' -> elsewhere x' h' h'' ->
  (a_blk x' = a_blk x \/ a_blk x' = Some (length h)) -> elsewhere x h h''.
Proof.
  intros [L G] [L' G'] D. split; [lia|]. intros b Lb Nb.
  rewrite G', G; auto; [lia|]. destruct D as [-> | ->]; auto.
  intros Z0; injection Z0; lia.
Qed.

Lemma char_ok h c a x l ch :
  heap_ok h c a -> hasa a x -> aval h x l -> len l + 1 <= max_len ->
  exists h' x', acc_char h x ch = Fine (h', x') /\ areplaced h c a x h' x' (l ++ [ch]).
Proof.
  intros O H V M. unfold acc_char.
  destruct (ready_ok h c a x l O H V) as (h1 & x1 & -> & (O1 & El1 & V1) & H1 & B1 & K1 & D1).
  cbn [bind].
  destruct (put_ok h1 c _ x1 l [ch] O1 H1 V1) as (h2 & x2 & E2 & (O2 & El2 & V2) & B2 & _); auto.
  rewrite E2. eexists _, _. split; [reflexivity|]. split; [|split; auto].
  - eapply heap_ok_a; eauto. intros d; cbn beta. rewrite B2. lia.
  - eapply elsewhere_trans; eauto.
Qed.

Lemma acc_c_str_ok h c a x l :
  heap_ok h c a -> hasa a x -> aval h x l ->
  exists h' x', acc_c_str h x = Fine (h', x') /\ areplaced h c a x h' x' l /\
    load h' (a_ptr x' 0) (a_len x' + 1) = Fine (l ++ [0]).
Proof.
  intros O H V. unfold acc_c_str.
  destruct (ready_ok h c a x l O H V) as (h1 & x1 & -> & (O1 & El1 & V1) & H1 & B1 & K1 & D1).
  cbn [bind]. destruct (a_blk x1) as [b|] eqn:Ex; [|congruence].
  destruct V1 as (W1 & W2 & W3). rewrite Ex in W3.
  destruct W3 as (m & Em & Cm & L & P & B & S). pose proof (len_nonneg l).
  rewrite (store_fine _ _ m) by (auto; change (len [0]) with 1; lia). cbn [bind].
  eexists _, _. split; [reflexivity|].
  set (m2 := written m (a_len x1) [0]).
  assert (N2 : nth_error (put h1 b (Some m2)) b = Some (Some m2)).
  { apply put_same. apply nth_lt in Em; auto. }
  assert (S2 : sub (m_buf m2) 0 (len l + 1) = l ++ [0]).
  { simpl. rewrite W1, sub_app by lia. f_equal.
    - rewrite splice_before by (change (len [0]) with 1; lia). auto.
    - simpl. change 1 with (len [0]). apply splice_at; change (len [0]) with 1; lia. }
  assert (B2 : len (m_buf m2) = a_cap x1).
  { simpl. rewrite splice_len; auto; change (len [0]) with 1; lia. }
  split; [split; [|split]|].
  - rewrite Ex. apply store_ok; auto; change (len [0]) with 1; lia.
  - eapply elsewhere_trans; [exact El1| |rewrite Ex; exact D1].
    split. { rewrite put_length; auto. } intros d _ Nd. apply put_other. congruence.
  - split; auto. split; auto. rewrite Ex. exists m2. split; auto. split; auto. split; auto.
    split; auto. split; auto.
    pose proof (f_equal (fun q => sub q 0 (len l)) S2) as S3. cbn beta in S3.
    rewrite sub_sub in S3 by lia. simpl (0 + 0) in S3. rewrite S3.
    unfold sub, len. simpl. rewrite Nat2Z.id, firstn_app, firstn_all, Nat.sub_diag. simpl.
    apply app_nil_r.
  - unfold a_ptr. rewrite Ex. simpl load. unfold block. rewrite N2. cbn [bind].
    rewrite W1. replace (0 <=? len l + 1) with true by lia.
    replace (len l + 1 <=? len (m_buf m2)) with true by lia. cbn [andb need bind].
    now rewrite S2.
Qed.

Lemma take_ok h c a x l :
  heap_ok h c a -> hasa a x -> aval h x l ->
  exists h' x' r, acc_take h x = Fine (h', x', r) /\
    heap_ok h' (fun b => c b + one (memo_ r) b) (fun b => a b - one (a_blk x) b + one (a_blk x') b) /\
    elsewhere x h h' /\ aval h' x' [] /\ val h' r l.
Proof.
  intros O H V. pose proof V as (V1 & V2 & V3). pose proof (len_nonneg l) as LNl.
  unfold acc_take. rewrite V1.
  destruct (Z.ltb_spec 0 (len l)) as [Q|Q]; cbn [andb].
  - destruct (a_blk x) as [b|] eqn:Ex.
    + destruct V3 as (m & Em & Cm & L & P & B & S). replace (0 <? a_cap x) with true by lia.
      unfold block. rewrite Em. cbn [bind]. eexists _, _, _. split; [reflexivity|].
      destruct (heap_ok_acc _ _ _ b O (H _ Ex)) as (m' & Em' & Cb' & Bb' & Cb & Ab).
      assert (m' = m) by congruence. subst m'.
      split; [|split; [|split]].
      * apply (heap_ok_set h c a); auto.
        -- apply nth_lt in Em; auto.
        -- intros d N. simpl. destruct (Nat.eqb_spec b d); try congruence. lia.
        -- intros d N. simpl. destruct (Nat.eqb_spec b d); try congruence. lia.
        -- simpl. rewrite Nat.eqb_refl. lia.
        -- split; simpl; [lia|]. split; [lia|]. left. rewrite Nat.eqb_refl. lia.
      * split. { rewrite put_length; auto. } intros d _ N. apply put_other. congruence.
      * apply aval_empty.
      * split; auto. simpl. split; auto. eexists. split.
        { apply put_same. apply nth_lt in Em; auto. }
        simpl. split; [lia|]. split; [lia|]. auto.
    + destruct V3 as [_ ->]. unfold len in Q; simpl in Q; lia.
  - assert (l = []) as ->. { destruct l; auto. unfold len in Q; simpl in Q; lia. }
    eexists _, _, _. split; [reflexivity|]. split; [|split; [|split]].
    + eapply heap_ok_ext; eauto; intros; cbn beta; simpl; lia.
    + apply elsewhere_refl.
    + auto.
    + apply val_empty.
Qed.

Lemma transfer_ok fixed h c a r l :
  heap_ok h c a -> has c r -> val h r l -> len l <= max_len ->
  (fixed = true \/ forall b, memo_ r = Some b -> c b = 1) ->
  exists h' x, acc_transfer fixed h r = Fine (h', x) /\
    heap_ok h' (fun b => c b - one (memo_ r) b) (fun b => a b + one (a_blk x) b) /\
    (forall r0 l0, val h r0 l0 -> has (fun b => c b - one (memo_ r) b) r0 -> val h' r0 l0) /\
    (forall b, 0 < a b -> nth_error h' b = nth_error h b) /\ aval h' x l.
Proof.
  intros O H V M F. pose proof (len_nonneg l).
  assert (Cp : exists h' x,
    (do (h, x) <- (if length_ r =? 0 then Fine (h, empty_acc)
                  else acc_append h empty_acc (data r) (length_ r));
     do h <- deref h r;
     Fine (h, x)) = Fine (h', x) /\
    heap_ok h' (fun b => c b - one (memo_ r) b) (fun b => a b + one (a_blk x) b) /\
    (forall r0 l0, val h r0 l0 -> has (fun b => c b - one (memo_ r) b) r0 -> val h' r0 l0) /\
    (forall b, 0 < a b -> nth_error h' b = nth_error h b) /\ aval h' x l).
  { assert (Ap : exists h1 x1, (if length_ r =? 0 then Fine (h, empty_acc)
                  else acc_append h empty_acc (data r) (length_ r)) = Fine (h1, x1) /\
               areplaced h c a empty_acc h1 x1 l).
    { destruct (Z.eqb_spec (length_ r) 0) as [Q|Q].
      - assert (l = []) as ->.
        { pose proof (proj1 V). destruct l; auto. unfold len in *; simpl in *; lia. }
        exists h, empty_acc. split; auto. split; [|split; auto using elsewhere_refl, aval_empty].
        eapply heap_ok_a; eauto. intros; simpl; lia.
      - destruct (acc_append_ok h c a empty_acc [] (data r) (length_ r) l O) as (h1 & x1 & E1 & R1).
        + intros d Ed; discriminate.
        + apply aval_empty.
        + apply val_given_all; auto.
        + unfold len at 1; simpl. rewrite (proj1 V). lia.
        + intros; discriminate.
        + exists h1, x1. auto. }
    destruct Ap as (h1 & x1 & -> & O1 & El1 & V1). cbn [bind].
    destruct (deref_ok h1 c _ r O1 H) as (h2 & E2 & O2 & G2).
    rewrite E2. cbn [bind]. eexists _, _. split; [reflexivity|].
    destruct El1 as [L1 El1].
    assert (Pres : forall b, (b < length h)%nat -> nth_error h1 b = nth_error h b).
    { intros b Lb. apply El1; auto. discriminate. }
    split; [|split; [|split]].
    - eapply heap_ok_a; eauto. intros; cbn beta. simpl. lia.
    - intros r0 l0 V0 Hz. eapply val_grows; eauto.
      destruct V0 as [W1 W2]. split; auto. destruct (memo_ r0) as [b|]; auto.
      destruct (data r0); auto. destruct W2 as (-> & y & Ey & W2). split; auto. exists y.
      split; auto. rewrite Pres; auto. apply nth_lt in Ey; auto.
    - intros b Ab. rewrite <- Pres.
      + eapply grows_acc; eauto. cbn beta. simpl. pose proof (one_range (a_blk x1) b). lia.
      + destruct (heap_ok_acc _ _ _ b O Ab) as (y & Ey & _). apply nth_lt in Ey; auto.
    - destruct V1 as (W1 & W2 & W3). split; auto. split; auto.
      destruct (a_blk x1) as [b|] eqn:Ex; auto. destruct W3 as (y & Ey & W3). exists y.
      split; auto. rewrite <- Ey. eapply grows_acc; eauto. cbn beta. rewrite one_self. simpl.
      destruct (O b) as [_ K]. destruct (nth_error h b) as [[z|]|]; try lia.
      destruct K as (_ & _ & K). lia. }
  unfold acc_transfer.
  destruct (is_shared fixed h r) as [sh|] eqn:Sh.
  2: { unfold is_shared in Sh. destruct (memo_ r) as [b|] eqn:Em; [|discriminate].
       destruct (heap_ok_live _ _ _ b O (H _ Em)) as (x & E & _).
       unfold block in Sh. rewrite E in Sh. discriminate. }
  cbn [bind]. destruct sh; [exact Cp|].
  destruct (memo_ r) as [b|] eqn:Em; [|exact Cp].
  destruct (data r) as [b' [|o|o]|s o] eqn:Ed; try exact Cp.
  destruct (heap_ok_live _ _ _ b O (H _ Em)) as (x & E & C & B & R & A & D).
  assert (c b = 1).
  { unfold is_shared, block in Sh. rewrite Em, E in Sh. cbn [bind] in Sh.
    injection Sh as Sh. destruct F as [-> |F]; [|auto].
    apply negb_false_iff in Sh. lia. }
  unfold block. rewrite E. cbn [bind]. eexists _, _. split; [reflexivity|].
  destruct V as [W1 W2]. rewrite Em, Ed in W2.
  destruct W2 as (-> & x' & E' & Ho & Hd & Hs).
  assert (x' = x) by congruence. subst x'.
  split; [|split; [|split]].
  - simpl. intros d. destruct (O d) as [K1 K2].
    destruct (Nat.eqb_spec b d) as [<-|N].
    + split; [lia|]. rewrite E in *. destruct K2 as (Q1 & Q2 & _).
      split; auto. split; auto. right. lia.
    + replace (c d - 0) with (c d) by lia. replace (a d + 0) with (a d) by lia. auto.
  - auto.
  - auto.
  - split; auto. split; auto. simpl. exists x. split; auto. split; auto. split; [lia|].
    split; [lia|]. split; auto. rewrite <- W1. auto.
Qed.
