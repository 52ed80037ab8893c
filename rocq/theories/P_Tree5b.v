(* Insertion of a new right sibling into the internodes, continued: one round of the loop, then the loop. *)
From Verif Require Import Lib Spec_String M_Key P_Key M_Permuter P_Permuter2 M_Search P_Search M_Tree P_Tree1 P_Tree2 P_Tree3 P_Tree4 P_Tree5.

Section Round.
Context (h : heap) (g : ghost) (L n child : nat) (x : Z) (height : nat).
Hypothesis HP : pend h g L n child x height.
Hypothesis HO : heap_ok h.
Hypothesis HF : forall m M, g_lay g m = Some M -> (m < hp_next h)%nat.
Let X := pexc g n child.

Lemma set_parent_some h0 m nd q : hp_node h0 m = Some nd -> set_parent h0 m q = Ok (hset h0 m (n_set_parent q nd)).
Proof. intros E. unfold set_parent. now rewrite (hget_some _ _ _ E). Qed.

Lemma split_parent_ok st : exists h' nxt g', split_parent h n child x st height = Ok (h', nxt) /\ heap_ok h' /\ sframe h g h' g' L /\
  match nxt with
  | None => SL h' g' (noexc g') L
  | Some (n', c', x') => pend h' g' L n' c' x' (S height) /\ g_root g' L = g_root g L
  end.
Proof.
  pose proof HP as [_ Pn Pc Pne [Px1 Px2] (nn & En & Hn2 & Hn3) (ncd & Ec & Hc2 & Hc3 & Hc4) Pcr].
  set (a := hp_next h).
  assert (Ana : n <> a) by (intros E; pose proof (HF _ _ Pn); unfold a in E; lia).
  assert (Aca : child <> a) by (intros E; pose proof (HF _ _ Pc); unfold a in E; lia).
  unfold split_parent. rewrite (hget_some _ _ _ En). cbn [bind]. destruct (n_parent nn) as [p|] eqn:Hnp.
  - destruct (pend_parent h g L n child x height HP nn p En Hnp) as (Hnr & Lp & ip & kp & Ep & Hi & Hkp & Ekp & Eup & Hht & B1 & B2).
    rewrite (hinter_some _ _ _ Ep). cbn [bind]. rewrite Eup. cbn [bind].
    assert (Apa : p <> a) by (intros E; pose proof (HF _ _ Lp); unfold a in E; lia).
    destruct (par_ne h g L n child x height HP p ip kp Ep Hkp Hht) as [Nnp Ncp].
    destruct (Nat.ltb_spec (S height) (in_height ip)) as [HM|HM].
    + unfold halloc. fold a. set (i := in_set_parent (Some p) _). set (h1 := MkHeap _ _).
      assert (H1 : forall m, m <> a -> hp_node h1 m = hp_node h m) by (intros m Hm; cbn; now rewrite upd_other).
      rewrite (set_parent_some h1 child ncd) by (rewrite H1; auto). cbn [bind].
      rewrite (hinter_some _ p ip) by (rewrite hset_other, H1; auto). cbn [bind].
      rewrite (set_parent_some _ n nn) by (rewrite !hset_other, H1; auto). cbn [bind].
      match goal with |- context [Ok (?H, None)] => set (h' := H) end.
      destruct (step_M h g L n child x height HP HO nn p ip kp En Hnp Hnr Lp Ep Hi Hkp Ekp Hht B1 B2 HF ncd Ec HM h') as (g' & G1 & G2 & G3).
      * reflexivity.
      * unfold h'. rewrite !hset_other by auto. cbn. apply upd_same.
      * unfold h'. rewrite hset_other by auto. apply hset_same.
      * apply hset_same.
      * unfold h'. rewrite !hset_other by auto. apply hset_same.
      * intros m M1 M2 M3 M4. unfold h'. rewrite !hset_other, H1; auto.
      * exists h', None, g'. auto.
    + destruct (Nat.leb_spec W (in_nkeys ip)) as [HW|HW].
      * assert (HNK : in_nkeys ip = W) by (destruct Hi as (Q & _); lia). assert (Hh : in_height ip = S height) by lia.
        destruct (inter_split_into ip (inter_fresh (S height)) kp x child st) as [[[ipl ipr] sk] o] eqn:ES.
        pose proof (inter_split_spec ip _ kp _ _ _ _ _ _ _ ltac:(lia) ES) as IS. cbn zeta in IS. pose proof (split_mid_range st) as Hmid.
        set (mid := split_mid st) in *. destruct IS as (I1 & I2 & I3 & I4 & I5 & I6 & I7 & I8 & I9 & I10).
        cbn [inter_fresh in_height in_parent in_root in_deleted] in I3, I4, I5, I6.
        unfold halloc. fold a. set (h1 := MkHeap _ _). set (h2 := hset h1 p (NInter ipl)).
        assert (H2 : forall m, m <> a -> m <> p -> hp_node h2 m = hp_node h m) by (intros m Hm Hp'; unfold h2; rewrite hset_other by auto; cbn; now rewrite upd_other).
        assert (VS : forall j c, (j <= S W)%nat -> vc kp child (in_child ip) j = Some c -> exists nc, hp_node h c = Some nc /\ (c = child \/ n_parent nc = Some p) /\ c <> a /\ c <> p /\ (c = child <-> j = S kp)).
        { intros j c Hj E. pose proof (vstate h g L n child x height HP nn p ip kp En Hnp Hnr Lp Ep Hi Hkp Ekp Hht B1 B2 j ltac:(lia)) as V. unfold VC in V. rewrite E in V.
          destruct V as (V1 & (nc & V2 & V3 & _) & _ & _ & V4 & V5). exists nc. split; auto. split; auto. split; [|auto]. intros ->. pose proof (HF _ _ V1). unfold a in *. lia. }
        assert (VS' : forall j, (0 < j <= S W)%nat -> exists c, vc kp child (in_child ip) j = Some c).
        { intros j Hj. exact (VC_some h g L n child x height HP nn p ip kp En Hnp Hnr Lp Ep Hi Hkp Ekp Hht B1 B2 j ltac:(lia) ltac:(lia)). }
        assert (VI : forall j k c, (j <= S W)%nat -> (k <= S W)%nat -> vc kp child (in_child ip) j = Some c -> vc kp child (in_child ip) k = Some c -> j = k).
        { intros j k c Hj Hk. rewrite <- HNK in Hj, Hk. exact (VC_inj h g L n child x height HP nn p ip kp En Hnp Hnr Lp Ep Hi Hkp Ekp Hht B1 B2 j k c Hj Hk). }
        destruct (set_parents_spec a (in_child ipr) (S (in_nkeys ipr)) 0 h2) as (h3 & P1 & P2 & P3 & P4).
        { intros j Hj. rewrite I8 by lia. destruct (VS' (mid + 1 + j)%nat ltac:(lia)) as (c & E). rewrite E.
          destruct (VS (mid + 1 + j)%nat _ ltac:(lia) E) as (nc & V1 & _ & V2 & V3 & _). exists c, nc. rewrite H2; auto. }
        rewrite P1. cbn [bind].
        assert (RS : forall j c nc, (mid + 1 <= j <= S W)%nat -> vc kp child (in_child ip) j = Some c -> hp_node h c = Some nc -> hp_node h3 c = Some (n_set_parent (Some a) nc)).
        { intros j c nc Hj E Enc. destruct (VS j _ ltac:(lia) E) as (nc' & V1 & _ & V2 & V3 & _). rewrite P3.
          - rewrite H2, Enc by auto. reflexivity.
          - exists (j - (mid + 1))%nat. split; [lia|]. rewrite I8 by lia. rewrite <- E. f_equal. lia. }
        assert (RN : forall m, (forall j, (mid + 1 <= j <= S W)%nat -> vc kp child (in_child ip) j <> Some m) -> hp_node h3 m = hp_node h2 m).
        { intros m Hm. apply P4. intros (j & Hj & E). rewrite I8 in E by lia. apply (Hm (mid + 1 + j)%nat); auto. lia. }
        assert (N3p : hp_node h3 p = Some (NInter ipl)).
        { rewrite RN; [apply hset_same|]. intros j Hj E. destruct (VS j _ ltac:(lia) E) as (nc' & _ & _ & _ & V3 & _). tauto. }
        assert (N3a : hp_node h3 a = Some (NInter ipr)).
        { rewrite RN; [unfold h2; rewrite hset_other by auto; cbn; apply upd_same|]. intros j Hj E. destruct (VS j _ ltac:(lia) E) as (nc' & _ & _ & V3 & _). tauto. }
        assert (DelF : in_deleted ip = false) by apply Hi.
        destruct (Nat.ltb_spec kp mid) as [Hk|Hk].
        -- subst o. assert (EN : in_nkeys ipl = (mid - 1)%nat) by (subst ipl; reflexivity). rewrite EN.
           destruct (insert_arrays ipl kp x child (mid - 1) ltac:(lia)) as [A1 A2].
           set (i2 := in_assign kp x child (in_shift_up (kp + 1) kp (mid - 1 - kp) ipl)) in *.
           assert (Nch : hp_node h3 child = Some ncd).
           { rewrite RN; [rewrite H2; auto|]. intros j Hj E. destruct (VS j _ ltac:(lia) E) as (nc' & _ & _ & _ & _ & V). assert (j = S kp) by (apply V; auto). lia. }
           rewrite (set_parent_some _ _ _ _ Nch). cbn [bind].
           match goal with |- context [Ok (?H, Some _)] => set (h' := H) end.
           destruct (step_S h g L n child x height HP HO nn p ip kp En Hnp Hnr Lp Ep Hi Hkp Ekp Hht B1 B2 HF mid sk (in_set_nkeys (S (mid - 1)) i2) ipr h') as (g' & G1 & G2 & G3 & G4); auto.
           ++ unfold h'. rewrite hset_other by auto. rewrite hset_other; auto.
           ++ apply hset_same.
           ++ cbn. lia.
           ++ subst i2 ipl. exact Hh.
           ++ subst i2 ipl. reflexivity.
           ++ subst i2 ipl. reflexivity.
           ++ subst i2 ipl. exact DelF.
           ++ intros j Hj. cbn [in_set_nkeys in_keys]. rewrite A1 by lia. subst ipl. reflexivity.
           ++ intros j Hj. cbn [in_set_nkeys in_child]. rewrite A2 by lia. subst ipl. reflexivity.
           ++ intros j c nc Hj E Enc. destruct (VS j c ltac:(lia) E) as (nc' & V1 & V2 & V3 & V4 & V5). assert (nc' = nc) by congruence. subst nc'.
              unfold h'. rewrite hset_other by auto. destruct (Nat.eq_dec c child) as [->|Nc].
              ** rewrite hset_same. assert (QQ : nc = ncd) by (rewrite Ec in Enc; inversion Enc; auto). rewrite QQ. reflexivity.
              ** rewrite hset_other, RN, H2 by (auto; intros k Hk' E'; pose proof (VI j k c ltac:(lia) ltac:(lia) E E'); lia).
                 rewrite nsp_id; auto. destruct V2; [tauto|auto].
           ++ intros j c nc Hj E Enc. destruct (VS j c ltac:(lia) E) as (nc' & V1 & V2 & V3 & V4 & V5).
              unfold h'. rewrite !hset_other by (auto; intros ->; assert (j = S kp) by (apply V5; auto); lia). exact (RS j c nc Hj E Enc).
           ++ intros m M1 M2 M3. unfold h'. rewrite !hset_other by (auto; intros ->; apply (M3 (S kp) ltac:(lia)); exact (VC_child g L n child height ip kp Hnr Hkp Hht)).
              rewrite RN, H2; auto. intros j Hj. apply M3. lia.
           ++ exists h', (Some (p, a, sk)), g'. auto 10.
        -- subst o. 
           destruct (step_S h g L n child x height HP HO nn p ip kp En Hnp Hnr Lp Ep Hi Hkp Ekp Hht B1 B2 HF mid sk ipl ipr h3) as (g' & G1 & G2 & G3 & G4); auto.
           ++ subst ipl. reflexivity.
           ++ subst ipl. exact Hh.
           ++ subst ipl. reflexivity.
           ++ subst ipl. reflexivity.
           ++ subst ipl. exact DelF.
           ++ intros j Hj. subst ipl. cbn. unfold VK, vk. ncase; auto.
           ++ intros j Hj. subst ipl. cbn. unfold VC, vc. ncase; auto.
           ++ intros j c nc Hj E Enc. destruct (VS j c ltac:(lia) E) as (nc' & V1 & V2 & V3 & V4 & V5). assert (nc' = nc) by congruence. subst nc'.
              assert (Nc : c <> child) by (intros ->; assert (j = S kp) by (apply V5; auto); lia).
              rewrite RN, H2 by (auto; intros k Hk' E'; pose proof (VI j k c ltac:(lia) ltac:(lia) E E'); lia).
              rewrite nsp_id; auto. destruct V2; [tauto|auto].
           ++ intros m M1 M2 M3. rewrite RN, H2; auto. intros j Hj. apply M3. lia.
           ++ exists h3, (Some (p, a, sk)), g'. auto 10.
      * cbn [bind]. rewrite (set_parent_some _ _ _ _ Ec). cbn [bind].
        match goal with |- context [Ok (?H, None)] => set (h' := H) end.
        destruct (step_I h g L n child x height HP HO nn p ip kp En Hnp Hnr Lp Ep Hi Hkp Ekp Hht B1 B2 HF ncd Ec HW) as (G1 & G2 & G3).
        exists h', None, g. auto.
  - unfold halloc. fold a. set (i := in_set_root true _). set (h1 := MkHeap _ _).
    assert (H1 : forall m, m <> a -> hp_node h1 m = hp_node h m) by (intros m Hm; cbn; now rewrite upd_other).
    rewrite (set_parent_some h1 child ncd) by (rewrite H1; auto). cbn [bind].
    rewrite (set_parent_some _ n nn) by (rewrite !hset_other, H1; auto). cbn [bind].
    match goal with |- context [Ok (?H, None)] => set (h' := H) end.
    destruct (step_R h g L n child x height HP HO HF nn ncd h' En Hnp Ec) as (g' & G1 & G2 & G3).
    + reflexivity.
    + unfold h'. rewrite !hset_other by auto. cbn. apply upd_same.
    + apply hset_same.
    + unfold h'. rewrite !hset_other by auto. apply hset_same.
    + intros m M1 M2 M3. unfold h'. rewrite !hset_other, H1; auto.
    + exists h', None, g'. auto.
Qed.
End Round.

Lemma sframe_trans h0 g0 h1 g1 h2 g2 L : sframe h0 g0 h1 g1 L -> sframe h1 g1 h2 g2 L -> g_root g1 L = g_root g0 L -> sframe h0 g0 h2 g2 L.
Proof.
  intros A B R.
  assert (LT : forall m, (m < hp_next h0)%nat -> (m < hp_next h1)%nat) by (intros m Hm; pose proof (sf_next _ _ _ _ _ A); lia).
  constructor.
  - pose proof (sf_next _ _ _ _ _ A). pose proof (sf_next _ _ _ _ _ B). lia.
  - intros m l E. destruct (sf_leaf _ _ _ _ _ A m l E) as (p & E1). destruct (sf_leaf _ _ _ _ _ B m _ E1) as (q & E2). exists q. rewrite E2. reflexivity.
  - intros m i E. destruct (sf_inter _ _ _ _ _ A m i E) as (i1 & E1 & H1). destruct (sf_inter _ _ _ _ _ B m _ E1) as (i2 & E2 & H2). exists i2. split; auto. congruence.
  - intros m Lm Hm. rewrite (sf_other _ _ _ _ _ B), (sf_other _ _ _ _ _ A); auto. rewrite (sf_lay _ _ _ _ _ A); auto.
  - intros m Hm. destruct (le_lt_dec (hp_next h1) m) as [Q|Q]; [apply (sf_new _ _ _ _ _ B); lia|].
    destruct (sf_new _ _ _ _ _ A m ltac:(lia)) as ((i & E1) & E2). destruct (sf_inter _ _ _ _ _ B m i E1) as (i2 & E3 & _).
    split; [eauto|]. rewrite (sf_lay _ _ _ _ _ B); auto.
  - intros m Hm. rewrite (sf_lay _ _ _ _ _ B), (sf_lay _ _ _ _ _ A); auto.
  - apply (sf_fresh _ _ _ _ _ B).
  - intros m Hm. rewrite (sf_lo _ _ _ _ _ B), (sf_lo _ _ _ _ _ A); auto.
  - intros m l Hm E. destruct (sf_leaf _ _ _ _ _ A m l E) as (p & E1). rewrite (sf_hi _ _ _ _ _ B m _ (LT m Hm) E1). exact (sf_hi _ _ _ _ _ A m l Hm E).
  - intros m Hm Q. rewrite (sf_hi2 _ _ _ _ _ B), (sf_hi2 _ _ _ _ _ A); auto. rewrite (sf_lay _ _ _ _ _ A); auto.
  - rewrite (sf_pre _ _ _ _ _ B). apply A.
  - rewrite (sf_dead _ _ _ _ _ B). apply A.
  - intros M HM. rewrite (sf_root _ _ _ _ _ B), (sf_root _ _ _ _ _ A); auto.
  - destruct (sf_rootL _ _ _ _ _ B) as [Q|Q]; [left; congruence|right]. rewrite <- R. auto.
Qed.

Lemma sf_HF h g h' g' L : sframe h g h' g' L -> (forall m M, g_lay g m = Some M -> (m < hp_next h)%nat) ->
  (forall m M, g_lay g' m = Some M -> (m < hp_next h')%nat).
Proof.
  intros A HF m M E. destruct (le_lt_dec (hp_next h') m) as [Q|Q]; auto. rewrite (sf_fresh _ _ _ _ _ A m Q) in E. discriminate.
Qed.

Lemma split_up_ok st : forall fuel h g L n child x height nr, pend h g L n child x height -> heap_ok h ->
  (forall m M, g_lay g m = Some M -> (m < hp_next h)%nat) ->
  hp_node h (g_root g L) = Some nr -> (ht nr < fuel + height)%nat ->
  exists h' g', split_up fuel h n child x st height = Ok h' /\ heap_ok h' /\ sframe h g h' g' L /\ SL h' g' (noexc g') L.
Proof.
  induction fuel as [|fuel IH]; intros h g L n child x height nr HP HO HF Er Hf.
  - exfalso. destruct (sl_node _ _ _ _ (pd_sl _ _ _ _ _ _ _ HP) n (pd_n _ _ _ _ _ _ _ HP)) as (nd & nr' & A & B & C & _).
    destruct (pd_hn _ _ _ _ _ _ _ HP) as (nn & D & E & _). assert (nr' = nr) by congruence. assert (nn = nd) by congruence. subst nr' nn. lia.
  - destruct (split_parent_ok h g L n child x height HP HO HF st) as (h1 & nxt & g1 & E & HO1 & SF & Q). cbn [split_up]. rewrite E. cbn [bind].
    destruct nxt as [[[n' c'] x']|].
    + destruct Q as [HP1 R1].
      assert (NR : exists nr1, hp_node h1 (g_root g1 L) = Some nr1 /\ ht nr1 = ht nr).
      { rewrite R1. destruct nr as [l|i].
        - destruct (sf_leaf _ _ _ _ _ SF _ _ Er) as (p & F). eexists. split; [exact F|reflexivity].
        - destruct (sf_inter _ _ _ _ _ SF _ _ Er) as (i' & F & G). exists (NInter i'). split; auto. }
      destruct NR as (nr1 & NR1 & NR2).
      destruct (IH h1 g1 L n' c' x' (S height) nr1 HP1 HO1 (sf_HF _ _ _ _ _ SF HF) NR1 ltac:(lia)) as (h2 & g2 & E2 & HO2 & SF2 & S2).
      exists h2, g2. split; auto. split; auto. split; auto. exact (sframe_trans _ _ _ _ _ _ _ SF SF2 R1).
    + exists h1, g1. auto.
Qed.
