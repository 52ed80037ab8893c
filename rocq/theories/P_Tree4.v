(* Frame lemmas, updates of one leaf, and the locking search. *)
From Verif Require Import Lib Spec_String M_Key P_Key M_Permuter P_Permuter2 M_Search P_Search M_Tree P_Tree1 P_Tree2 P_Tree3.

(* Nodes that agree as far as the B+-tree structure is concerned. *)
Definition nsim (a b : node) : Prop :=
  match a, b with NLeaf a, NLeaf b => lf_parent a = lf_parent b | NInter a, NInter b => a = b | _, _ => False end.
Lemma nsim_refl a : nsim a a. Proof. destruct a; cbn; auto. Qed.
Lemma nsim_ht a b : nsim a b -> ht a = ht b. Proof. destruct a, b; cbn; try tauto. intros ->. auto. Qed.
Lemma nsim_parent a b : nsim a b -> n_parent a = n_parent b. Proof. destruct a, b; cbn; try tauto. intros ->. auto. Qed.
Lemma nsim_inter_l i b : nsim (NInter i) b -> b = NInter i. Proof. destruct b; cbn; try tauto. intros ->. auto. Qed.
Lemma nsim_inter_r a i : nsim a (NInter i) -> a = NInter i. Proof. destruct a; cbn; try tauto. intros ->. auto. Qed.
Lemma nsim_leaf_l l b : nsim (NLeaf l) b -> exists l', b = NLeaf l'. Proof. destruct b; cbn; try tauto. eauto. Qed.

(* The structural invariant of a layer depends only on its own live and dead nodes. *)
Lemma SL_frame h g x h' g' x' L : SL h g x L ->
  (forall m, g_lay g m = Some L \/ g_dead g m = Some L -> exists nd nd', hp_node h m = Some nd /\ hp_node h' m = Some nd' /\ nsim nd nd') ->
  (forall m, g_lay g' m = Some L <-> g_lay g m = Some L) ->
  (forall m, g_dead g' m = Some L -> g_dead g m = Some L /\ g_lay g' m = None) ->
  (forall m, g_dead g' m = Some L -> forall p, g_dead g p = Some L -> g_dead g' p = Some L) ->
  (forall m, g_lay g m = Some L -> g_lo g' m = g_lo g m /\ g_hi g' m = g_hi g m /\ x_lo x' m = x_lo x m /\ x_hi x' m = x_hi x m /\
     (x_in x' m <-> x_in x m) /\ (x_up x' m <-> x_up x m) /\ (x_fl x' m <-> x_fl x m)) ->
  g_root g' L = g_root g L ->
  SL h' g' x' L.
Proof.
  intros HS Hn Hl Hd Hd2 Hb Hr.
  assert (NN : forall m nd, g_lay g m = Some L -> hp_node h m = Some nd -> exists nd', hp_node h' m = Some nd' /\ nsim nd nd').
  { intros m nd H1 H2. destruct (Hn m (or_introl H1)) as (a & b & E1 & E2 & E3). assert (a = nd) by congruence. subst. eauto. }
  assert (NI : forall m i, g_lay g m = Some L -> hp_node h m = Some (NInter i) -> hp_node h' m = Some (NInter i)).
  { intros m i H1 H2. destruct (NN m _ H1 H2) as (b & E & S). apply nsim_inter_l in S. now subst. }
  assert (NI' : forall m nd, g_lay g m = Some L -> hp_node h' m = Some nd -> exists nd0, hp_node h m = Some nd0 /\ nsim nd0 nd).
  { intros m nd H1 H2. destruct (Hn m (or_introl H1)) as (a & b & E1 & E2 & E3). assert (b = nd) by congruence. subst. eauto. }
  assert (RL : g_lay g (g_root g L) = Some L) by apply HS.
  assert (BN : forall p i k, g_lay g p = Some L -> bnd g' p i k = bnd g p i k).
  { intros p i k Hp. destruct (Hb p Hp) as (E1 & E2 & _). unfold bnd. now rewrite E1, E2. }
  constructor.
  - destruct (sl_first _ _ _ _ HS) as (A & (l & B) & C). split; [now apply Hl|]. split.
    + destruct (NN L _ A B) as (nd & E & S). destruct (nsim_leaf_l _ _ S) as (l' & ->). eauto.
    + rewrite (proj1 (Hb L A)). auto.
  - rewrite Hr. destruct (sl_root _ _ _ _ HS) as (A & B & C & nr & D & E). destruct (Hb _ A) as (_ & _ & E1 & E2 & _).
    split; [now apply Hl|]. rewrite E1, E2. split; auto. split; auto.
    destruct (NN _ _ A D) as (nd & F & S). exists nd. split; auto. rewrite <- (nsim_parent _ _ S). auto.
  - intros m Hm. apply Hl in Hm. destruct (sl_node _ _ _ _ HS m Hm) as (nd & nr & A & B & C & D & E & F).
    destruct (NN m nd Hm A) as (nd' & A' & S1). destruct (NN _ nr RL B) as (nr' & B' & S2).
    destruct (Hb m Hm) as (E1 & E2 & E3 & E4 & _). exists nd', nr'. rewrite Hr, E1, E2, E3, E4, <- (nsim_ht _ _ S1), <- (nsim_ht _ _ S2). auto 10.
  - intros p i Hp Ei Hx. apply Hl in Hp. destruct (NI' p _ Hp Ei) as (nd0 & E0 & S0). apply nsim_inter_r in S0. subst nd0.
    destruct (Hb p Hp) as (_ & _ & _ & _ & Xi & _). rewrite Xi in Hx.
    destruct (sl_inter _ _ _ _ HS p i Hp E0 Hx) as (A & B & C). split; auto. split; auto. intros k Hk. specialize (C k Hk).
    unfold child_ok in *. destruct (in_child i k) as [c|].
    + destruct C as (C1 & (nc & C2 & C3 & C4) & C5 & C6). destruct (NN c nc C1 C2) as (nc' & C2' & S).
      destruct (Hb c C1) as (_ & _ & E3 & E4 & _).
      split; [now apply Hl|]. split; [exists nc'; rewrite <- (nsim_parent _ _ S), <- (nsim_ht _ _ S); auto|].
      rewrite !BN, E3, E4 by auto. auto.
    + destruct (Hb p Hp) as (E1 & _). rewrite E1. auto.
  - intros m nd Hm En Hne Hu. apply Hl in Hm. destruct (NI' m _ Hm En) as (nd0 & E0 & S0).
    destruct (Hb m Hm) as (_ & _ & _ & _ & _ & Xu & _). rewrite Xu in Hu. rewrite Hr in Hne.
    destruct (sl_up _ _ _ _ HS m nd0 Hm E0 Hne Hu) as (p & i & k & A1 & A2 & A3 & A4 & A5 & A6).
    exists p, i, k. rewrite <- (nsim_parent _ _ S0). destruct (Hb p A2) as (_ & _ & _ & _ & Xi & _).
    split; auto. split; [now apply Hl|]. split; auto. split; [|auto]. now rewrite Xi.
  - intros m i Hm Ei Hx. apply Hl in Hm. destruct (NI' m _ Hm Ei) as (nd0 & E0 & S0). apply nsim_inter_r in S0. subst nd0.
    destruct (Hb m Hm) as (_ & _ & _ & _ & _ & _ & Xf). rewrite Xf in Hx. rewrite Hr. exact (sl_flag _ _ _ _ HS m i Hm E0 Hx).
  - intros m Hm. destruct (Hd m Hm) as [Hm' Hlm]. split; auto.
    destruct (sl_dead _ _ _ _ HS m Hm') as (_ & i & p & ip & A1 & A2 & A3 & A4 & A5 & A6).
    assert (I1 : hp_node h' m = Some (NInter i)).
    { destruct (Hn m (or_intror Hm')) as (a & b & E1 & E2 & E3). assert (a = NInter i) by congruence. subst. apply nsim_inter_l in E3. now subst. }
    assert (I2 : hp_node h' p = Some (NInter ip)).
    { destruct (Hn p A6) as (a & b & E1 & E2 & E3). assert (a = NInter ip) by congruence. subst. apply nsim_inter_l in E3. now subst. }
    exists i, p, ip. repeat split; auto. destruct A6 as [A6|A6]; [left; now apply Hl|right]. apply (Hd2 m Hm p A6).
Qed.

(* Only leaf contents changed. *)
Lemma SL_leaf h g x L h' : SL h g x L ->
  (forall m nd, hp_node h m = Some nd -> exists nd', hp_node h' m = Some nd' /\ nsim nd nd') -> SL h' g x L.
Proof.
  intros HS Hn. apply (SL_frame h g x h' g x L HS); auto; try tauto.
  - intros m [Hm|Hm].
    + destruct (sl_node _ _ _ _ HS m Hm) as (nd & _ & A & _). destruct (Hn m nd A) as (nd' & B & S). eauto 10.
    + destruct (sl_dead _ _ _ _ HS m Hm) as (_ & i & _ & _ & A & _). destruct (Hn m _ A) as (nd' & B & S). eauto 10.
  - intros m Hm. split; auto. apply (sl_dead _ _ _ _ HS m Hm).
Qed.

(* Root nodes and former roots. *)
Lemma root_stale h g L : SL h g (noexc g) L -> stale h g L (g_root g L).
Proof.
  intros HS. destruct (sl_root _ _ _ _ HS) as (A & B & C & nr & D & E). cbn [noexc x_lo x_hi] in B, C.
  destruct nr as [l|i].
  - left. destruct (sl_first _ _ _ _ HS) as (F1 & (l' & F2) & F3).
    destruct (sl_node _ _ _ _ HS L F1) as (_ & _ & _ & _ & _ & (B1 & B2) & _).
    eapply (leaf_unique h g _ L HS 0); eauto; [apply clear_noexc| |]; pose proof U64_pos; lia.
  - right. exists i. auto.
Qed.

Lemma root_lptr h g L : SL h g (noexc g) L -> lptr h g (g_root g L) L.
Proof.
  intros HS. destruct (sl_root _ _ _ _ HS) as (A & B & C & nr & D & E). split; auto. exists nr. split; auto. split; auto.
  destruct (root_stale h g L HS) as [H|(i & H & _)]; [left; auto|right; exists i; congruence].
Qed.

Lemma lptr_flag h g r L' nr : Inv h g -> lptr h g r L' -> hp_node h r = Some nr ->
  (n_is_root nr = true /\ r = g_root g L') \/ (n_is_root nr = false /\ n_parent nr = Some (g_root g L')).
Proof.
  intros HI (A & nr' & B & C & D) E. assert (nr' = nr) by congruence. subst nr'.
  assert (F : n_is_root nr = true <-> r = g_root g L').
  { destruct D as [->|(i & ->)].
    - destruct (sl_first _ _ _ _ (iv_lay _ _ HI L' L' A)) as (_ & (l & F) & _). rewrite B in F. inversion F; subst nr. cbn [n_is_root].
      rewrite (lo_flag _ _ _ _ _ (iv_leaf _ _ HI L' L' l A B) eq_refl). split; congruence.
    - cbn [n_is_root]. apply (sl_flag _ _ _ _ (iv_lay _ _ HI r L' A) r i A B). cbn. tauto. }
  destruct (n_is_root nr) eqn:R; [left; split; auto; now apply F|right; split; auto].
  destruct C as [C|C]; auto. apply F in C. discriminate.
Qed.

(* ---- replacing the contents of one leaf ---- *)
Section Leaf.
Context (h : heap) (g : ghost) (L n : nat) (l l' : leafn).
Hypothesis HI : Inv h g.
Hypothesis Hn : g_lay g n = Some L.
Hypothesis En : hp_node h n = Some (NLeaf l).
Hypothesis Hpar : lf_parent l' = lf_parent l.
Let h' := hset h n (NLeaf l').

Lemma lu_sim m nd : hp_node h m = Some nd -> exists nd', hp_node h' m = Some nd' /\ nsim nd nd'.
Proof.
  intros E. destruct (Nat.eq_dec m n) as [->|N].
  - exists (NLeaf l'). split; [apply hset_same|]. rewrite En in E. inversion E; subst. cbn. auto.
  - exists nd. split; [|apply nsim_refl]. unfold h'. rewrite hset_other; auto.
Qed.
Lemma lu_heap : heap_ok h'.
Proof.
  intros a nd E. unfold h' in *. rewrite hset_next. destruct (Nat.eq_dec a n) as [->|N].
  - rewrite hset_same in E. inversion E; subst. destruct (iv_heap _ _ HI n _ En). cbn [ht] in *. auto.
  - rewrite hset_other in E by auto. exact (iv_heap _ _ HI a nd E).
Qed.
Lemma lu_lptr r L' : lptr h g r L' <-> lptr h' g r L'.
Proof.
  split; intros (A & nr & B & C & D).
  - split; auto. destruct (lu_sim r nr B) as (nr' & B' & S). exists nr'. split; auto. rewrite <- (nsim_parent _ _ S). split; auto.
    destruct D as [D|(i & ->)]; auto. apply nsim_inter_l in S. subst. right. eauto.
  - split; auto. destruct (sl_node _ _ _ _ (iv_lay _ _ HI r L' A) r A) as (nr0 & _ & B0 & _).
    destruct (lu_sim r nr0 B0) as (nr' & B' & S). assert (nr' = nr) by congruence. subst nr'.
    exists nr0. split; auto. rewrite (nsim_parent _ _ S). split; auto.
    destruct D as [D|(i & ->)]; auto. apply nsim_inter_r in S. subst. right. eauto.
Qed.
Lemma lu_stale M m : stale h g M m -> stale h' g M m.
Proof.
  intros [->|(i & A & B)]; [left; auto|right]. exists i. split; auto.
  destruct (lu_sim m _ A) as (nd & E & S). apply nsim_inter_l in S. congruence.
Qed.

Hypothesis Hperm : perm_ok W (lf_perm l').
Hypothesis Hdel : lf_deleted l' = false.
Hypothesis Hmod : lf_mod l' <> MsDeletedLayer.
Hypothesis Hsort : leaf_sorted (lf_perm l') (lf_ikey l') (lf_klx l').
Hypothesis Hslots : forall s, live_slot l' s -> slot_ok h g L l' s /\ g_lo g n <= lf_ikey l' s < g_hi g n.
Hypothesis Hnext : lf_next l' = lf_next l.
Hypothesis Hprev : lf_prev l' = lf_prev l.
Hypothesis Hroot : n = L -> lf_root l' = lf_root l.
Hypothesis Hik0 : lf_prev l <> None -> lf_ikey l' 0%nat = lf_ikey l 0%nat.
Hypothesis Hown : forall s r L', live_slot l s -> lf_klx l s = 128 -> lf_lv l s = LvLayer r -> g_lay g r = Some L' ->
  exists s' r', live_slot l' s' /\ lf_klx l' s' = 128 /\ lf_lv l' s' = LvLayer r' /\ g_lay g r' = Some L'.

Lemma lu_leaf_other M m lm : g_lay g m = Some M -> hp_node h m = Some (NLeaf lm) -> m <> n -> leaf_ok h' g M m lm.
Proof.
  intros Hm Em N. pose proof (iv_leaf _ _ HI M m lm Hm Em) as K. destruct K as [K1 K2 K3 K4 K5 K6 K7 K8]. constructor; auto.
  - intros s Hs. destruct (K5 s Hs) as [[V|(V1 & r & L' & V2 & V3 & V4)] B]; split; auto; [left; auto|].
    right. split; auto. exists r, L'. split; auto. split; auto. now apply lu_lptr.
  - destruct (lf_prev lm) as [q|]; auto. destruct K6 as (A & B & C & D & lq & E & F). repeat split; auto.
    destruct (Nat.eq_dec q n) as [->|Nq].
    + exists l'. split; [apply hset_same|]. assert (lq = l) by congruence. subst. congruence.
    + exists lq. split; auto. unfold h'. now rewrite hset_other.
  - destruct (lf_next lm) as [q|]; auto. destruct K7 as (A & B & lq & C & D). repeat split; auto.
    destruct (Nat.eq_dec q n) as [->|Nq].
    + exists l'. split; [apply hset_same|]. assert (lq = l) by congruence. subst. congruence.
    + exists lq. split; auto. unfold h'. now rewrite hset_other.
Qed.

Lemma lu_leaf_self : leaf_ok h' g L n l'.
Proof.
  pose proof (iv_leaf _ _ HI L n l Hn En) as K. destruct K as [K1 K2 K3 K4 K5 K6 K7 K8]. constructor; auto.
  - intros s Hs. destruct (Hslots s Hs) as [[V|(V1 & r & L' & V2 & V3 & V4)] B]; split; auto; [left; auto|].
    right. split; auto. exists r, L'. split; auto. split; auto. now apply lu_lptr.
  - rewrite Hprev in *. destruct (lf_prev l) as [q|] eqn:P; auto. destruct K6 as (A & B & C & D & lq & E & F).
    rewrite Hik0 by congruence. repeat split; auto.
    destruct (Nat.eq_dec q n) as [->|Nq].
    + exists l'. split; [apply hset_same|]. assert (lq = l) by congruence. subst. congruence.
    + exists lq. split; auto. unfold h'. now rewrite hset_other.
  - rewrite Hnext in *. destruct (lf_next l) as [q|]; auto. destruct K7 as (A & B & lq & C & D). repeat split; auto.
    destruct (Nat.eq_dec q n) as [->|Nq].
    + exists l'. split; [apply hset_same|]. assert (lq = l) by congruence. subst. congruence.
    + exists lq. split; auto. unfold h'. now rewrite hset_other.
  - intros E. rewrite (Hroot E). auto.
Qed.

Theorem leaf_update_inv : Inv h' g.
Proof.
  pose proof HI as [I1 I2 I3 I4 I5 I6 I7]. constructor; auto.
  - apply lu_heap.
  - intros m M Hm. apply (SL_leaf h g); [eauto|apply lu_sim].
  - intros M m lm Hm Em. destruct (Nat.eq_dec m n) as [->|N].
    + unfold h' in Em. rewrite hset_same in Em. assert (lm = l') by congruence. subst lm. assert (M = L) by congruence. subst M. apply lu_leaf_self.
    + apply lu_leaf_other; auto. unfold h' in Em. now rewrite hset_other in Em.
  - intros L' HL' N0. destruct (I5 L' HL' N0) as (M & m & lm & s & r & (O1 & O2 & O3 & O4 & O5 & O6)).
    destruct (Nat.eq_dec m n) as [->|N].
    + assert (lm = l) by congruence. subst. destruct (Hown s r L' O3 O4 O5 O6) as (s' & r' & P1 & P2 & P3 & P4).
      exists L, n, l', s', r'. repeat split; auto. apply hset_same.
    + exists M, m, lm, s, r. repeat split; auto. unfold h'. now rewrite hset_other.
Qed.

Lemma lu_holds k v : holds h' g k v <->
  (exists M m lm s, m <> n /\ g_lay g m = Some M /\ hp_node h m = Some (NLeaf lm) /\ live_slot lm s /\ lf_klx lm s <> 128 /\
    lf_lv lm s = LvVal v /\ k = g_pre g M ++ entry_str lm s) \/
  (exists s, live_slot l' s /\ lf_klx l' s <> 128 /\ lf_lv l' s = LvVal v /\ k = g_pre g L ++ entry_str l' s).
Proof.
  split.
  - intros (M & m & lm & s & H1 & H2 & H3 & H4 & H5 & H6). destruct (Nat.eq_dec m n) as [->|N].
    + right. unfold h' in H2. rewrite hset_same in H2. assert (lm = l') by congruence. subst lm. assert (M = L) by congruence. subst M. eauto 10.
    + left. unfold h' in H2. rewrite hset_other in H2 by auto. exists M, m, lm, s. auto 10.
  - intros [(M & m & lm & s & N & H1 & H2 & H3 & H4 & H5 & H6)|(s & H3 & H4 & H5 & H6)].
    + exists M, m, lm, s. unfold h'. rewrite hset_other by auto. auto 10.
    + exists L, n, l', s. unfold h'. rewrite hset_same. auto 10.
Qed.
End Leaf.

Lemma holds_split h g L n l k v : g_lay g n = Some L -> hp_node h n = Some (NLeaf l) ->
  holds h g k v <->
  (exists M m lm s, m <> n /\ g_lay g m = Some M /\ hp_node h m = Some (NLeaf lm) /\ live_slot lm s /\ lf_klx lm s <> 128 /\
    lf_lv lm s = LvVal v /\ k = g_pre g M ++ entry_str lm s) \/
  (exists s, live_slot l s /\ lf_klx l s <> 128 /\ lf_lv l s = LvVal v /\ k = g_pre g L ++ entry_str l s).
Proof.
  intros Hn En. split.
  - intros (M & m & lm & s & H1 & H2 & H3 & H4 & H5 & H6). destruct (Nat.eq_dec m n) as [->|N].
    + right. rewrite En in H2. inversion H2; subst. assert (M = L) by congruence. subst. eauto 10.
    + left. exists M, m, lm, s. auto 10.
  - intros [(M & m & lm & s & N & H1 & H2 & H3 & H4 & H5 & H6)|(s & H3 & H4 & H5 & H6)].
    + exists M, m, lm, s. auto 10.
    + exists L, n, l, s. auto 10.
Qed.
Lemma lu_holds_same h g L n l l' : Inv h g -> g_lay g n = Some L -> hp_node h n = Some (NLeaf l) ->
  (forall s v, (live_slot l' s /\ lf_klx l' s <> 128 /\ lf_lv l' s = LvVal v) <-> (live_slot l s /\ lf_klx l s <> 128 /\ lf_lv l s = LvVal v)) ->
  (forall s, live_slot l s -> entry_str l' s = entry_str l s) ->
  forall k v, holds (hset h n (NLeaf l')) g k v <-> holds h g k v.
Proof.
  intros HI Hn En H1 H2 k v. rewrite (holds_split h g L n l k v Hn En), (lu_holds h g L n l' Hn). split; (intros [A|(s & A & B & C & D)]; [left; auto|right]).
  - exists s. destruct (proj1 (H1 s v) (conj A (conj B C))) as (A' & B' & C'). rewrite H2 in D by auto. auto.
  - exists s. destruct (proj2 (H1 s v) (conj A (conj B C))) as (A' & B' & C'). rewrite H2 by auto. auto.
Qed.

(* ---- redirecting a layer pointer to the layer's root ---- *)
Definition at_root (h : heap) (g : ghost) (L : nat) : Prop := forall M n l s r, owns h g M n l s r L -> r = g_root g L.

Lemma relink_ok h g L n l s r L' : Inv h g -> owns h g L n l s r L' ->
  let h' := hset h n (NLeaf (lf_set_lv s (LvLayer (g_root g L')) l)) in
  Inv h' g /\ (forall k v, holds h' g k v <-> holds h g k v) /\ (forall M m, stale h g M m -> stale h' g M m) /\
  owns h' g L n (lf_set_lv s (LvLayer (g_root g L')) l) s (g_root g L') L'.
Proof.
  intros HI O h'. destruct (owns_pre h g HI _ _ _ _ _ _ O) as [P LP]. pose proof O as (O1 & O2 & O3 & O4 & O5 & O6).
  pose proof (iv_leaf _ _ HI L n l O1 O2) as K. pose proof (iv_lay _ _ HI r L' O6) as SL'.
  assert (RL : g_lay g (g_root g L') = Some L') by apply SL'.
  assert (LV : forall s0 v, lf_lv (lf_set_lv s (LvLayer (g_root g L')) l) s0 = LvVal v -> lf_lv l s0 = LvVal v).
  { cbn [lf_set_lv lf_lv]. intros s0 v. unfold upd. destruct (Nat.eqb_spec s0 s); [discriminate|auto]. }
  split; [|split; [|split]].
  - apply (leaf_update_inv h g L n l); auto; try apply K.
    + intros s0 Hs0. change (live_slot l s0) in Hs0. destruct (lo_slots _ _ _ _ _ K s0 Hs0) as [V B]. split; [|exact B].
      destruct (Nat.eq_dec s0 s) as [->|N].
      * right. split; auto. exists (g_root g L'), L'. split; [cbn; apply upd_same|]. split; auto. now apply root_lptr.
      * destruct V as [[(v & V1) V2]|(V1 & r2 & L2 & V2 & V3)].
        -- left. split; [exists v; cbn; now rewrite upd_other|exact V2].
        -- right. split; auto. exists r2, L2. split; [cbn; now rewrite upd_other|exact V3].
    + intros s0 r0 L0 A B C D. destruct (Nat.eq_dec s0 s) as [->|N].
      * exists s, (g_root g L'). assert (r0 = r) by congruence. subst. assert (L0 = L') by congruence. subst.
        repeat split; auto. cbn. apply upd_same.
      * exists s0, r0. repeat split; auto. cbn. now rewrite upd_other.
  - apply (lu_holds_same h g L n l); auto. intros s0 v. cbn [lf_set_lv lf_klx lf_lv lf_perm]. destruct (Nat.eq_dec s0 s) as [->|N].
    + rewrite upd_same. split; intros (_ & A & _); contradiction.
    + rewrite upd_other by auto. reflexivity.
  - intros M m. apply (lu_stale h g n l); auto.
  - repeat split; auto; [apply hset_same|]. cbn. apply upd_same.
Qed.

(* ---- the locking search ---- *)
Record located (h : heap) (g : ghost) (k : list Z) (cu : cursor) (L : nat) (s : list Z) (l : leafn) : Prop := {
  lc_route : route h g k L s;
  lc_rep : key_rep (cu_ka cu) (g_pre g L) s;
  lc_lay : g_lay g (cu_n cu) = Some L;
  lc_leaf : hp_node h (cu_n cu) = Some (NLeaf l);
  lc_in : g_lo g (cu_n cu) <= k_ikey (cu_ka cu) < g_hi g (cu_n cu);
  lc_lower : lf_lower l (cu_ka cu) = Ok (cu_i cu, cu_p cu);
  lc_root : at_root h g L;
  lc_state : match cu_p cu with
    | None => cu_state cu = 0 /\ (forall v, ~ holds h g k v)
    | Some p => live_slot l p /\
       ((cu_state cu = 0 /\ lf_klx l p = 64 /\ 8 < len s /\ (forall v, ~ holds h g k v)) \/
        (cu_state cu = 1 /\ lf_klx l p <> 128 /\ entry_str l p = s /\ exists v0, lf_lv l p = LvVal v0 /\ forall v, holds h g k v <-> v = v0))
    end
}.

Lemma owns_sim h g h' L n l s r L' L2 s2 : owns h g L n l s r L' -> owns h' g L n l s r L' -> rstep h g L s2 L2 (skipn 8 s2) -> L2 = L' -> lf_ikey l s = slice_make_comparable s2 ->
  rstep h' g L s2 L' (skipn 8 s2).
Proof. intros _ O (A & _ & _) _ E. split; auto. split; auto. exists n, l, s, r. auto. Qed.

Lemma at_root_0 h g : Inv h g -> at_root h g 0.
Proof.
  intros HI M n l s r O. destruct (owns_pre h g HI _ _ _ _ _ _ O) as [P _]. destruct (iv_l0 _ _ HI) as [_ B]. rewrite B in P.
  symmetry in P. apply app_eq_nil in P. destruct P as [_ P]. pose proof (be_bytes_length 8 (lf_ikey l s)) as E. rewrite P in E. discriminate.
Qed.

Lemma relink_route h g L n l s r L' k M t : Inv h g -> owns h g L n l s r L' ->
  route h g k M t -> route (hset h n (NLeaf (lf_set_lv s (LvLayer (g_root g L')) l))) g k M t.
Proof.
  intros HI O. pose proof O as (O1 & O2 & O3 & O4 & O5 & O6).
  assert (RL : g_lay g (g_root g L') = Some L') by apply (iv_lay _ _ HI r L' O6).
  induction 1 as [|M t M' t' R IH S]; [constructor|]. eapply route_S; eauto.
  destruct S as (S8 & -> & n2 & l2 & sl & r2 & (Q1 & Q2 & Q3 & Q4 & Q5 & Q6) & E). split; auto. split; auto.
  destruct (Nat.eq_dec n2 n) as [->|N].
  - assert (l2 = l) by congruence. subst.
    exists n, (lf_set_lv s (LvLayer (g_root g L')) l), sl.
    destruct (Nat.eq_dec sl s) as [->|Ns].
    + assert (r2 = r) by congruence. subst. assert (M' = L') by congruence. subst. exists (g_root g L'). split; auto.
      repeat split; auto; [apply hset_same|]. cbn. apply upd_same.
    + exists r2. split; auto. repeat split; auto; [apply hset_same|]. cbn. now rewrite upd_other.
  - exists n2, l2, sl, r2. split; auto. repeat split; auto. now rewrite hset_other.
Qed.

Lemma find_locked_ok k root0 g : bytes_ok k -> forall fuel h L s ka m,
  Inv h g -> route h g k L s -> key_rep ka (g_pre g L) s -> stale h g L m -> at_root h g L -> (length s < fuel)%nat ->
  exists h' cu L' s' l, find_locked fuel h root0 m ka = Ok (h', cu) /\ Inv h' g /\ (forall k v, holds h' g k v <-> holds h g k v) /\
    (forall M m, stale h g M m -> stale h' g M m) /\ hp_next h' = hp_next h /\ cu_root cu = root0 /\ located h' g k cu L' s' l.
Proof.
  intros Hk. induction fuel as [|f IH]; intros h L s ka m HI R K Hst Hr Hf; [lia|].
  destruct (layer_search h g HI k L s ka m Hk R K Hst) as (n & l & i & p & A1 & A2 & A3 & A4 & A5 & A6 & A7 & A8).
  cbn [find_locked]. rewrite A1. cbn [bind]. rewrite A2. cbn [bind]. rewrite A6, A7. cbn [bind].
  pose proof (lo_mod _ _ _ _ _ (iv_leaf _ _ HI L n l A3 A4)) as NM.
  assert (FIN : forall cu, cu_n cu = n -> cu_ka cu = ka -> cu_i cu = i -> cu_p cu = p -> cu_root cu = root0 ->
     match p with
    | None => cu_state cu = 0 /\ (forall v, ~ holds h g k v)
    | Some p => live_slot l p /\
       ((cu_state cu = 0 /\ lf_klx l p = 64 /\ 8 < len s /\ (forall v, ~ holds h g k v)) \/
        (cu_state cu = 1 /\ lf_klx l p <> 128 /\ entry_str l p = s /\ exists v0, lf_lv l p = LvVal v0 /\ forall v, holds h g k v <-> v = v0))
    end -> 
    exists h' cu0 L' s' l0, match lf_mod l with MsDeletedLayer => find_locked f h root0 root0 (key_unshift_all ka) | _ => Ok (h, cu) end = Ok (h', cu0) /\ Inv h' g /\
      (forall k v, holds h' g k v <-> holds h g k v) /\
    (forall M m, stale h g M m -> stale h' g M m) /\ hp_next h' = hp_next h /\ cu_root cu0 = root0 /\ located h' g k cu0 L' s' l0).
  { intros cu C1 C2 C3 C4 C5 C6. exists h, cu, L, s, l. split; [destruct (lf_mod l); congruence|]. split; auto. split; [tauto|]. split; auto. split; auto. split; auto.
    constructor; rewrite ?C1, ?C2, ?C3, ?C4; auto. }
  destruct p as [p|].
  2:{ cbn [Z.ltb Z.compare]. apply FIN; auto. }
  destruct A8 as [LS [(M & r & L' & O & S)|[(M & V1 & V2 & N)|(M & N)]]]; rewrite M; cbn [Z.ltb Z.eqb Z.compare].
  - pose proof O as (_ & _ & _ & _ & O5 & O6). rewrite O5. cbn [lv_layer bind].
    destruct (route_pre h g HI _ _ _ Hk R) as (Ek & Bs & Ll & _). pose proof S as (S8 & _).
    assert (R' : route h g k L' (skipn 8 s)) by (eapply route_S; eauto).
    destruct (owns_pre h g HI _ _ _ _ _ _ O) as [P Lp].
    assert (E : g_pre g L' = g_pre g L ++ firstn 8 s).
    { destruct (route_pre h g HI _ _ _ Hk R') as (Ek' & _).
      rewrite <- (firstn_skipn 8 s) in Ek at 1. rewrite Ek' in Ek. rewrite app_assoc in Ek. now apply app_inv_tail in Ek. }
    assert (K' : key_rep (key_shift ka) (g_pre g L') (skipn 8 s)).
    { rewrite E. apply key_shift_rep; auto. exact (iv_pre _ _ HI L Ll). }
    assert (Hf' : (length (skipn 8 s) < f)%nat) by (rewrite skipn_length; unfold len in S8; lia).
    assert (exists nr, hp_node h r = Some nr) as (nr & Er) by (destruct Lp as (_ & nr & B & _); eauto).
    rewrite (hget_some _ _ _ Er). cbn [bind].
    destruct (lptr_flag h g r L' nr HI Lp Er) as [[F1 F2]|[F1 F2]]; rewrite F1.
    + assert (AR : at_root h g L').
      { intros M2 n2 l2 s2 r2 O2. destruct (owner_unique h g HI _ _ _ _ _ _ _ _ _ _ _ O O2) as (_ & _ & _ & _ & <-). auto. }
      exact (IH h L' (skipn 8 s) (key_shift ka) r HI R' K' (lptr_stale h g r L' Lp) AR Hf').
    + unfold maybe_parent. rewrite (hget_some _ _ _ Er). cbn [bind]. rewrite F2. cbn [bind].
      destruct (relink_ok h g L n l p r L' HI O) as (J1 & J2 & J3 & J4).
      pose proof (relink_route h g L n l p r L' k _ _ HI O R') as J5.
      set (h1 := hset h n _) in *.
      assert (AR : at_root h1 g L').
      { intros M2 n2 l2 s2 r2 O2. destruct (owner_unique h1 g J1 _ _ _ _ _ _ _ _ _ _ _ J4 O2) as (_ & _ & _ & _ & <-). auto. }
      destruct (IH h1 L' (skipn 8 s) (key_shift ka) (g_root g L') J1 J5 K') as (h2 & cu & L2 & s2 & l2 & Q1 & Q2 & Q3 & Q4 & Q5 & Q6 & Q7); auto.
      { apply root_stale. apply (iv_lay _ _ J1 r L' O6). }
      exists h2, cu, L2, s2, l2. split; auto. split; auto. split; [intros; now rewrite Q3|]. split; [auto|]. auto.
  - apply FIN; auto; cbn [cu_state]; auto 10.
  - apply FIN; auto; cbn [cu_state]; auto 10.
Qed.
