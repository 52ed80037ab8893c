(* Insertion, part 4: tcursor::make_split. *)
From Verif Require Import Lib Spec_String M_Key P_Key M_Permuter P_Permuter2 M_Search P_Search M_Tree P_Tree1 P_Tree2 P_Tree3 P_Tree4 P_Tree4b P_Tree5 P_Tree5b P_Tree6 P_Tree6b P_Tree6c.

(* The place where an absent key belongs. *)
Record spot (h : heap) (g : ghost) (k : list Z) (cu : cursor) (L : nat) (s : list Z) (l : leafn) : Prop := {
  sp_k : k = g_pre g L ++ s;
  sp_bytes : bytes_ok s;
  sp_ne : L <> 0%nat -> s <> [];
  sp_rep : key_rep (cu_ka cu) (g_pre g L) s;
  sp_lay : g_lay g (cu_n cu) = Some L;
  sp_leaf : hp_node h (cu_n cu) = Some (NLeaf l);
  sp_in : g_lo g (cu_n cu) <= slice_make_comparable s < g_hi g (cu_n cu);
  sp_i : (cu_i cu <= perm_size (lf_perm l))%nat;
  sp_before : forall j, (j < cu_i cu)%nat ->
    entry_lt (lf_ikey l (perm_get (lf_perm l) j), lf_klx l (perm_get (lf_perm l) j)) (slice_make_comparable s, len s);
  sp_after : forall j, (cu_i cu <= j < perm_size (lf_perm l))%nat ->
    entry_lt (slice_make_comparable s, len s) (lf_ikey l (perm_get (lf_perm l) j), lf_klx l (perm_get (lf_perm l) j));
  sp_free : forall v, ~ holds h g k v;
  sp_root : at_root h g L
}.

Lemma located_spot h g k cu L s l : Inv h g -> bytes_ok k -> located h g k cu L s l -> cu_p cu = None -> spot h g k cu L s l.
Proof.
  intros HI Hk J Hp. pose proof J as [J1 J2 J3 J4 J5 J6 J7 J8]. destruct (route_pre h g HI _ _ _ Hk J1) as (E1 & E2 & _ & E4).
  pose proof (iv_leaf _ _ HI L _ l J3 J4) as K. pose proof J2 as (_ & _ & KL & KI).
  destruct (lf_lower_ok l (cu_ka cu) (lo_sorted _ _ _ _ _ K)) as (i & p & A & B & C & D & E).
  rewrite J6, Hp in A. inversion A; subst i p. rewrite KI, KL in *. rewrite Hp in J8. constructor; auto. apply J8.
Qed.

Lemma spot_quiet h g k cu cu' L s l l' : Inv h g -> spot h g k cu L s l -> quiet g L (cu_n cu) l l' ->
  cu_n cu' = cu_n cu -> cu_ka cu' = cu_ka cu -> cu_i cu' = cu_i cu -> spot (hset h (cu_n cu) (NLeaf l')) g k cu' L s l'.
Proof.
  intros HI [S1 S2 S3 S4 S5 S6 S7 S8 S9 S10 S11 S12] Q E1 E2 E3.
  assert (SE : forall j, (j < perm_size (lf_perm l))%nat -> perm_get (lf_perm l') j = perm_get (lf_perm l) j /\
    lf_ikey l' (perm_get (lf_perm l) j) = lf_ikey l (perm_get (lf_perm l) j) /\ lf_klx l' (perm_get (lf_perm l) j) = lf_klx l (perm_get (lf_perm l) j)).
  { intros j Hj. split; [now apply (qt_get _ _ _ _ _ Q)|]. destruct (qt_slot _ _ _ _ _ Q (perm_get (lf_perm l) j)) as (A & B & _); [exists j; auto|auto]. }
  constructor; rewrite ?E1, ?E2, ?E3; auto.
  - apply hset_same.
  - rewrite (qt_size _ _ _ _ _ Q). auto.
  - intros j Hj. destruct (SE j ltac:(lia)) as (-> & -> & ->). auto.
  - intros j Hj. rewrite (qt_size _ _ _ _ _ Q) in Hj. destruct (SE j ltac:(lia)) as (-> & -> & ->). auto.
  - intros v. rewrite (quiet_holds h g L (cu_n cu) l l'); auto.
  - eapply quiet_at_root; eauto.
Qed.

(* Writing the key into the slot at the back of the permutation. *)
Lemma spot_assign h g k cu L s l p cu' : Inv h g -> spot h g k cu L s l -> (perm_size (lf_perm l) < W)%nat -> perm_back W (lf_perm l) = p ->
  p <> 0%nat \/ lf_prev l = None \/ lf_ikey l 0%nat = slice_make_comparable s ->
  cu_n cu' = cu_n cu -> cu_ka cu' = cu_ka cu -> cu_i cu' = cu_i cu -> cu_p cu' = Some p ->
  let l' := leaf_assign p (cu_ka cu) l in
  quiet g L (cu_n cu) l l' /\ insertable (hset h (cu_n cu) (NLeaf l')) g k cu' L s l' p.
Proof.
  intros HI SP Hsz Hb H0 E1 E2 E3 E4 l'. pose proof SP as [S1 S2 S3 S4 S5 S6 S7 S8 S9 S10 S11 S12].
  pose proof (iv_leaf _ _ HI L _ l S5 S6) as K.
  destruct (assign_spec p (cu_ka cu) _ s l S4) as (A1 & A2 & A3 & A4 & A5 & A6 & A7 & A8 & A9 & A10 & A11 & A12). fold l' in A1, A2, A3, A4, A5, A6, A7, A8, A9, A10, A11, A12.
  assert (NL : ~ live_slot l p) by (rewrite <- Hb; apply not_live_back; auto; apply K).
  assert (Q : quiet g L (cu_n cu) l l').
  { constructor; rewrite ?A9; auto; try apply K.
    - rewrite A7. apply K.
    - rewrite A8. apply K.
    - intros HP. destruct (Nat.eq_dec 0 p) as [<-|N]; [|apply (A5 0%nat N)]. rewrite A1. destruct H0 as [H0|[H0|H0]]; congruence.
    - intros q Hq. apply A5. congruence. }
  split; auto. pose proof (spot_quiet h g k cu cu' L s l l' HI SP Q E1 E2 E3) as SP'. destruct SP' as [T1 T2 T3 T4 T5 T6 T7 T8 T9 T10 T11 T12].
  constructor; auto; rewrite A9; auto.
Qed.

(* Layers come only from the key being inserted: a new layer's prefix is a proper prefix of it. *)
Definition lnew (k : list Z) (g g' : ghost) : Prop :=
  forall L, g_lay g' L = Some L -> (g_lay g L = Some L /\ g_pre g' L = g_pre g L) \/ exists r, k = g_pre g' L ++ r /\ r <> [].
Lemma lnew_refl k g : lnew k g g. Proof. intros L H. auto. Qed.
Lemma lnew_trans k g1 g2 g3 : lnew k g1 g2 -> lnew k g2 g3 -> lnew k g1 g3.
Proof. intros A B L H. destruct (B L H) as [[C D]|C]; auto. rewrite D. auto. Qed.

(* The leaf responsible for k was n0; a leaf becoming responsible for a key is new and took it from n0. *)
Definition spill (h : heap) (n0 : nat) (b b' : nat) : Prop := b' = b \/ (b = n0 /\ (hp_next h <= b')%nat).
Definition grown (k : list Z) (h : heap) (g : ghost) (h' : heap) (g' : ghost) (c : nat) : Prop :=
  exists n0, home h g k n0 /\ (c = n0 \/ (hp_next h <= c)%nat) /\ hmv (spill h n0) h g h' g'.
Lemma grown_hset k h g n l l' : home h g k n -> hp_node h n = Some (NLeaf l) -> grown k h g (hset h n (NLeaf l')) g n.
Proof. intros H E. exists n. split; auto. split; auto. apply (hmv_imp _ _ _ _ _ _ (hmv_hset h g n l l' E)). intros b b' X. left. exact X. Qed.

Definition ins_post (h : heap) (g : ghost) (k : list Z) (h' : heap) (cu' : cursor) : Prop :=
  exists g' L s l p, Inv h' g' /\ (forall k v, holds h' g' k v <-> holds h g k v) /\ (forall M m, stale h g M m -> stale h' g' M m) /\
    (lnew k g g' /\ grown k h g h' g' (cu_n cu')) /\ insertable h' g' k cu' L s l p.

Lemma split_lnew k h g L n l xk h2 h3 g' : Inv h g -> g_lay g n = Some L -> hp_node h n = Some (NLeaf l) -> hp_next h2 = S (hp_next h) ->
  sframe h2 (g_split g L n (hp_next h) xk) h3 g' L -> lnew k g g'.
Proof.
  intros HI Hn Hl H2 U M HM. left.
  assert (LL : g_lay g L = Some L) by exact (inv_layer h g HI n L Hn).
  destruct (sl_first _ _ _ _ (iv_lay _ _ HI n L Hn)) as (_ & (l0 & E0) & _). destruct (iv_heap _ _ HI L _ E0) as [Lt _].
  rewrite (sf_pre _ _ _ _ _ U). split; [|reflexivity].
  destruct (lt_dec M (hp_next h2)) as [Q|Q].
  - rewrite (sf_lay _ _ _ _ _ U) in HM by auto. cbn [g_split g_lay] in HM. destruct (Nat.eq_dec M (hp_next h)) as [->|N].
    + rewrite upd_same in HM. inversion HM. lia.
    + rewrite upd_other in HM by auto. exact HM.
  - destruct (lt_dec M (hp_next h3)) as [Q2|Q2]; [|rewrite (sf_fresh _ _ _ _ _ U) in HM by lia; discriminate].
    destruct (sf_new _ _ _ _ _ U M ltac:(lia)) as [_ X]. rewrite X in HM. inversion HM. lia.
Qed.

Lemma split_hmv h g L n l l2 la l4 xk h2 h3 g' : Inv h g -> g_lay g n = Some L -> hp_node h n = Some (NLeaf l) -> g_lo g n < xk < g_hi g n ->
  hp_next h2 = S (hp_next h) -> hp_node h2 n = Some (NLeaf l2) -> hp_node h2 (hp_next h) = Some (NLeaf la) ->
  (forall m lm, m <> hp_next h -> hp_node h2 m = Some (NLeaf lm) -> exists l0, hp_node h m = Some (NLeaf l0)) ->
  (forall m, hp_node h m <> None -> hp_node h2 m <> None) ->
  sframe h2 (g_split g L n (hp_next h) xk) h3 g' L -> hmv (spill h n) h g (hset h3 n (NLeaf l4)) g'.
Proof.
  intros HI Hn En Hxk H2 E2 Ea K K2 U k b' Hk (M & s & lb & A1 & A2 & A3 & A4 & A5). set (a := hp_next h) in *. set (g1 := g_split g L n a xk) in *.
  assert (Na : n <> a) by (destruct (iv_heap _ _ HI n _ En) as [X _]; unfold a; lia).
  assert (LIVE : forall m X, g_lay g m = Some X -> (m < a)%nat).
  { intros m X Hm. destruct (sl_node _ _ _ _ (iv_lay _ _ HI m X Hm) m Hm) as (nd & _ & Em & _). apply (iv_heap _ _ HI m _ Em). }
  assert (LL : g_lay g L = Some L) by exact (inv_layer h g HI n L Hn).
  assert (LAY : forall m, (m < a)%nat -> g_lay g' m = g_lay g m).
  { intros m Hm. rewrite (sf_lay _ _ _ _ _ U) by lia. unfold g1. cbn [g_split g_lay]. rewrite upd_other by lia. reflexivity. }
  assert (LAYa : g_lay g' a = Some L) by (rewrite (sf_lay _ _ _ _ _ U) by lia; unfold g1; cbn [g_split g_lay]; apply upd_same).
  assert (CD : forall X t, cand g' k X t <-> cand g k X t).
  { intros X t. unfold cand. rewrite (sf_pre _ _ _ _ _ U). change (g_pre g1) with (g_pre g). split; intros (B1 & B2 & B3); split; auto.
    - destruct (lt_dec X a) as [Q|Q]; [rewrite <- LAY; auto|]. exfalso. destruct (Nat.eq_dec X a) as [->|Q2]; [rewrite LAYa in B1; injection B1 as ->; specialize (LIVE _ _ LL); lia|].
      destruct (lt_dec X (hp_next h3)) as [Q3|Q3]; [|rewrite (sf_fresh _ _ _ _ _ U) in B1 by lia; discriminate].
      destruct (sf_new _ _ _ _ _ U X ltac:(lia)) as [_ Y]. rewrite Y in B1. injection B1 as ->. specialize (LIVE _ _ LL). lia.
    - rewrite LAY; [auto|]. exact (LIVE _ _ B1). }
  assert (HM : forall b, g_lay g b = Some M -> (exists l0, hp_node h b = Some (NLeaf l0)) -> g_lo g b <= slice_make_comparable s < g_hi g b -> home h g k b).
  { intros b B1 (l0 & B2) B3. exists M, s, l0. split; [now apply CD|]. split; [intros X t HX; apply (A2 X t), CD, HX|]. auto. }
  assert (LF : exists l3, hp_node h3 b' = Some (NLeaf l3)).
  { destruct (Nat.eq_dec b' n) as [->|N]; [destruct (sf_leaf _ _ _ _ _ U n _ E2); eauto|]. rewrite hset_other in A4 by auto. eauto. }
  destruct LF as (l3 & LF).
  assert (B3 : (b' < S a)%nat).
  { destruct (lt_dec b' (S a)) as [Q|Q]; auto. exfalso. destruct (lt_dec b' (hp_next h3)) as [Q3|Q3]; [|rewrite (sf_fresh _ _ _ _ _ U) in A3 by lia; discriminate].
    destruct (sf_new _ _ _ _ _ U b' ltac:(lia)) as [(i & Y) _]. congruence. }
  rewrite (sf_lo _ _ _ _ _ U) in A5 by lia.
  destruct (Nat.eq_dec b' a) as [->|Nb].
  - rewrite LAYa in A3. injection A3 as <-. rewrite (sf_hi _ _ _ _ _ U a _ ltac:(lia) Ea) in A5. unfold g1 in A5. cbn [g_split g_lo g_hi] in A5. rewrite upd_same, upd_other, upd_same in A5 by auto.
    exists n. split; [|right; split; auto]. apply HM; eauto. lia.
  - exists b'. split; [|left; auto]. rewrite LAY in A3 by lia. assert (N2 : exists lb2, hp_node h2 b' = Some (NLeaf lb2)).
    { destruct (hp_node h2 b') as [[x|i]|] eqn:E; [eauto| |].
      - destruct (sf_inter _ _ _ _ _ U b' i E) as (i' & Y & _). congruence.
      - exfalso. destruct (sl_node _ _ _ _ (iv_lay _ _ HI b' M A3) b' A3) as (nd & _ & Em & _). apply (K2 b'); congruence. }
    destruct N2 as (lb2 & N2). destruct (K b' lb2 Nb N2) as (l0 & N0). rewrite (sf_hi _ _ _ _ _ U b' _ ltac:(lia) N2) in A5. unfold g1 in A5. cbn [g_split g_lo g_hi] in A5. rewrite upd_other in A5 by auto.
    destruct (Nat.eq_dec b' n) as [->|N]; [rewrite upd_same in A5; apply HM; eauto; lia|]. rewrite upd_other, upd_other in A5 by auto. apply HM; eauto.
Qed.

Lemma hset_o h n nd m : m <> n -> hp_node (hset h n nd) m = hp_node h m. Proof. apply hset_other. Qed.

Lemma link_split_ok h g L n l r : Inv h g -> g_lay g n = Some L -> hp_node h n = Some (NLeaf l) ->
  let a := hp_next h in let h1 := snd (halloc h (NLeaf r)) in
  exists h2, link_split h1 n a = Ok h2 /\ hp_next h2 = S a /\ hp_node h2 a = Some (NLeaf (lf_set_next (lf_next l) (lf_set_prev (Some n) r))) /\
    hp_node h2 n = Some (NLeaf (lf_set_next (Some a) l)) /\
    (forall m, m <> n -> m <> a -> lf_next l <> Some m -> hp_node h2 m = hp_node h m) /\
    (forall m lm, m <> n -> lf_next l = Some m -> hp_node h m = Some (NLeaf lm) -> hp_node h2 m = Some (NLeaf (lf_set_prev (Some a) lm))).
Proof.
  intros HI Hn En a h1. pose proof (iv_leaf _ _ HI L n l Hn En) as K.
  assert (Na : n <> a) by (destruct (iv_heap _ _ HI n _ En) as [H _]; unfold a; lia).
  assert (N1 : forall m, m <> a -> hp_node h1 m = hp_node h m) by (intros; cbn; now rewrite upd_other).
  assert (N1a : hp_node h1 a = Some (NLeaf r)) by (cbn; apply upd_same).
  assert (N1n : hp_node h1 n = Some (NLeaf l)) by (rewrite N1; auto).
  unfold link_split. rewrite (hleaf_some _ _ _ N1n), (hleaf_some _ _ _ N1a). cbn [bind].
  case_eq (lf_next l); [intros x Q|intros Q].
  - set (ra := lf_set_next (@Some addr x) (lf_set_prev (@Some addr n) r)). set (h1' := hset h1 a (NLeaf ra)). pose proof (lo_next _ _ _ _ _ K) as X. rewrite Q in X. destruct X as (X1 & X2 & lx & X3 & X4).
    assert (x <> n). { intros ->. destruct (inv_bounds h g HI n L Hn). lia. }
    assert (Nx : x <> a) by (destruct (iv_heap _ _ HI x _ X3) as [Y _]; unfold a; lia).
    assert (Ex : hp_node h1' x = Some (NLeaf lx)) by (unfold h1'; rewrite hset_o, N1; auto).
    rewrite (hleaf_some _ _ _ Ex). cbn [bind].
    set (h1'' := hset h1' x (NLeaf (lf_set_prev (@Some addr a) lx))).
    assert (Enn : hp_node h1'' n = Some (NLeaf l)) by (unfold h1'', h1'; rewrite !hset_o; auto).
    rewrite (hleaf_some _ _ _ Enn). cbn [bind]. eexists. split; [reflexivity|]. split; [reflexivity|]. split; [|split; [apply hset_same|split]].
    + rewrite hset_o by auto. unfold h1''. rewrite hset_o by auto. unfold h1', ra. apply hset_same.
    + intros m M1 M2 M3. assert (m <> x) by (intros EE; apply M3; now rewrite EE). rewrite hset_o by auto. unfold h1''. rewrite hset_o by auto. unfold h1'. rewrite hset_o by auto. auto.
    + intros m lm M1 [= <-] M3. assert (lm = lx) by congruence. subst lm. rewrite hset_o by auto. apply hset_same.
  - set (ra := lf_set_next (@None addr) (lf_set_prev (@Some addr n) r)). set (h1' := hset h1 a (NLeaf ra)).
    cbn [bind]. assert (Enn : hp_node h1' n = Some (NLeaf l)) by (unfold h1'; rewrite hset_o; auto).
    rewrite (hleaf_some _ _ _ Enn). cbn [bind]. eexists. split; [reflexivity|]. split; [reflexivity|]. split; [|split; [apply hset_same|split]].
    + rewrite hset_o by auto. unfold h1', ra. apply hset_same.
    + intros m M1 M2 M3. rewrite hset_o by auto. unfold h1'. rewrite hset_o by auto. auto.
    + intros m lm M1 [=].
Qed.

(* A full leaf of one slice is impossible, so the highest entry of a full leaf is not in the slot of its lower bound. *)
Lemma top_not_zero h g L n l : Inv h g -> g_lay g n = Some L -> hp_node h n = Some (NLeaf l) -> perm_size (lf_perm l) = W ->
  lf_prev l <> None -> perm_get (lf_perm l) (W - 1) <> 0%nat.
Proof.
  intros HI Hn En HW HP E0. pose proof (iv_leaf _ _ HI L n l Hn En) as K. pose proof (lo_prev _ _ _ _ _ K) as P.
  destruct (lf_prev l) as [q|]; [|congruence]. destruct P as (_ & P & _).
  pose proof (lo_sorted _ _ _ _ _ K) as SO. pose proof (lo_slots _ _ _ _ _ K) as SS. pose proof W_eq as WE.
  apply (run_short (fun j => (lf_ikey l (perm_get (lf_perm l) j), lf_klx l (perm_get (lf_perm l) j))) (W - 1)).
  - intros i j Hij. apply SO. lia.
  - intros j Hj. destruct (SS (perm_get (lf_perm l) j)) as [[V|(V & _)] _]; [exists j; split; [lia|auto]| |]; cbn [snd]; [|lia].
    destruct (slot_val_klx _ _ _ V). lia.
  - lia.
  - cbn [fst]. rewrite E0, P. destruct (SS (perm_get (lf_perm l) 0)) as [_ B]; [exists 0%nat; split; [lia|auto]|].
    specialize (SO 0%nat (W - 1)%nat ltac:(lia)). rewrite E0, P in SO. unfold entry_lt in SO. cbn [fst snd] in SO. lia.
Qed.

Lemma segment_before l off l' ke i : segment l off l' -> (forall j, (j < off + i)%nat -> entry_lt (lf_ikey l (perm_get (lf_perm l) j), lf_klx l (perm_get (lf_perm l) j)) ke) ->
  (i <= perm_size (lf_perm l'))%nat ->
  forall j, (j < i)%nat -> entry_lt (lf_ikey l' (perm_get (lf_perm l') j), lf_klx l' (perm_get (lf_perm l') j)) ke.
Proof. intros [A B C] H Hi j Hj. destruct (C j ltac:(lia)) as (-> & -> & _). apply H. lia. Qed.
Lemma segment_after l off l' ke i : segment l off l' -> (forall j, (off + i <= j < perm_size (lf_perm l))%nat -> entry_lt ke (lf_ikey l (perm_get (lf_perm l) j), lf_klx l (perm_get (lf_perm l) j))) ->
  forall j, (i <= j < perm_size (lf_perm l'))%nat -> entry_lt ke (lf_ikey l' (perm_get (lf_perm l') j), lf_klx l' (perm_get (lf_perm l') j)).
Proof. intros [A B C] H j Hj. destruct (C j ltac:(lia)) as (-> & -> & _). apply H. lia. Qed.

Lemma make_split_ok h g k cu L s l : Inv h g -> spot h g k cu L s l -> home h g k (cu_n cu) -> lf_mod l <> MsDeletedLayer ->
  ((perm_size (lf_perm l) < W)%nat -> perm_back W (lf_perm l) = 0%nat) ->
  exists h' cu', make_split h cu = Ok (h', cu') /\ ins_post h g k h' cu' /\ cu_state cu' = cu_state cu.
Proof.
  intros HI SP HH HM HB. pose proof SP as [S1 S2 S3 S4 S5 S6 S7 S8 S9 S10 S11 S12].
  set (n := cu_n cu) in *. pose proof (iv_leaf _ _ HI L n l S5 S6) as K. pose proof (lo_perm _ _ _ _ _ K) as PO.
  pose proof (perm_size_le _ PO) as HWle. pose proof HW15 as HW0. pose proof W_eq as WE.
  unfold make_split. fold n. rewrite (hleaf_some _ _ _ S6). cbn [bind].
  set (w := perm_size (lf_perm l)) in *. set (px := perm_exchange W (lf_perm l) w (W - 1)).
  destruct ((w <? W)%nat && negb (perm_back W px =? 0)%nat) eqn:CA.
  - apply andb_true_iff in CA. destruct CA as [CA1 CA2]. apply Nat.ltb_lt in CA1. apply negb_true_iff, Nat.eqb_neq in CA2.
    destruct (doc_exchange W (lf_perm l) w (W - 1) HW15 PO CA1 ltac:(lia)) as (D1 & D2 & D3 & D4 & D5). fold px in D1, D2, D3, D4, D5.
    set (l1 := lf_set_perm px l).
    assert (Q1 : quiet g L n l l1).
    { constructor; try reflexivity; auto; try apply K. intros j Hj. apply D5; fold w in Hj; lia. intros q _. repeat split. }
    pose proof (spot_quiet h g k cu cu L s l l1 HI SP Q1 eq_refl eq_refl eq_refl) as SP1. fold n in SP1.
    pose proof (quiet_inv h g L n l l1 HI S5 S6 Q1) as HI1.
    set (cu' := MkCur n (cu_ka cu) (cu_i cu) (Some (perm_back W px)) (cu_root cu) (cu_state cu)).
    assert (Z1 : (perm_size (lf_perm l1) < W)%nat) by (cbn; rewrite D2; exact CA1).
    destruct (spot_assign _ g k cu L s l1 (perm_back W px) cu' HI1 SP1 Z1 eq_refl (or_introl CA2) eq_refl eq_refl eq_refl eq_refl) as [Q2 IS].
    fold n in IS, Q2. set (l2 := leaf_assign (perm_back W px) (cu_ka cu) l1) in *.
    (* the model performs both updates at once *)
    assert (Q : quiet g L n l l2) by (eapply quiet_trans; eauto).
    eexists. exists cu'. split; [reflexivity|]. split; [|reflexivity].
    exists g, L, s, l2, (perm_back W px). split; [exact (quiet_inv h g L n l l2 HI S5 S6 Q)|].
    split; [exact (quiet_holds h g L n l l2 HI S5 S6 Q)|]. split; [exact (quiet_stale h g L n l l2 S6 Q)|]. split; [split; [apply lnew_refl|exact (grown_hset k h g n l l2 HH S6)]|].
    destruct IS as [T1 T2 T3 T4 T5 T6 T7 T8 T9 T10 T11 T12 T13 T14 T15 T16]. constructor; auto; [apply hset_same|].
    intros v. rewrite (quiet_holds h g L n l l2 HI S5 S6 Q). auto.
  - assert (Hw : (W - 1 <= w)%nat).
    { destruct (Nat.lt_ge_cases w W) as [C|C]; [|lia]. specialize (HB C).
      destruct (doc_exchange W (lf_perm l) w (W - 1) HW15 PO C ltac:(lia)) as (D1 & D2 & D3 & D4 & D5). fold px in D1, D2, D3, D4, D5.
      apply Nat.ltb_lt in C. rewrite C in CA. cbn [andb] in CA. apply negb_false_iff, Nat.eqb_eq in CA. unfold perm_back in CA, HB.
      rewrite D4 in CA. apply Nat.ltb_lt in C. assert (w = W - 1)%nat by (apply (perm_get_inj (lf_perm l)); auto; try lia). lia. }
    set (nr0 := lf_set_root (lf_root l) leaf_fresh).
    destruct (leaf_split_ok l (cu_ka cu) (g_pre g L) s (cu_i cu) S4 PO Hw S8 (lo_sorted _ _ _ _ _ K) S9 S10) with (nr := nr0)
      as (r & xk & st & base & ES & SS).
    { intros j Hj. destruct (lo_slots _ _ _ _ _ K (perm_get (lf_perm l) j)) as [[V|(V & _)] _]; [exists j; auto| |]; cbn [snd]; [|lia].
      destruct (slot_val_klx _ _ _ V). lia. }
    rewrite ES. cbn [bind]. destruct SS as [P1 P2 P3 P4 P5 P6 P7 P8 (H1 & H2 & H3 & H4 & H5 & H6) P10 P11]. fold w in P2, P3, P4, P6, P8, P11.
    destruct (link_split_ok h g L n l r HI S5 S6) as (h2 & L1 & L2 & L3 & L4 & L5 & L6).
    change (halloc h (NLeaf r)) with (hp_next h, snd (halloc h (NLeaf r))). cbv beta iota. rewrite L1. cbn [bind].
    set (r2 := lf_set_next (lf_next l) (lf_set_prev (Some n) r)) in *.
    assert (Hxk : g_lo g n < xk < g_hi g n).
    { assert (RNG : forall j, (j < w)%nat -> g_lo g n <= lf_ikey l (perm_get (lf_perm l) j) < g_hi g n).
      { intros j Hj. apply (lo_slots _ _ _ _ _ K). exists j. auto. }
      split.
      - destruct P10 as [(j & Hj)|P10]; [|lia]. specialize (P5 j Hj). specialize (RNG j ltac:(lia)). lia.
      - destruct P11 as [(j & Hj & ->)| ->]; [|lia]. apply RNG. auto. }
    pose proof (split_pend h g L n l r2 xk h2 HI S5 S6 Hxk L2 L3 L4 L5 L6 eq_refl H6) as PD.
    pose proof (heap_ok2 h g L n l r2 xk h2 HI S5 S6 Hxk L2 L3 L4 L5 L6 eq_refl) as HO2.
    set (g1 := g_split g L n (hp_next h) xk) in *.
    assert (RT : exists nr2, hp_node h2 (g_root g1 L) = Some nr2 /\ (ht nr2 < hfuel h2 + 0)%nat).
    { destruct (sl_root _ _ _ _ (pd_sl _ _ _ _ _ _ _ PD)) as (_ & _ & _ & nr2 & A & _). exists nr2. split; auto. destruct (HO2 _ _ A). unfold hfuel. lia. }
    destruct RT as (nr2 & RT1 & RT2).
    destruct (split_up_ok st (hfuel h2) h2 g1 L n (hp_next h) xk 0 nr2 PD HO2 (split_live_lt h g L n l r2 xk h2 HI L2 L5 L6) RT1 RT2)
      as (h3 & g' & U1 & U2 & U3 & U4).
    rewrite U1. cbn [bind].
    destruct (sf_leaf _ _ _ _ _ U3 n _ L4) as (q & E3n). destruct (sf_leaf _ _ _ _ _ U3 (hp_next h) _ L3) as (qa & E3a).
    unfold strip_left. fold n. rewrite (hleaf_some _ _ _ E3n), (hleaf_some _ _ _ E3a). cbn [bind].
    cbn [lf_set_parent lf_set_next lf_perm r2 lf_set_prev]. fold w. rewrite P2.
    replace (w - (w - base))%nat with base by lia.
    destruct (ok_set_size W HW15 (lf_perm l) base PO ltac:(lia)) as (Z1 & Z2 & Z3).
    set (p0 := perm_set_size W (lf_perm l) base) in *. rewrite Z3.
    assert (Z4 : forall j, (j < W)%nat -> perm_get p0 j = perm_get (lf_perm l) j).
    { intros j Hj. rewrite <- !(perm_list_nth W _ j 0%nat) by auto. now rewrite Z2. }
    set (pl := if (w =? W)%nat then p0 else perm_exchange W p0 base (W - 1)).
    assert (PL : perm_ok W pl /\ perm_size pl = base /\ (forall j, (j < base)%nat -> perm_get pl j = perm_get (lf_perm l) j) /\
       ((base < w)%nat -> lf_prev l <> None -> perm_get pl (W - 1) <> 0%nat)).
    { unfold pl. destruct (Nat.eqb_spec w W) as [CW|CW].
      - split; auto. split; auto. split; [intros; apply Z4; lia|]. intros _ HP. rewrite Z4 by lia. apply (top_not_zero h g L n l); auto.
      - destruct (doc_exchange W p0 base (W - 1) HW15 Z1 ltac:(lia) ltac:(lia)) as (D1 & D2 & D3 & D4 & D5).
        split; auto. split; [rewrite D2; auto|]. split; [intros; rewrite D5 by lia; apply Z4; lia|].
        intros HBw _. rewrite D4, Z4 by lia. specialize (HB ltac:(lia)). unfold perm_back in HB. rewrite <- HB. intros X.
        apply perm_get_inj in X; auto; lia. }
    destruct PL as (PL1 & PL2 & PL3 & PL4). 
    set (l3 := lf_set_parent q (lf_set_next (Some (hp_next h)) l)) in *.
    change (lf_set_perm pl (lf_set_root false l3)) with (lf_set_perm pl (lf_set_root false l3)).
    set (l1 := lf_set_perm pl (lf_set_root false l3)).
    assert (SG1 : segment l 0 l1).
    { constructor; cbn [l1 lf_set_perm lf_perm]; auto; [fold w; lia|]. rewrite PL2. intros j Hj. cbn [Nat.add]. rewrite PL3 by auto. repeat split. }
    assert (SGR : segment l base r2).
    { constructor; cbn [r2 lf_set_next lf_set_prev lf_perm]; auto; [fold w; lia|]. rewrite P2. intros j Hj. apply P4. auto. }
    assert (COM : forall l4, lf_parent l4 = q -> lf_next l4 = Some (hp_next h) -> lf_prev l4 = lf_prev l -> lf_root l4 = false -> lf_deleted l4 = false ->
      lf_mod l4 <> MsDeletedLayer -> (lf_prev l <> None -> lf_ikey l4 0%nat = lf_ikey l 0%nat) -> segment l 0 l4 -> perm_size (lf_perm l4) = base ->
      let h4 := hset h3 n (NLeaf l4) in
      Inv h4 g' /\ (forall k v, holds h4 g' k v <-> holds h g k v) /\ (forall M m, stale h g M m -> stale h4 g' M m) /\ hmv (spill h n) h g h4 g').
    { intros l4 Y1 Y2 Y3 Y4 Y5 Y6 Y7 Y8 Y9 h4.
      assert (RS2 : (base + perm_size (lf_perm r2) = perm_size (lf_perm l))%nat) by (cbn; fold w; lia).
      assert (RD : lf_deleted r2 = false) by (cbn; exact H2).
      assert (RM : lf_mod r2 <> MsDeletedLayer) by (cbn [r2 lf_set_next lf_set_prev lf_mod]; rewrite H3; discriminate).
      split; [|split; [|split]].
      - exact (split_inv h g L n l r2 xk h2 HI S5 S6 Hxk L2 L3 L4 L5 L6 eq_refl eq_refl H6 h3 g' l4 q base U2 U3 U4 E3n S12 Y1 Y2 Y3 Y4 Y5 Y6 Y7 Y8 Y9 SGR RS2 RD RM P7 P5 P6).
      - exact (split_holds h g L n l r2 xk h2 HI S5 S6 Hxk L2 L3 L4 L5 L6 eq_refl eq_refl h3 g' l4 base U2 U3 Y8 Y9 SGR RS2 P5 P6).
      - exact (split_stale h g L n l r2 xk h2 HI S5 S6 Hxk L2 L4 L5 L6 eq_refl h3 g' l4 q base U3 E3n Y9 RS2 P5 P6).
      - apply (split_hmv h g L n l (lf_set_next (Some (hp_next h)) l) r2 l4 xk h2 h3 g' HI S5 S6 Hxk L2 L4 L3); auto.
        + intros m lm Q1 Q2. destruct (Nat.eq_dec m n) as [->|Q3]; [eauto|]. case_eq (lf_next l); [intros x EX|intros EX].
          * destruct (Nat.eq_dec m x) as [->|Q4]; [|rewrite L5 in Q2 by (auto; congruence); eauto].
            pose proof (lo_next _ _ _ _ _ K) as X. rewrite EX in X. destruct X as (_ & _ & lx & X3 & _). eauto.
          * rewrite L5 in Q2 by (auto; congruence). eauto.
        + intros m Q1. destruct (Nat.eq_dec m n) as [->|Q3]; [rewrite L4; discriminate|]. destruct (Nat.eq_dec m (hp_next h)) as [->|Q4]; [rewrite L3; discriminate|].
          case_eq (lf_next l); [intros x EX|intros EX; rewrite L5; auto; congruence].
          destruct (Nat.eq_dec m x) as [->|Q5]; [|rewrite L5; auto; congruence]. pose proof (lo_next _ _ _ _ _ K) as X. rewrite EX in X. destruct X as (_ & _ & lx & X3 & _). rewrite (L6 x lx Q3 EX X3). discriminate. }
    assert (EPR : g_pre g' = g_pre g) by exact (sf_pre _ _ _ _ _ U3).
    assert (Nlt : (n < hp_next h)%nat) by apply (iv_heap _ _ HI n _ S6).
    assert (LN : lnew k g g') by exact (split_lnew k h g L n l xk h2 h3 g' HI S5 S6 L2 U3).
    destruct (Z.eqb_spec st 0) as [Est|Est].
    + destruct P8 as (P8a & P8b & P8c).
      set (p := perm_back W pl). destruct (assign_spec p (cu_ka cu) _ s l1 S4) as (A1 & A2 & A3 & A4 & A5 & A6 & A7 & A8 & A9 & A10 & A11 & A12).
      set (l4 := leaf_assign p (cu_ka cu) l1) in *.
      assert (SG4 : segment l 0 l4).
      { destruct SG1 as [G1 G2 G3]. constructor; rewrite ?A9; auto. intros j Hj. eapply slot_eq_trans; [apply G3; auto|]. apply A5.
        cbn [l1 lf_set_perm lf_perm] in Hj |- *. unfold p, perm_back. intros X. apply perm_get_inj in X; auto; lia. }
      assert (I0 : lf_prev l <> None -> lf_ikey l4 0%nat = lf_ikey l 0%nat).
      { intros HP. specialize (PL4 P8b HP). destruct (A5 0%nat) as [(X & _) _]; [unfold p, perm_back; congruence|]. rewrite X. reflexivity. }
      destruct (COM l4) as (C1 & C2 & C3 & C4); try (rewrite ?A6, ?A7, ?A8, ?A9, ?A10, ?A11, ?A12; auto; apply K).
      eexists. exists (MkCur n (cu_ka cu) (cu_i cu) (Some p) (cu_root cu) (cu_state cu)). split; [reflexivity|]. split; [|reflexivity].
      exists g', L, s, l4, p. split; [exact C1|]. split; [exact C2|]. split; [exact C3|]. split; [split; [exact LN|exists n; split; [exact HH|]; split; [left; reflexivity|exact C4]]|].
      constructor; cbn [cu_n cu_ka cu_i cu_p]; auto.
      * rewrite EPR. auto.
      * rewrite (sf_lay _ _ _ _ _ U3) by (rewrite L2; lia). cbn [g1 g_split g_lo g_hi g_lay]. rewrite upd_other by lia. auto.
      * apply hset_same.
      * rewrite A9. reflexivity.
      * rewrite A9. cbn. lia.
      * rewrite (sf_lo _ _ _ _ _ U3) by (rewrite L2; lia). cbn [g1 g_split g_lo g_hi g_lay]. rewrite upd_other by lia.
        rewrite (sf_hi _ _ _ _ _ U3 n _ ltac:(rewrite L2; lia) L4). cbn [g1 g_split g_lo g_hi g_lay]. rewrite upd_same. fold n in S7. lia.
      * rewrite A9. cbn [l1 lf_set_perm lf_perm]. lia.
      * apply (segment_before l 0 l4 (slice_make_comparable s, len s) (cu_i cu) SG4); [exact S9|]. rewrite A9. cbn [l1 lf_set_perm lf_perm]. lia.
      * intros j Hj. apply (segment_after l 0 l4 (slice_make_comparable s, len s) (cu_i cu) SG4); [exact S10|auto].
      * intros v. rewrite C2. auto.
    + destruct P8 as (P8a & P8b & P8c & P8d & (P8e & P8f & P8g)).
      destruct (COM l1) as (C1 & C2 & C3 & C4); auto; try apply K.
      cbn [l1 lf_set_perm lf_perm]. rewrite PL2.
      eexists. eexists. split; [reflexivity|]. split; [|reflexivity].
      set (i := (cu_i cu - base)%nat) in *. set (r4 := lf_set_parent qa r2) in *.
      exists g', L, s, r4, i. split; [exact C1|]. split; [exact C2|]. split; [exact C3|]. split; [split; [exact LN|exists n; split; [exact HH|]; split; [right; cbn [cu_n]; lia|exact C4]]|].
      assert (SG4 : segment l base r4) by (destruct SGR; constructor; auto).
      constructor; cbn [cu_n cu_ka cu_i cu_p]; auto.
      * rewrite EPR. auto.
      * rewrite (sf_lay _ _ _ _ _ U3) by (rewrite L2; lia). cbn [g1 g_split g_lo g_hi g_lay]. apply upd_same.
      * rewrite hset_other by lia. exact E3a.
      * cbn. lia.
      * rewrite (sf_lo _ _ _ _ _ U3) by (rewrite L2; lia). cbn [g1 g_split g_lo g_hi g_lay]. rewrite upd_same.
        rewrite (sf_hi _ _ _ _ _ U3 (hp_next h) _ ltac:(rewrite L2; lia) L3). cbn [g1 g_split g_lo g_hi g_lay]. rewrite upd_other, upd_same by lia. fold n in S7. lia.
      * cbn [r4 r2 lf_set_parent lf_set_next lf_set_prev lf_perm]. lia.
      * apply (segment_before l base r4 (slice_make_comparable s, len s) i SG4); [intros j Hj; apply S9; lia|]. cbn [r4 r2 lf_set_parent lf_set_next lf_set_prev lf_perm]. lia.
      * intros j Hj. apply (segment_after l base r4 (slice_make_comparable s, len s) i SG4); [intros j2 Hj2; apply S10; fold w; fold w in Hj2; lia|auto].
      * intros v. rewrite C2. auto.
Qed.
