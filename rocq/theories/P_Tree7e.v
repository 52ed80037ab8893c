(* Removal, part 5: taking an entry out of a leaf, and finish_remove. *)
From Verif Require Import Lib Spec_String M_Key P_Key M_Permuter P_Permuter2 M_Search P_Search M_Tree P_Tree1 P_Tree2 P_Tree3 P_Tree4 P_Tree4b P_Tree5 P_Tree6 P_Tree6c P_Tree7 P_Tree7d.

(* The leaf after taking out entry i; the modification state may change from insert to remove. *)
Definition take (i : nat) (l : leafn) : leafn :=
  lf_set_perm (perm_remove W (lf_perm l) i) (match lf_mod l with MsInsert => lf_set_mod MsRemove l | _ => l end).
Lemma take_same i l : lf_root (take i l) = lf_root l /\ lf_deleted (take i l) = lf_deleted l /\ lf_parent (take i l) = lf_parent l /\
  lf_next (take i l) = lf_next l /\ lf_prev (take i l) = lf_prev l /\ lf_klx (take i l) = lf_klx l /\ lf_ikey (take i l) = lf_ikey l /\ lf_lv (take i l) = lf_lv l /\
  lf_ksuf (take i l) = lf_ksuf l /\ lf_perm (take i l) = perm_remove W (lf_perm l) i.
Proof. unfold take. destruct (lf_mod l); cbn; repeat split. Qed.
Lemma take_mod i l : lf_mod l <> MsDeletedLayer -> lf_mod (take i l) <> MsDeletedLayer.
Proof. unfold take. destruct (lf_mod l) eqn:E; cbn; congruence. Qed.
Lemma take_slot_eq i l s : slot_eq l s (take i l) s.
Proof. destruct (take_same i l) as (_ & _ & _ & _ & _ & A & B & C & D & _). unfold slot_eq. rewrite A, B, C, D. auto. Qed.
Lemma take_live i l s : perm_ok W (lf_perm l) -> (i < perm_size (lf_perm l))%nat -> live_slot (take i l) s <-> live_slot l s /\ s <> perm_get (lf_perm l) i.
Proof.
  intros P Hi. destruct (take_same i l) as (_ & _ & _ & _ & _ & _ & _ & _ & _ & E). pose proof (perm_size_le _ P) as PS. destruct (doc_remove W (lf_perm l) i HW15 P Hi) as (Q & S1 & S2 & S3 & _).
  unfold live_slot. rewrite E. split.
  - intros (j & J & <-). rewrite S1 in J. destruct (Nat.lt_ge_cases j i).
    + rewrite S2 by auto. split; [exists j; split; auto; lia|]. intros F. apply perm_get_inj in F; auto; lia.
    + rewrite S3 by lia. split; [exists (S j); split; auto; lia|]. intros F. apply perm_get_inj in F; auto; lia.
  - intros [(j & J & <-) N]. destruct (Nat.lt_ge_cases j i); [exists j; split; [lia|now apply S2]|].
    assert (j <> i) by (intros ->; auto). exists (j - 1)%nat. split; [lia|]. rewrite S3 by lia. f_equal. lia.
Qed.
Lemma take_perm i l : perm_ok W (lf_perm l) -> (i < perm_size (lf_perm l))%nat -> perm_ok W (lf_perm (take i l)).
Proof. intros P Hi. destruct (take_same i l) as (_ & _ & _ & _ & _ & _ & _ & _ & _ & E). rewrite E. now apply (doc_remove W (lf_perm l) i HW15 P Hi). Qed.
Lemma take_sorted i l : perm_ok W (lf_perm l) -> (i < perm_size (lf_perm l))%nat -> leaf_sorted (lf_perm l) (lf_ikey l) (lf_klx l) ->
  leaf_sorted (lf_perm (take i l)) (lf_ikey (take i l)) (lf_klx (take i l)).
Proof.
  intros P Hi SO. destruct (take_same i l) as (_ & _ & _ & _ & _ & A & B & _ & _ & E). rewrite A, B, E. destruct (doc_remove W (lf_perm l) i HW15 P Hi) as (Q & S1 & S2 & S3 & _).
  intros a b Hab. rewrite S1 in Hab.
  assert (G : forall j, (j < perm_size (lf_perm l) - 1)%nat -> perm_get (perm_remove W (lf_perm l) i) j = perm_get (lf_perm l) (if (j <? i)%nat then j else S j)).
  { intros j Hj. destruct (Nat.ltb_spec j i); [now apply S2|apply S3; lia]. }
  rewrite !G by lia. apply SO. destruct (Nat.ltb_spec a i), (Nat.ltb_spec b i); lia.
Qed.

(* A key is held by one slot only. *)
Lemma holder_unique h g k v1 v2 M1 m1 l1 s1 M2 m2 l2 s2 : Inv h g ->
  g_lay g m1 = Some M1 -> hp_node h m1 = Some (NLeaf l1) -> live_slot l1 s1 -> lf_klx l1 s1 <> 128 -> lf_lv l1 s1 = LvVal v1 -> k = g_pre g M1 ++ entry_str l1 s1 ->
  g_lay g m2 = Some M2 -> hp_node h m2 = Some (NLeaf l2) -> live_slot l2 s2 -> lf_klx l2 s2 <> 128 -> lf_lv l2 s2 = LvVal v2 -> k = g_pre g M2 ++ entry_str l2 s2 ->
  m1 = m2 /\ s1 = s2.
Proof.
  intros HI A1 A2 A3 A4 A5 A6 B1 B2 B3 B4 B5 B6.
  destruct (holds_route h g HI k v1 M1 m1 l1 s1 A1 A2 A3 A4 A5 A6) as (R1 & _ & V1). destruct (holds_route h g HI k v2 M2 m2 l2 s2 B1 B2 B3 B4 B5 B6) as (R2 & _ & V2).
  destruct (entry_facts M1 l1 s1 (inv_ikey h g HI _ _ _ _ A1 A2 A3) V1) as (_ & F1 & F2 & _). destruct (entry_facts M2 l2 s2 (inv_ikey h g HI _ _ _ _ B1 B2 B3) V2) as (_ & G1 & G2 & _).
  destruct (route_linear h g HI _ _ _ _ _ R1 R2) as [[E1 E2]|[(L' & s' & S)|(L' & s' & S)]].
  - subst M2. destruct (slot_unique h g HI M1 m1 l1 s1 m2 l2 s2) as (-> & _ & ->); auto; congruence.
  - exfalso. destruct S as (S8 & _ & n2 & l0 & sl & r & (Q1 & Q2 & Q3 & Q4 & Q5 & Q6) & QE).
    destruct (slot_unique h g HI M1 m1 l1 s1 n2 l0 sl A1 A2 A3 Q1 Q2 Q3) as (-> & -> & ->); [congruence| |congruence]. rewrite Q4, <- F2. unfold lenclass. lia.
  - exfalso. destruct S as (S8 & _ & n2 & l0 & sl & r & (Q1 & Q2 & Q3 & Q4 & Q5 & Q6) & QE).
    destruct (slot_unique h g HI M2 m2 l2 s2 n2 l0 sl B1 B2 B3 Q1 Q2 Q3) as (-> & -> & ->); [congruence| |congruence]. rewrite Q4, <- G2. unfold lenclass. lia.
Qed.

(* Taking out a value. *)
Theorem take_value_ok h g L n l i k v0 : Inv h g -> g_lay g n = Some L -> hp_node h n = Some (NLeaf l) -> (i < perm_size (lf_perm l))%nat ->
  let p := perm_get (lf_perm l) i in let h' := hset h n (NLeaf (take i l)) in
  lf_klx l p <> 128 -> lf_lv l p = LvVal v0 -> k = g_pre g L ++ entry_str l p ->
  Inv h' g /\ (forall k' v', holds h' g k' v' <-> k' <> k /\ holds h g k' v') /\ (forall M m, stale h g M m -> stale h' g M m) /\ (forall M, at_root h g M -> at_root h' g M).
Proof.
  intros HI Hn En Hi p h' H1 H2 H3. pose proof (iv_leaf _ _ HI L n l Hn En) as K. pose proof (lo_perm _ _ _ _ _ K) as PO. destruct (take_same i l) as (T1 & T2 & T3 & T4 & T5 & T6 & T7 & T8 & T9 & T10).
  pose proof (fun s => take_live i l s PO Hi) as TL. fold p in TL. assert (LP : live_slot l p) by (exists i; auto). split; [|split; [|split]].
  - apply (leaf_update_inv h g L n l); auto; try congruence.
    + now apply take_perm.
    + rewrite T2. apply K.
    + apply take_mod, K.
    + apply take_sorted; auto. apply K.
    + intros s Hs. apply TL in Hs. destruct (lo_slots _ _ _ _ _ K s (proj1 Hs)) as [A B]. rewrite T7. split; auto. apply (slot_eq_ok' h g L l s); auto using take_slot_eq.
    + intros s r L' A B C D. exists s, r. rewrite TL, T6, T8. repeat split; auto. intros ->. congruence.
  - intros k' v'. unfold h'. rewrite (lu_holds h g L n (take i l) Hn), (holds_split h g L n l k' v' Hn En). split.
    + intros [(M & m & lm & s & N & A1 & A2 & A3 & A4 & A5 & A6)|(s & A1 & A2 & A3 & A4)].
      * split; [|left; exists M, m, lm, s; auto 10]. intros ->. destruct (holder_unique h g k v0 v' L n l p M m lm s) as [Q _]; auto.
      * apply TL in A1. rewrite T6 in A2. rewrite T8 in A3. rewrite (slot_eq_str _ _ _ _ (take_slot_eq i l s)) in A4. split; [|right; exists s; tauto].
        intros ->. destruct (holder_unique h g k v0 v' L n l p L n l s) as [_ Q]; auto; try tauto. destruct A1 as [_ A1]. congruence.
    + intros [N [H|(s & A1 & A2 & A3 & A4)]]; [left; auto|right]. exists s. rewrite TL, T6, T8, (slot_eq_str _ _ _ _ (take_slot_eq i l s)). repeat split; auto. intros ->. apply N. congruence.
  - intros M m Hm. apply (lu_stale h g n l); auto.
  - intros M AR M' m lm s r (O1 & O2 & O3 & O4 & O5 & O6). unfold h' in O2. destruct (Nat.eq_dec m n) as [->|N].
    + rewrite hset_same in O2. inversion O2; subst lm. rewrite T6 in O4. rewrite T8 in O5. apply TL in O3. apply (AR M' n l s r). repeat split; tauto.
    + rewrite hset_other in O2 by auto. apply (AR M' m lm s r). repeat split; auto.
Qed.

(* Taking out the pointer to a layer that consists of one empty leaf. *)
Definition g_forget (g : ghost) (L' : nat) : ghost :=
  MkG (fun m => match g_lay g m with Some M => if (M =? L')%nat then None else Some M | None => None end) (g_lo g) (g_hi g) (g_root g) (g_pre g)
      (fun m => match g_dead g m with Some M => if (M =? L')%nat then None else Some M | None => None end).
Lemma fg_lay g L' m M : g_lay (g_forget g L') m = Some M <-> g_lay g m = Some M /\ M <> L'.
Proof. cbn. destruct (g_lay g m) as [M0|]; [|split; [discriminate|intros [[=] _]]]. destruct (Nat.eqb_spec M0 L'); split; try discriminate; [intros [[=] N]; congruence|intros [=]; subst; auto|tauto]. Qed.
Lemma fg_dead g L' m M : g_dead (g_forget g L') m = Some M <-> g_dead g m = Some M /\ M <> L'.
Proof. cbn. destruct (g_dead g m) as [M0|]; [|split; [discriminate|intros [[=] _]]]. destruct (Nat.eqb_spec M0 L'); split; try discriminate; [intros [[=] N]; congruence|intros [=]; subst; auto|tauto]. Qed.

Section TakeLayer.
Context (h : heap) (g : ghost) (L n : nat) (l : leafn) (i r L' : nat) (la : leafn).
Hypothesis HI : Inv h g.
Hypothesis Hn : g_lay g n = Some L.
Hypothesis En : hp_node h n = Some (NLeaf l).
Hypothesis Hi : (i < perm_size (lf_perm l))%nat.
Let p := perm_get (lf_perm l) i.
Hypothesis Hown : owns h g L n l p r L'.
Hypothesis Ela : hp_node h L' = Some (NLeaf la).
Hypothesis Hone : g_root g L' = L'.
Hypothesis Hempty : perm_size (lf_perm la) = 0%nat.
Let h1 := hset h L' (NLeaf (lf_set_mod MsDeletedLayer la)).
Let h' := hset h1 n (NLeaf (take i l)).
Let g' := g_forget g L'.

Lemma tl_L' : g_lay g L' = Some L' /\ L' <> 0%nat.
Proof.
  destruct Hown as (_ & _ & _ & _ & _ & A). split; [exact (inv_layer h g HI r L' A)|]. intros E. destruct (owns_pre h g HI _ _ _ _ _ _ Hown) as [P _]. destruct (iv_l0 _ _ HI) as [_ B].
  rewrite E, B in P. symmetry in P. apply app_eq_nil in P. destruct P as [_ P]. pose proof (be_bytes_length 8 (lf_ikey l p)) as F. rewrite P in F. discriminate.
Qed.
(* L' consists of one node. *)
Lemma tl_single m : g_lay g m = Some L' -> m = L'.
Proof.
  intros Hm. destruct tl_L' as [A _]. pose proof (iv_lay _ _ HI m L' Hm) as HS. destruct (sl_node _ _ _ _ HS m Hm) as (nd & nr & B & C & D & _). rewrite Hone in C.
  assert (nr = NLeaf la) by congruence. subst nr. destruct nd as [lm|im].
  - destruct (root_bounds h g L' HS) as [E F]. rewrite Hone in E, F. destruct (inv_bounds h g HI m L' Hm). apply (leaf_at h g HI L' m L' lm la (g_lo g m)); auto; lia.
  - destruct (sl_inter _ _ _ _ HS m im Hm B (fun f => f)) as (_ & _ & E). specialize (E (in_nkeys im) (le_n _)). cbn in D. unfold child_ok in E. destruct (in_child im (in_nkeys im)); [|lia]. destruct E as (_ & (nc & _ & _ & F) & _). lia.
Qed.
Lemma tl_LL' : L <> L'.
Proof. intros E. assert (n = L') by (apply tl_single; congruence). assert (la = l) by congruence. subst la. lia. Qed.
Lemma tl_nL' : n <> L'. Proof. destruct tl_L' as [A _]. pose proof tl_LL'. congruence. Qed.
Lemma tl_node m M : g_lay g' m = Some M -> m <> L' /\ m <> n -> hp_node h' m = hp_node h m.
Proof. intros A [B C]. unfold h', h1. now rewrite !hset_other by auto. Qed.
Lemma tl_n : hp_node h' n = Some (NLeaf (take i l)). Proof. apply hset_same. Qed.
Lemma tl_sim m nd : m <> L' -> hp_node h m = Some nd -> exists nd', hp_node h' m = Some nd' /\ nsim nd nd'.
Proof.
  intros N E. destruct (Nat.eq_dec m n) as [->|N2].
  - exists (NLeaf (take i l)). split; [apply tl_n|]. assert (nd = NLeaf l) by congruence. subst nd. cbn [nsim]. destruct (take_same i l) as (_ & _ & Q & _). auto.
  - exists nd. unfold h', h1. rewrite !hset_other by auto. auto using nsim_refl.
Qed.
Lemma tl_notL' m M : g_lay g' m = Some M -> m <> L'.
Proof. intros A ->. destruct tl_L' as [B _]. apply fg_lay in A. destruct A. congruence. Qed.
Lemma tl_back m lm M : g_lay g' m = Some M -> hp_node h' m = Some (NLeaf lm) -> exists lm0, hp_node h m = Some (NLeaf lm0) /\ (m <> n -> lm0 = lm) /\ (m = n -> lm0 = l /\ lm = take i l).
Proof.
  intros A B. pose proof (tl_notL' m M A) as N. destruct (Nat.eq_dec m n) as [->|N2].
  - rewrite tl_n in B. inversion B; subst. exists l. repeat split; auto; contradiction.
  - exists lm. unfold h', h1 in B. rewrite !hset_other in B by auto. repeat split; auto; contradiction.
Qed.
Lemma tl_lptr t M m lm s L2 : g_lay g m = Some M -> hp_node h m = Some (NLeaf lm) -> live_slot lm s -> (m = n -> s <> p) -> lf_klx lm s = 128 -> lf_lv lm s = LvLayer t -> lptr h g t L2 -> L2 <> L' /\ lptr h' g' t L2.
Proof.
  intros A B C D E F (G & nr & G1 & G2 & G3). assert (NL : L2 <> L').
  { intros ->. assert (O : owns h g M m lm s t L') by (repeat split; auto). destruct (owner_unique h g HI _ _ _ _ _ _ _ _ _ _ _ O Hown) as (_ & Q1 & _ & Q2 & _). exact (D Q1 Q2). }
  split; auto. split; [apply fg_lay; auto|]. assert (Nt : t <> L') by (intros ->; destruct tl_L'; congruence). destruct (tl_sim t nr Nt G1) as (nr' & I1 & I2). exists nr'. split; auto.
  rewrite <- (nsim_parent _ _ I2). split; auto. destruct G3 as [G3|(x & ->)]; auto. apply nsim_inter_l in I2. subst. right. eauto.
Qed.
Lemma tl_live m lm s : hp_node h m = Some (NLeaf lm) -> live_slot lm s -> m <> L'.
Proof. intros A B ->. assert (lm = la) by congruence. subst lm. destruct B as (j & B & _). lia. Qed.
(* a live slot other than p survives *)
Lemma tl_slot M m lm s : g_lay g m = Some M -> hp_node h m = Some (NLeaf lm) -> live_slot lm s -> (m = n -> s <> p) -> exists lm', g_lay g' m = Some M /\ hp_node h' m = Some (NLeaf lm') /\ live_slot lm' s /\ slot_eq lm s lm' s.
Proof.
  intros A B C D. pose proof (tl_live m lm s B C) as N. assert (A' : g_lay g' m = Some M). { apply fg_lay. split; auto. intros ->. apply N. apply tl_single. auto. }
  destruct (Nat.eq_dec m n) as [->|N2].
  - assert (lm = l) by congruence. subst lm. exists (take i l). split; auto. split; [apply tl_n|]. split; [|apply take_slot_eq]. apply take_live; auto. apply (iv_leaf _ _ HI L n l Hn En).
  - exists lm. split; auto. unfold h', h1. rewrite !hset_other by auto. repeat split; auto.
Qed.
Lemma tl_slot_back M m lm' s : g_lay g' m = Some M -> hp_node h' m = Some (NLeaf lm') -> live_slot lm' s -> exists lm, g_lay g m = Some M /\ hp_node h m = Some (NLeaf lm) /\ live_slot lm s /\ slot_eq lm s lm' s /\ (m = n -> s <> p).
Proof.
  intros A B C. destruct (tl_back m lm' M A B) as (lm & D & E & F). pose proof A as A0. apply fg_lay in A0. exists lm. split; [tauto|]. split; auto. destruct (Nat.eq_dec m n) as [->|N].
  - destruct (F eq_refl) as [-> ->]. apply take_live in C; auto; [|apply (iv_leaf _ _ HI L n l Hn En)]. split; [tauto|]. split; [apply take_slot_eq|tauto].
  - rewrite (E N) in *. split; auto. split; [repeat split; auto|]. contradiction.
Qed.
Lemma tl_lay m M lm : g_lay g m = Some M -> M <> L' -> hp_node h m = Some (NLeaf lm) -> g_lay g' m = Some M /\ exists lm', hp_node h' m = Some (NLeaf lm') /\ lf_next lm' = lf_next lm /\ lf_prev lm' = lf_prev lm.
Proof.
  intros A B C. split; [apply fg_lay; auto|]. destruct (Nat.eq_dec m n) as [->|N].
  - assert (lm = l) by congruence. subst lm. exists (take i l). split; [apply tl_n|]. split; apply take_same.
  - exists lm. assert (m <> L') by (intros ->; destruct tl_L'; congruence). unfold h', h1. rewrite !hset_other by auto. auto.
Qed.
Lemma tl_leaf_ok M m lm : g_lay g' m = Some M -> hp_node h' m = Some (NLeaf lm) -> leaf_ok h' g' M m lm.
Proof.
  intros A B. destruct (tl_back m lm M A B) as (lm0 & C & D & E). pose proof A as A0. apply fg_lay in A0. destruct A0 as [A0 NM].
  pose proof (iv_leaf _ _ HI M m lm0 A0 C) as [K1 K2 K3 K4 K5 K6 K7 K8].
  assert (SM : lf_deleted lm = lf_deleted lm0 /\ lf_next lm = lf_next lm0 /\ lf_prev lm = lf_prev lm0 /\ lf_root lm = lf_root lm0 /\ lf_ikey lm = lf_ikey lm0).
  { destruct (Nat.eq_dec m n) as [Q|Q]; [destruct (E Q) as [-> ->]; destruct (take_same i l) as (T1 & T2 & T3 & T4 & T5 & T6 & T7 & T8 & T9 & T10); auto|rewrite (D Q); auto]. }
  destruct SM as (M1 & M2 & M3 & M4 & M5). constructor.
  - destruct (Nat.eq_dec m n) as [Q|Q]; [destruct (E Q) as [-> ->]; now apply take_perm|now rewrite <- (D Q)].
  - congruence.
  - destruct (Nat.eq_dec m n) as [Q|Q]; [destruct (E Q) as [-> ->]; now apply take_mod|now rewrite <- (D Q)].
  - destruct (Nat.eq_dec m n) as [Q|Q]; [destruct (E Q) as [-> ->]; now apply take_sorted|now rewrite <- (D Q)].
  - intros s Hs. destruct (tl_slot_back M m lm s A B Hs) as (lm1 & F1 & F2 & F3 & F4 & F5). assert (lm1 = lm0) by congruence. subst lm1. destruct (K5 s F3) as [G1 G2]. rewrite M5. split; [|exact G2].
    apply (slot_eq_ok' h g M lm0 s); auto. intros t L2 H1 H2 H3. eapply tl_lptr; eauto.
  - rewrite M3. destruct (lf_prev lm0) as [q|]; [|exact K6]. destruct K6 as (Y1 & Y2 & Y3 & Y4 & lq & Y5 & Y6). rewrite M5. destruct (tl_lay q M lq Y3 NM Y5) as (Z1 & lq' & Z2 & Z3 & Z4).
    repeat split; auto. exists lq'. split; auto. congruence.
  - rewrite M2. destruct (lf_next lm0) as [q|]; [|exact K7]. destruct K7 as (Y1 & Y2 & lq & Y5 & Y6). destruct (tl_lay q M lq Y1 NM Y5) as (Z1 & lq' & Z2 & Z3 & Z4).
    repeat split; auto. exists lq'. split; auto. congruence.
  - rewrite M4. exact K8.
Qed.
Theorem take_layer_inv : Inv h' g'.
Proof.
  destruct tl_L' as [LL N0]. constructor.
  - intros a nd E. change (hp_next h') with (hp_next h). unfold h', h1 in E. destruct (Nat.eq_dec a n) as [->|N1]; [|destruct (Nat.eq_dec a L') as [->|N2]].
    + rewrite hset_same in E. inversion E; subst nd. destruct (iv_heap _ _ HI n _ En). cbn [ht] in *. auto.
    + rewrite hset_other, hset_same in E by auto. inversion E; subst nd. destruct (iv_heap _ _ HI L' _ Ela). cbn [ht] in *. auto.
    + rewrite !hset_other in E by auto. exact (iv_heap _ _ HI a nd E).
  - destruct (iv_l0 _ _ HI). split; auto. apply fg_lay. auto.
  - intros m M Hm. pose proof Hm as H0. apply fg_lay in H0. destruct H0 as [H0 NM]. pose proof (iv_lay _ _ HI m M H0) as HS.
    apply (SL_frame h g (noexc g) h' g' (noexc g') M HS).
    + intros q [Hq|Hq].
      * destruct (sl_node _ _ _ _ HS q Hq) as (nd & _ & B & _). assert (Nq : q <> L') by congruence. destruct (tl_sim q nd Nq B) as (nd' & C & D). eauto.
      * destruct (sl_dead _ _ _ _ HS q Hq) as (D & x & _ & _ & B & _). assert (Nq : q <> L') by congruence. destruct (tl_sim q _ Nq B) as (nd' & C & F). eauto.
    + intros q. unfold g'. rewrite fg_lay. tauto.
    + intros q Hq. apply fg_dead in Hq. split; [tauto|]. destruct (sl_dead _ _ _ _ HS q (proj1 Hq)) as (D & _). cbn. now rewrite D.
    + intros q _ t Ht. apply fg_dead. auto.
    + intros q Hq. cbn. tauto.
    + reflexivity.
  - intros M m lm A B. apply tl_leaf_ok; auto.
  - intros L2 A NL2. apply fg_lay in A. destruct A as [A NL]. destruct (iv_owner _ _ HI L2 A NL2) as (M & m & lm & s & t & O). pose proof O as (O1 & O2 & O3 & O4 & O5 & O6).
    assert (SP : m = n -> s <> p). { intros -> ->. assert (lm = l) by congruence. subst lm. destruct Hown as (_ & _ & _ & _ & Q5 & Q6). congruence. }
    destruct (tl_slot M m lm s O1 O2 O3 SP) as (lm' & P1 & P2 & P3 & (E1 & E2 & E3 & _)). exists M, m, lm', s, t. repeat split; auto; try congruence. apply fg_lay. auto.
  - intros M A. apply fg_lay in A. apply (iv_pre _ _ HI M). tauto.
  - intros m M A. apply fg_dead in A. apply fg_lay. split; [|tauto]. apply (iv_dead _ _ HI m). tauto.
Qed.
Theorem take_layer_holds k v : holds h' g' k v <-> holds h g k v.
Proof.
  split.
  - intros (M & m & lm & s & A & B & C & D & E & F). destruct (tl_slot_back M m lm s A B C) as (lm0 & G1 & G2 & G3 & G4 & G5). pose proof G4 as (E1 & E2 & E3 & _).
    exists M, m, lm0, s. repeat split; auto; try congruence. rewrite <- (slot_eq_str _ _ _ _ G4). exact F.
  - intros (M & m & lm & s & A & B & C & D & E & F). assert (SP : m = n -> s <> p). { intros -> ->. assert (lm = l) by congruence. subst lm. destruct Hown as (_ & _ & _ & Q5 & _). congruence. }
    destruct (tl_slot M m lm s A B C SP) as (lm' & G1 & G2 & G3 & G4). pose proof G4 as (E1 & E2 & E3 & _). exists M, m, lm', s. repeat split; auto; try congruence. rewrite (slot_eq_str _ _ _ _ G4). exact F.
Qed.
Theorem take_layer_stale M m : M <> L' -> stale h g M m -> stale h' g' M m.
Proof.
  intros N [->|(x & A & B)]; [left; auto|right]. exists x. split.
  - assert (m <> L') by congruence. destruct (tl_sim m _ H A) as (nd & C & D). apply nsim_inter_l in D. congruence.
  - destruct B as [B|B]; [left; now apply fg_lay|right; now apply fg_dead].
Qed.
Theorem take_layer_at_root M : at_root h g M -> at_root h' g' M.
Proof.
  intros AR M' m lm s t (O1 & O2 & O3 & O4 & O5 & O6). destruct (tl_slot_back M' m lm s O1 O2 O3) as (lm0 & G1 & G2 & G3 & (E1 & E2 & E3 & _) & G5). apply fg_lay in O6.
  apply (AR M' m lm0 s t). repeat split; auto; try congruence. tauto.
Qed.
(* The keys that were in the layer's leaf belong to n now. *)
Theorem take_layer_hmv : hmv (fun c c' => c' = c \/ (c = L' /\ c' = n)) h g h' g'.
Proof.
  intros k c Hk (M & s & lb & A1 & A2 & A3 & A4 & A5). destruct tl_L' as [L1 L2]. apply fg_lay in A3. destruct A3 as [A3 NM].
  assert (LF : exists lc, hp_node h c = Some (NLeaf lc)).
  { destruct (Nat.eq_dec c n) as [->|N]; [eauto|]. destruct (Nat.eq_dec c L') as [->|N2]; [eauto|]. unfold h', h1 in A4. rewrite !hset_other in A4 by auto. eauto. }
  destruct LF as (lc & LF). destruct A1 as (B1 & B2 & B3). apply fg_lay in B1. destruct B1 as [B1 _]. change (g_pre g') with (g_pre g) in B2.
  assert (CM : cand g k M s) by (split; [|split]; auto). destruct (owns_pre h g HI _ _ _ _ _ _ Hown) as [PR _].
  destruct (le_lt_dec (length s) (length (skipn (length (g_pre g L')) k))) as [Q|Q].
  - exists c. split; [|auto]. exists M, s, lc. split; auto. split; [|auto]. intros X t HX. destruct (Nat.eq_dec X L') as [->|NX].
    + destruct HX as (_ & X2 & _). assert (X3 : skipn (length (g_pre g L')) k = t) by (rewrite X2, skipn_app, Nat.sub_diag, skipn_all; reflexivity). rewrite <- X3. exact Q.
    + apply (A2 X t). destruct HX as (X1 & X2 & X3). split; [apply fg_lay; auto|]. auto.
  - (* the layer's prefix is longer than M's *)
    destruct (list_eq_dec Z.eq_dec (firstn (length (g_pre g L')) k) (g_pre g L')) as [EP|EP].
    2:{ exists c. split; [|auto]. exists M, s, lc. split; auto. split; [|auto]. intros X t HX. destruct (Nat.eq_dec X L') as [->|NX].
      - destruct HX as (_ & X2 & _). exfalso. apply EP. rewrite X2, firstn_app, Nat.sub_diag, firstn_all, firstn_O, app_nil_r. reflexivity.
      - apply (A2 X t). destruct HX as (X1 & X2 & X3). split; [apply fg_lay; auto|]. auto. }
    set (u := skipn (length (g_pre g L')) k) in *. assert (Ek : k = g_pre g L' ++ u) by (rewrite <- EP at 1; symmetry; apply firstn_skipn).
    destruct (list_eq_dec Z.eq_dec u []) as [EU|NU].
    { exists c. split; [|auto]. exists M, s, lc. split; auto. split; [|auto]. intros X t HX. destruct (Nat.eq_dec X L') as [->|NX].
      - destruct HX as (_ & X2 & X3). exfalso. apply (X3 L2). rewrite X2 in Ek. apply app_inv_head in Ek. congruence.
      - apply (A2 X t). destruct HX as (X1 & X2 & X3). split; [apply fg_lay; auto|]. auto. }
    assert (CL' : cand g k L' u) by (split; [|split]; auto).
    assert (Bu : bytes_ok u) by (rewrite Ek in Hk; apply bytes_ok_app in Hk; tauto). set (ik := lf_ikey l p) in *.
    assert (LL : g_lay g L = Some L) by exact (inv_layer h g HI n L Hn).
    assert (CL : cand g k L (be_bytes 8 ik ++ u)).
    { split; auto. split; [rewrite Ek, PR, <- app_assoc; reflexivity|]. intros _ X. apply app_eq_nil in X. tauto. }
    assert (CLf : cand g' k L (be_bytes 8 ik ++ u)) by (destruct CL as (X1 & X2 & X3); split; [apply fg_lay; split; [auto|exact tl_LL']|auto]).
    pose proof (A2 _ _ CLf) as Q2. rewrite app_length, be_bytes_length in Q2.
    assert (LEN : (length s = length u + 8)%nat).
    { pose proof (route_complete h g HI _ M s (le_n _) B1 ltac:(rewrite B2 in Hk; apply bytes_ok_app in Hk; tauto) B3) as R1. rewrite <- B2 in R1.
      pose proof (route_complete h g HI _ L' u (le_n _) L1 Bu (proj2 (proj2 CL'))) as R2. rewrite <- Ek in R2.
      destruct (route_routen _ _ _ _ _ R1) as (d1 & D1), (route_routen _ _ _ _ _ R2) as (d2 & D2). pose proof (routen_len _ _ _ _ _ _ D1). pose proof (routen_len _ _ _ _ _ _ D2). lia. }
    destruct (cand_det h g k M s L (be_bytes 8 ik ++ u) HI CM CL) as [-> ->]; [rewrite app_length, be_bytes_length; lia|].
    rewrite slice_be8 in A5 by (auto; exact (inv_ikey h g HI L n l p Hn En ltac:(exists i; auto))).
    destruct (lo_slots _ _ _ _ _ (iv_leaf _ _ HI L n l Hn En) p ltac:(exists i; auto)) as [_ RNG]. fold ik in RNG.
    exists L'. split; [|right; split; auto; apply (leaf_at h g HI L c n lc l ik); auto].
    exists L', u, la. split; auto. split; [|split; [auto|split; [auto|]]].
    + intros X t HX. destruct (Nat.eq_dec X L') as [->|NX].
      * destruct HX as (_ & X2 & _). rewrite X2 in Ek. apply app_inv_head in Ek. rewrite Ek. lia.
      * assert (HX' : cand g' k X t) by (destruct HX as (X1 & X2 & X3); split; [apply fg_lay; auto|auto]). pose proof (A2 X t HX'). lia.
    + destruct (root_bounds h g L' (iv_lay _ _ HI L' L' L1)) as [R1 R2]. rewrite Hone in R1, R2. rewrite R1, R2. rewrite U64_eq. now apply slice_bound.
Qed.
End TakeLayer.

(* What follows taking out the entry. *)
Lemma finish_remove_tail h g L n l i root prefix : Inv h g -> g_lay g n = Some L -> hp_node h n = Some (NLeaf (take i l)) -> at_root h g L ->
  exists h' gc d g', (if (0 <? perm_size (perm_remove W (lf_perm l) i))%nat then Ok (h, [], false) else remove_leaf h n root prefix) = Ok (h', gc, d) /\
    Inv h' g' /\ (forall k v, holds h' g' k v <-> holds h g k v) /\
    (forall M m, stale h g M m -> stale h' g' M m) /\ (forall it, In it gc -> it = (root, prefix) /\ prefix <> []) /\ lold g g' /\
    hmv (if (0 <? perm_size (perm_remove W (lf_perm l) i))%nat then eq else pour n (lf_prev l)) h g h' g'.
Proof.
  intros HI Hn En AR. destruct (take_same i l) as (_ & _ & _ & _ & _ & _ & _ & _ & _ & E). rewrite <- E. destruct (Nat.ltb_spec 0 (perm_size (lf_perm (take i l)))).
  - exists h, [], false, g. split; auto. split; auto. split; [tauto|]. split; auto. split; [intros it []|]. split; [apply lold_refl|]. intros k0 c _ Q. exists c. auto.
  - destruct (remove_leaf_ok h g L n (take i l) root prefix) as (h' & gc & d & g' & A & B & C & D & F & F' & F2); auto; [lia|]. exists h', gc, d, g'. destruct (take_same i l) as (_ & _ & _ & _ & TP & _). rewrite TP in F2. auto 10.
Qed.

(* tcursor::finish_remove at a cursor that found its key. *)
Theorem finish_remove_ok h g k cu L s l : Inv h g -> located h g k cu L s l -> bytes_ok k -> cu_state cu = 1 ->
  exists h' gc d g', finish_remove h cu = Ok (h', gc, d) /\ Inv h' g' /\ (forall k' v', holds h' g' k' v' <-> k' <> k /\ holds h g k' v') /\
    (forall M m, stale h g M m -> stale h' g' M m) /\ (forall it, In it gc -> it = (cu_root cu, key_prefix_string (cu_ka cu)) /\ key_prefix_string (cu_ka cu) <> []) /\ lold g g' /\
    hmv (if (0 <? perm_size (perm_remove W (lf_perm l) (cu_i cu)))%nat then eq else pour (cu_n cu) (lf_prev l)) h g h' g'.
Proof.
  intros HI J Hk HS. pose proof (lc_lay _ _ _ _ _ _ _ J) as Hn. pose proof (lc_leaf _ _ _ _ _ _ _ J) as En. pose proof (lc_state _ _ _ _ _ _ _ J) as ST. set (n := cu_n cu) in *.
  pose proof (iv_leaf _ _ HI L n l Hn En) as K. destruct (lf_lower_ok l (cu_ka cu) (lo_sorted _ _ _ _ _ K)) as (i & op & A & B & _ & _ & C). rewrite (lc_lower _ _ _ _ _ _ _ J) in A. inversion A; subst i op. clear A.
  destruct (cu_p cu) as [p|] eqn:Ep; [|lia]. destruct ST as [LV [(E & _)|(E1 & E2 & E3 & v0 & E4 & E5)]]; [lia|]. destruct C as (C1 & C2 & _).
  destruct (route_pre h g HI _ _ _ Hk (lc_route _ _ _ _ _ _ _ J)) as (Ek & _).
  destruct (take_value_ok h g L n l (cu_i cu) k v0 HI Hn En C1) as (T1 & T2 & T3 & T4); [rewrite <- C2; auto|rewrite <- C2; auto|rewrite <- C2, E3; auto|].
  set (h1 := hset h n (NLeaf (take (cu_i cu) l))) in *.
  destruct (finish_remove_tail h1 g L n l (cu_i cu) (cu_root cu) (key_prefix_string (cu_ka cu)) T1 Hn) as (h' & gc & d & g' & F1 & F2 & F3 & F4 & F5 & F6 & F7); [apply hset_same|apply T4, J|].
  exists h', gc, d, g'. split; [|split; [|split; [|split; [|split; [|split]]]]]; auto.
  - unfold finish_remove. fold n. rewrite (hleaf_some _ _ _ En). cbn [bind].
    replace (lf_perm match lf_mod l with MsInsert => lf_set_mod MsRemove l | _ => l end) with (lf_perm l) by (destruct (lf_mod l); auto). exact F1.
  - intros k' v'. rewrite F3. apply T2.
  - apply (hmv_comp _ _ _ _ _ _ _ _ _ (hmv_hset h g n l (take (cu_i cu) l) En) F7). intros b k0 b1 b2 _ _ ->. auto.
Qed.
