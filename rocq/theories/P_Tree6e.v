(* Insertion, part 5: pushing an entry with a suffix down into a new layer. *)
From Verif Require Import Lib Spec_String M_Key P_Key M_Permuter P_Permuter2 M_Search P_Search M_Tree P_Tree1 P_Tree2 P_Tree3 P_Tree4 P_Tree4b P_Tree6.

(* Slot p of the leaf becomes a pointer to layer a. *)
Record repoint (l : leafn) (p a : nat) (l' : leafn) : Prop := {
  rp_perm : lf_perm l' = lf_perm l; rp_next : lf_next l' = lf_next l; rp_prev : lf_prev l' = lf_prev l;
  rp_parent : lf_parent l' = lf_parent l; rp_root : lf_root l' = lf_root l; rp_del : lf_deleted l' = lf_deleted l;
  rp_mod : lf_mod l' = lf_mod l; rp_ik : forall s, lf_ikey l' s = lf_ikey l s;
  rp_klx : lf_klx l' p = 128; rp_lv : lf_lv l' p = LvLayer a;
  rp_other : forall s, s <> p -> slot_eq l s l' s
}.
(* A layer's only leaf, with the one key t. *)
Record single (l : leafn) (e : nat) (v : Z) (t : list Z) : Prop := {
  sg1_perm : perm_ok W (lf_perm l); sg1_size : perm_size (lf_perm l) = 1%nat; sg1_get : perm_get (lf_perm l) 0 = e;
  sg1_next : lf_next l = None; sg1_prev : lf_prev l = None; sg1_parent : lf_parent l = None; sg1_root : lf_root l = true;
  sg1_del : lf_deleted l = false; sg1_mod : lf_mod l <> MsDeletedLayer;
  sg1_ik : lf_ikey l e = slice_make_comparable t; sg1_klx : lf_klx l e = key_klx t; sg1_lv : lf_lv l e = LvVal v;
  sg1_suf : 8 < len t -> lf_ksuf l e = skipn 8 t
}.
Lemma single_live l e v t : single l e v t -> forall s, live_slot l s <-> s = e.
Proof.
  intros S s. unfold live_slot. rewrite (sg1_size _ _ _ _ S). split.
  - intros (j & Hj & <-). replace j with 0%nat by lia. apply S.
  - intros ->. exists 0%nat. split; [lia|]. apply S.
Qed.
Lemma slice_range t : bytes_ok t -> 0 <= slice_make_comparable t < U64.
Proof. rewrite U64_eq. apply slice_bound. Qed.

Section Push.
Context (h : heap) (g : ghost) (L n : nat) (l : leafn) (p : nat) (v : Z) (h' : heap) (l' nl : leafn) (e : nat).
Hypothesis HI : Inv h g.
Hypothesis Hn : g_lay g n = Some L.
Hypothesis En : hp_node h n = Some (NLeaf l).
Hypothesis Hp : live_slot l p.
Hypothesis Hk : lf_klx l p = 64.
Hypothesis Hv : lf_lv l p = LvVal v.
Let a := hp_next h.
Let t := lf_ksuf l p.
Let ik := lf_ikey l p.
Hypothesis X1 : hp_next h' = S a.
Hypothesis Xa : hp_node h' a = Some (NLeaf nl).
Hypothesis Xn : hp_node h' n = Some (NLeaf l').
Hypothesis Xo : forall m, m <> n -> m <> a -> hp_node h' m = hp_node h m.
Hypothesis RP : repoint l p a l'.
Hypothesis SG : single nl e v t.

Definition g_push : ghost :=
  MkG (upd (g_lay g) a (Some a)) (upd (g_lo g) a 0) (upd (g_hi g) a U64) (upd (g_root g) a a) (upd (g_pre g) a (g_pre g L ++ be_bytes 8 ik)) (g_dead g).
Let g' := g_push.

Lemma ps_lt m nd : hp_node h m = Some nd -> (m < a)%nat. Proof. intros E. apply (iv_heap _ _ HI m nd E). Qed.
Lemma ps_live m M : g_lay g m = Some M -> (m < a)%nat.
Proof. intros E. destruct (sl_node _ _ _ _ (iv_lay _ _ HI m M E) m E) as (nd & _ & A & _). exact (ps_lt m nd A). Qed.
Lemma ps_layer m M : g_lay g m = Some M -> (M < a)%nat.
Proof. intros E. apply (ps_live M M). exact (inv_layer h g HI m M E). Qed.
Lemma ps_none : hp_node h a = None. Proof. destruct (hp_node h a) eqn:E; auto. apply ps_lt in E. lia. Qed.
Lemma ps_lay m M : g_lay g' m = Some M <-> (m <> a /\ g_lay g m = Some M) \/ (m = a /\ M = a).
Proof.
  unfold g', g_push. cbn [g_lay]. destruct (Nat.eq_dec m a) as [->|N].
  - rewrite upd_same. split; [intros [= <-]; auto|]. intros [[H _]|[_ ->]]; [lia|auto].
  - rewrite upd_other by auto. split; auto. intros [[_ H]|[H _]]; [auto|lia].
Qed.
Lemma ps_lay_old m M : g_lay g m = Some M -> g_lay g' m = Some M.
Proof. intros E. apply ps_lay. left. split; auto. apply ps_live in E. lia. Qed.
Lemma ps_lo m M : g_lay g m = Some M -> g_lo g' m = g_lo g m /\ g_hi g' m = g_hi g m.
Proof. intros E. apply ps_live in E. unfold g', g_push; cbn [g_lo g_hi]. rewrite !upd_other by lia. auto. Qed.
Lemma ps_rt m M : g_lay g m = Some M -> g_root g' M = g_root g M /\ g_pre g' M = g_pre g M.
Proof. intros E. apply ps_layer in E. unfold g', g_push; cbn [g_root g_pre]. rewrite !upd_other by lia. auto. Qed.
Lemma ps_sim m nd : hp_node h m = Some nd -> exists nd', hp_node h' m = Some nd' /\ nsim nd nd'.
Proof.
  intros E. destruct (Nat.eq_dec m n) as [->|N].
  - exists (NLeaf l'). split; auto. assert (nd = NLeaf l) by congruence. subst. cbn. symmetry. apply RP.
  - exists nd. split; [|apply nsim_refl]. rewrite Xo; auto. apply ps_lt in E. lia.
Qed.
Lemma ps_leaf m lm : hp_node h m = Some (NLeaf lm) -> exists lm', hp_node h' m = Some (NLeaf lm') /\ lf_next lm' = lf_next lm /\ lf_prev lm' = lf_prev lm.
Proof.
  intros E. destruct (Nat.eq_dec m n) as [->|N].
  - exists l'. split; auto. assert (lm = l) by congruence. subst. split; apply RP.
  - exists lm. split; auto. rewrite Xo; auto. apply ps_lt in E. lia.
Qed.
Lemma ps_heap : heap_ok h'.
Proof.
  intros m nd E. rewrite X1. destruct (Nat.eq_dec m a) as [->|Na].
  - rewrite Xa in E. inversion E; subst. cbn. lia.
  - destruct (Nat.eq_dec m n) as [->|Nn].
    + rewrite Xn in E. inversion E; subst. apply ps_lt in En. cbn. lia.
    + rewrite Xo in E by auto. destruct (iv_heap _ _ HI m nd E). fold a in H, H0. lia.
Qed.
Lemma ps_lptr r M : lptr h g r M -> lptr h' g' r M.
Proof.
  intros (A & nr & B & C & D). split; [now apply ps_lay_old|]. destruct (ps_sim r nr B) as (nd' & E & S). exists nd'. split; auto.
  destruct (ps_rt r M A) as [-> _]. split.
  - destruct C; auto. right. rewrite <- (nsim_parent _ _ S). auto.
  - destruct D as [D|(i & ->)]; auto. right. apply nsim_inter_l in S. eauto.
Qed.
Lemma ps_dead m M : g_dead g m = Some M -> m <> a /\ M <> a /\ g_lay g M = Some M.
Proof.
  intros D. pose proof (iv_dead _ _ HI m M D) as LM. split; [|split; auto; apply ps_live in LM; lia].
  destruct (sl_dead _ _ _ _ (iv_lay _ _ HI M M LM) m D) as (_ & i & _ & _ & E & _). apply ps_lt in E. lia.
Qed.
Lemma ps_stale M m : stale h g M m -> stale h' g' M m.
Proof.
  intros [->|(i & E & D)]; [left; auto|right]. destruct (ps_sim m _ E) as (nd' & E' & S). apply nsim_inter_l in S. subst.
  exists i. split; auto. destruct D as [D|D]; [left; now apply ps_lay_old|right; exact D].
Qed.
Lemma ps_SL_old m M : g_lay g m = Some M -> SL h' g' (noexc g') M.
Proof.
  intros E. pose proof (ps_layer m M E) as LM. apply (SL_frame h g (noexc g) h' g' (noexc g') M (iv_lay _ _ HI m M E)).
  - intros m2 [H|H].
    + destruct (sl_node _ _ _ _ (iv_lay _ _ HI m2 M H) m2 H) as (nd & _ & A & _). destruct (ps_sim m2 nd A) as (nd' & B & C). eauto.
    + destruct (sl_dead _ _ _ _ (iv_lay _ _ HI m M E) m2 H) as (_ & i & _ & _ & A & _). destruct (ps_sim m2 _ A) as (nd' & B & C). eauto.
  - intros m2. split; [|apply ps_lay_old]. intros H. apply ps_lay in H. destruct H as [[_ H]|[_ H]]; [auto|lia].
  - intros m2 H. change (g_dead g m2 = Some M) in H. split; auto. destruct (ps_dead m2 M H) as (N & _ & _).
    unfold g', g_push. cbn [g_lay]. rewrite upd_other by auto. apply (sl_dead _ _ _ _ (iv_lay _ _ HI m M E) m2 H).
  - auto.
  - intros m2 H. destruct (ps_lo m2 M H) as [-> ->]. cbn [noexc x_lo x_hi x_in x_up x_fl]. destruct (ps_lo m2 M H) as [-> ->]. tauto.
  - apply (ps_rt m M E).
Qed.
Lemma ps_a : g_lay g' a = Some a /\ g_lo g' a = 0 /\ g_hi g' a = U64 /\ g_root g' a = a /\ g_pre g' a = g_pre g L ++ be_bytes 8 ik.
Proof. unfold g', g_push; cbn [g_lay g_lo g_hi g_root g_pre]. rewrite !upd_same. auto. Qed.
Lemma ps_SL_new : SL h' g' (noexc g') a.
Proof.
  destruct ps_a as (A1 & A2 & A3 & A4 & A5).
  assert (ONLY : forall m, g_lay g' m = Some a -> m = a).
  { intros m H. apply ps_lay in H. destruct H as [[_ H]|[H _]]; auto. apply ps_layer in H. lia. }
  constructor.
  - eauto.
  - rewrite A4. cbn [noexc x_lo x_hi]. repeat split; auto. exists (NLeaf nl). split; auto. apply SG.
  - intros m H. apply ONLY in H. subst m. rewrite A4. exists (NLeaf nl), (NLeaf nl). cbn [noexc x_lo x_hi]. rewrite A2, A3. pose proof U64_pos.
    repeat split; auto; lia.
  - intros q i H E. apply ONLY in H. subst q. congruence.
  - intros m nd H E N. apply ONLY in H. subst m. congruence.
  - intros m i H E. apply ONLY in H. subst m. congruence.
  - intros m D. change (g_dead g m = Some a) in D. destruct (ps_dead m a D) as (_ & N & _). lia.
Qed.
Lemma ps_t : t <> [] /\ bytes_ok t.
Proof.
  destruct (lo_slots _ _ _ _ _ (iv_leaf _ _ HI L n l Hn En) p Hp) as [[V|V] _].
  - destruct V as [_ [V|V]]; [rewrite Hk in V; lia|]. apply V.
  - destruct V as [V _]. rewrite Hk in V. lia.
Qed.
Lemma ps_slot_other M lm s lm' : slot_eq lm s lm' s -> (exists m, g_lay g m = Some M) -> slot_ok h g M lm s -> slot_ok h' g' M lm' s.
Proof.
  intros S (m & Hm) [V|(V & r & L' & V1 & V2 & V3)]; [left; eapply slot_eq_val; eauto|]. right. destruct S as (S1 & S2 & S3 & S4).
  split; [congruence|]. exists r, L'. split; [congruence|]. split; [now apply ps_lptr|]. destruct (ps_rt m M Hm) as [_ ->].
  destruct V2 as [V2 _]. destruct (ps_rt r L' V2) as [_ ->]. congruence.
Qed.
Lemma ps_live_l s : live_slot l' s <-> live_slot l s. Proof. unfold live_slot. rewrite (rp_perm _ _ _ _ RP). tauto. Qed.
Lemma ps_leaf_old M m lm lm' : g_lay g m = Some M -> hp_node h m = Some (NLeaf lm) -> hp_node h' m = Some (NLeaf lm') -> leaf_ok h' g' M m lm'.
Proof.
  intros H1 H2 H3. pose proof (iv_leaf _ _ HI M m lm H1 H2) as K. destruct (ps_lo m M H1) as [BL BH].
  assert (NBp : forall q, lf_prev lm' = Some q -> lf_prev lm = Some q -> g_lay g q = Some M /\ g_hi g q = g_lo g m /\
     (exists lq, hp_node h q = Some (NLeaf lq) /\ lf_next lq = Some m) -> g_lay g' q = Some M /\ g_hi g' q = g_lo g' m /\
     (exists lq, hp_node h' q = Some (NLeaf lq) /\ lf_next lq = Some m)).
  { intros q _ _ (A & B & lq & C & D). destruct (ps_leaf q lq C) as (lq' & C' & D' & _). split; [now apply ps_lay_old|]. destruct (ps_lo q M A) as [_ ->].
    split; [congruence|]. exists lq'. split; auto. congruence. }
  assert (NBn : forall q, lf_next lm' = Some q -> lf_next lm = Some q -> g_lay g q = Some M /\ g_hi g m = g_lo g q /\
     (exists lq, hp_node h q = Some (NLeaf lq) /\ lf_prev lq = Some m) -> g_lay g' q = Some M /\ g_hi g' m = g_lo g' q /\
     (exists lq, hp_node h' q = Some (NLeaf lq) /\ lf_prev lq = Some m)).
  { intros q _ _ (A & B & lq & C & D). destruct (ps_leaf q lq C) as (lq' & C' & _ & D'). split; [now apply ps_lay_old|]. destruct (ps_lo q M A) as [-> _].
    split; [congruence|]. exists lq'. split; auto. congruence. }
  destruct (ps_rt m M H1) as [RT _].
  destruct (Nat.eq_dec m n) as [->|N].
  - assert (lm = l) by congruence. subst lm. assert (lm' = l') by congruence. subst lm'. assert (M = L) by congruence. subst M.
    constructor; rewrite ?(rp_perm _ _ _ _ RP), ?(rp_del _ _ _ _ RP), ?(rp_mod _ _ _ _ RP), ?(rp_root _ _ _ _ RP), ?BL, ?BH, ?RT; try apply K.
    + intros i j Hij. rewrite !(rp_ik _ _ _ _ RP). pose proof (lo_sorted _ _ _ _ _ K i j Hij) as LT. unfold entry_lt in LT |- *. cbn [fst snd] in LT |- *.
      assert (CL : forall s, lenclass (lf_klx l' s) = lenclass (lf_klx l s)).
      { intros s. destruct (Nat.eq_dec s p) as [->|NP]; [rewrite (rp_klx _ _ _ _ RP), Hk; reflexivity|]. destruct (rp_other _ _ _ _ RP s NP) as (_ & E & _). congruence. }
      rewrite !CL. exact LT.
    + intros s Hs. apply ps_live_l in Hs. destruct (lo_slots _ _ _ _ _ K s Hs) as [V B]. rewrite (rp_ik _ _ _ _ RP). split; auto.
      destruct (Nat.eq_dec s p) as [->|NP].
      * right. split; [apply RP|]. exists a, a. destruct ps_a as (A1 & A2 & A3 & A4 & A5). split; [apply RP|]. split.
        -- split; auto. exists (NLeaf nl). rewrite A4. auto.
        -- rewrite A5, (rp_ik _ _ _ _ RP). destruct (ps_rt n L Hn) as [_ ->]. reflexivity.
      * eapply ps_slot_other; eauto. now apply RP.
    + pose proof (lo_prev _ _ _ _ _ K) as P. rewrite (rp_prev _ _ _ _ RP). destruct (lf_prev l) as [q|] eqn:Eq; auto.
      destruct P as (P1 & P2 & P3). split; auto. rewrite (rp_ik _ _ _ _ RP). split; auto. rewrite <- BL. apply NBp; auto. rewrite (rp_prev _ _ _ _ RP). auto.
    + pose proof (lo_next _ _ _ _ _ K) as P. rewrite (rp_next _ _ _ _ RP). destruct (lf_next l) as [q|] eqn:Eq; auto.
      rewrite <- BH. apply NBn; auto. rewrite (rp_next _ _ _ _ RP). auto.
  - assert (m <> a) by (apply ps_lt in H2; lia). rewrite Xo in H3 by auto. assert (lm' = lm) by congruence. subst lm'.
    constructor; rewrite ?BL, ?BH, ?RT; try apply K.
    + intros s Hs. destruct (lo_slots _ _ _ _ _ K s Hs) as [V B]. split; auto. eapply ps_slot_other; eauto using slot_eq_refl.
    + pose proof (lo_prev _ _ _ _ _ K) as P. destruct (lf_prev lm) as [q|] eqn:Eq; auto.
      destruct P as (P1 & P2 & P3). split; auto. split; auto. rewrite <- BL. apply NBp; auto.
    + pose proof (lo_next _ _ _ _ _ K) as P. destruct (lf_next lm) as [q|] eqn:Eq; auto. rewrite <- BH. apply NBn; auto.
Qed.
Lemma ps_new_entry : entry_str nl e = t /\ slot_val a nl e.
Proof.
  destruct ps_t as [T1 T2]. destruct (new_entry a nl e t T2) as [E V]; [intros _; exact T1|apply SG..|]. split; auto. eapply V. apply SG.
Qed.
Lemma push_inv : Inv h' g'.
Proof.
  destruct ps_a as (A1 & A2 & A3 & A4 & A5). destruct ps_t as [T1 T2].
  constructor.
  - apply ps_heap.
  - destruct (iv_l0 _ _ HI) as [B1 B2]. split; [now apply ps_lay_old|]. destruct (ps_rt _ _ B1) as [_ ->]. auto.
  - intros m M H. apply ps_lay in H. destruct H as [[_ H]|[_ ->]]; [eapply ps_SL_old; eauto|apply ps_SL_new].
  - intros M m lm H1 H2. apply ps_lay in H1. destruct H1 as [[N H1]|[-> ->]].
    + destruct (Nat.eq_dec m n) as [->|Nn].
      * assert (M = L) by congruence. subst. apply (ps_leaf_old L n l lm); auto.
      * apply (ps_leaf_old M m lm lm); auto. rewrite <- Xo; auto.
    + rewrite Xa in H2. inversion H2; subst lm. constructor; try apply SG.
      * intros i j Hij. rewrite (sg1_size _ _ _ _ SG) in Hij. lia.
      * intros s Hs. apply (single_live _ _ _ _ SG) in Hs. subst s. split; [left; apply ps_new_entry|]. rewrite A2, A3, (sg1_ik _ _ _ _ SG). now apply slice_range.
      * now rewrite (sg1_prev _ _ _ _ SG).
      * now rewrite (sg1_next _ _ _ _ SG).
      * intros _. rewrite A4, (sg1_root _ _ _ _ SG). tauto.
  - intros M H N. apply ps_lay in H. destruct H as [[_ H]|[_ ->]].
    + destruct (iv_owner _ _ HI M H N) as (L1 & n1 & l1 & s1 & r1 & O1 & O2 & O3 & O4 & O5 & O6).
      destruct (Nat.eq_dec n1 n) as [->|Nn].
      * assert (l1 = l) by congruence. subst l1. assert (L1 = L) by congruence. subst L1. assert (NP : s1 <> p) by congruence.
        destruct (rp_other _ _ _ _ RP s1 NP) as (_ & K1 & K2 & _).
        exists L, n, l', s1, r1. repeat split; auto using ps_lay_old; [now apply ps_live_l|congruence|congruence].
      * exists L1, n1, l1, s1, r1. repeat split; auto using ps_lay_old. rewrite Xo; auto. apply ps_lt in O2. lia.
    + exists L, n, l', p, a. repeat split; auto using ps_lay_old; [now apply ps_live_l|apply RP|apply RP].
  - intros M H. apply ps_lay in H. destruct H as [[_ H]|[_ ->]].
    + destruct (ps_rt _ _ H) as [_ ->]. now apply (iv_pre _ _ HI).
    + rewrite A5. apply bytes_ok_app; split; [apply (iv_pre _ _ HI), (inv_layer h g HI n L Hn)|apply be_bytes_ok].
  - intros m M D. change (g_dead g m = Some M) in D. destruct (ps_dead m M D) as (_ & _ & E). now apply ps_lay_old.
Qed.
Lemma push_holds k w : holds h' g' k w <-> holds h g k w.
Proof.
  destruct ps_a as (A1 & A2 & A3 & A4 & A5). destruct ps_new_entry as [NE NV].
  assert (EP : entry_str l p = be_bytes 8 ik ++ t).
  { unfold entry_str, ik, t. rewrite Hk. change (64 <=? 8) with false. change (64 =? 64) with true. reflexivity. }
  split.
  - intros (M & m & lm & s & H1 & H2 & H3 & H4 & H5 & H6). apply ps_lay in H1. destruct H1 as [[N H1]|[-> ->]].
    + destruct (ps_rt m M H1) as [_ EP']. rewrite EP' in H6. destruct (Nat.eq_dec m n) as [->|Nn].
      * assert (lm = l') by congruence. subst lm. assert (M = L) by congruence. subst M. assert (NP : s <> p) by (intros ->; apply H4, RP).
        pose proof (rp_other _ _ _ _ RP s NP) as S. exists L, n, l, s. rewrite <- (slot_eq_str _ _ _ _ S). destruct S as (S1 & S2 & S3 & S4).
        repeat split; auto; [now apply ps_live_l|congruence|congruence].
      * exists M, m, lm, s. repeat split; auto. rewrite <- Xo; auto.
    + assert (lm = nl) by congruence. subst lm. apply (single_live _ _ _ _ SG) in H3. subst s. rewrite NE, A5, <- app_assoc, <- EP in H6.
      exists L, n, l, p. repeat split; auto; [rewrite Hk; lia|]. rewrite (sg1_lv _ _ _ _ SG) in H5. congruence.
  - intros (M & m & lm & s & H1 & H2 & H3 & H4 & H5 & H6). destruct (ps_rt m M H1) as [_ EP']. destruct (Nat.eq_dec m n) as [->|Nn].
    + assert (lm = l) by congruence. subst lm. assert (M = L) by congruence. subst M. destruct (Nat.eq_dec s p) as [->|NP].
      * exists a, a, nl, e. repeat split; auto; [now apply (single_live _ _ _ _ SG)|apply (slot_val_klx _ _ _ NV)|rewrite (sg1_lv _ _ _ _ SG); congruence|].
        rewrite NE, A5, <- app_assoc, <- EP. auto.
      * pose proof (rp_other _ _ _ _ RP s NP) as S. exists L, n, l', s. rewrite (slot_eq_str _ _ _ _ S), EP'. destruct S as (S1 & S2 & S3 & S4).
        repeat split; auto using ps_lay_old; [now apply ps_live_l|congruence|congruence].
    + exists M, m, lm, s. rewrite EP'. repeat split; auto using ps_lay_old. rewrite Xo; auto. apply ps_lt in H2. lia.
Qed.
Lemma ps_hmv : hmv (fun b b' => b' = b \/ (b = n /\ b' = a)) h g h' g'.
Proof.
  intros k b' Hkb (M & s & lb & A1 & A2 & A3 & A4 & A5).
  pose proof (inv_layer h g HI n L Hn) as LL. destruct (lo_slots _ _ _ _ _ (iv_leaf _ _ HI L n l Hn En) p Hp) as [_ RNG].
  assert (PA : g_pre g' a = g_pre g L ++ be_bytes 8 ik) by (unfold g', g_push; cbn [g_pre]; apply upd_same).
  assert (OLD : forall X u, cand g k X u -> cand g' k X u).
  { intros X u (B1 & B2 & B3). split; [now apply ps_lay_old|]. destruct (ps_rt X X B1) as [_ ->]. auto. }
  apply ps_lay in A3. destruct A3 as [[Nb A3]|[-> ->]].
  - assert (Ma : M <> a) by (apply ps_layer in A3; lia). destruct A1 as (B1 & B2 & B3). apply ps_lay in B1. destruct B1 as [[_ B1]|[B1 _]]; [|contradiction].
    destruct (ps_rt M M B1) as [_ EP]. rewrite EP in B2. exists b'. split; [|auto]. destruct (ps_lo b' M A3) as [E1 E2]. rewrite E1, E2 in A5.
    assert (LF : exists l0, hp_node h b' = Some (NLeaf l0)) by (destruct (Nat.eq_dec b' n) as [->|N]; [eauto|]; rewrite Xo in A4 by auto; eauto). destruct LF as (l0 & LF).
    exists M, s, l0. split; [split; [|split]; auto|]. split; [|auto]. intros X u HX. apply (A2 X u), OLD, HX.
  - exists n. split; [|auto]. destruct A1 as (B1 & B2 & B3). rewrite PA in B2. rewrite <- app_assoc in B2.
    assert (Bs : bytes_ok s) by (rewrite B2 in Hkb; apply bytes_ok_app in Hkb; destruct Hkb as [_ Q]; apply bytes_ok_app in Q; tauto).
    assert (SK : slice_make_comparable (be_bytes 8 ik ++ s) = ik) by (apply slice_be8; auto; exact (inv_ikey h g HI L n l p Hn En Hp)).
    assert (C : cand g k L (be_bytes 8 ik ++ s)).
    { split; [auto|]. split; [auto|]. intros _ Q. apply app_eq_nil in Q. destruct Q as [Q _]. pose proof (be_bytes_length 8 ik) as Q2. rewrite Q in Q2. discriminate. }
    exists L, (be_bytes 8 ik ++ s), l. split; auto. split; [|split; [auto|split; [auto|rewrite SK; exact RNG]]].
    apply (deepest h g k L _ HI Hkb C). apply (slot_ends h g L _ n l p HI Hn En Hp); [now rewrite SK|rewrite Hk; reflexivity|lia].
Qed.
End Push.
