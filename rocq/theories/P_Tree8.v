(* Layer collection: collapsing a layer's root internodes, and removing a layer without entries. *)
From Verif Require Import Lib Spec_String M_Key P_Key M_Permuter P_Permuter2 M_Search P_Search M_Tree P_Tree1 P_Tree2 P_Tree3 P_Tree4 P_Tree4b P_Tree5 P_Tree6 P_Tree6c P_Tree7 P_Tree7d P_Tree7e.

Definition mlr (nd : node) : node :=
  match nd with NLeaf l => NLeaf (lf_set_root true (lf_set_parent None l)) | NInter i => NInter (in_set_root true (in_set_parent None i)) end.
Definition g_collapse (g : ghost) (L' R c : nat) : ghost :=
  MkG (upd (g_lay g) R None) (g_lo g) (g_hi g) (upd (g_root g) L' c) (g_pre g)
      (fun m => match g_dead g m with Some M => if (M =? L')%nat then None else Some M | None => None end).

Lemma path_first h y a b : path h y a b -> a = b \/ exists c, dstep h y a c /\ path h y c b.
Proof. intros P. inversion P; eauto. Qed.
Section Collapse.
Context (h : heap) (g : ghost) (L n : nat) (l : leafn) (p L' : nat) (i : inode) (c : nat).
Hypothesis HI : Inv h g.
Let R := g_root g L'.
Hypothesis Hown : owns h g L n l p R L'.
Hypothesis ER : hp_node h R = Some (NInter i).
Hypothesis Hnk : in_nkeys i = 0%nat.
Hypothesis Hc : in_child i 0%nat = Some c.
Context (nc : node).
Hypothesis Ec : hp_node h c = Some nc.
Let l' := lf_set_lv p (LvLayer c) l.
Let h' := hset (hset (hset h c (mlr nc)) n (NLeaf l')) R (NInter (in_set_parent (Some c) (in_set_root false i))).
Let g' := g_collapse g L' R c.

Lemma gcl_L' : g_lay g R = Some L' /\ g_lay g L' = Some L' /\ L' <> 0%nat /\ L <> L'.
Proof.
  pose proof Hown as (O1 & _ & _ & _ & _ & A). split; auto. pose proof (inv_layer h g HI R L' A) as B. split; auto. destruct (owns_pre h g HI _ _ _ _ _ _ Hown) as [P _].
  pose proof (be_bytes_length 8 (lf_ikey l p)) as F. split.
  - intros E. destruct (iv_l0 _ _ HI) as [_ Q]. rewrite E, Q in P. symmetry in P. apply app_eq_nil in P. destruct P as [_ P]. rewrite P in F. discriminate.
  - intros E. rewrite E in P. apply (f_equal (@length Z)) in P. rewrite app_length in P. lia.
Qed.
Let HS : SL h g (noexc g) L'. Proof. apply (iv_lay _ _ HI R L'). apply gcl_L'. Qed.
Lemma gcl_child : childof h g L' c nc R i 0.
Proof.
  destruct gcl_L' as (A & _). constructor; auto; [|lia]. destruct (sl_inter _ _ _ _ HS R i A ER (fun f => f)) as (_ & _ & Q). specialize (Q 0%nat ltac:(lia)). unfold child_ok in Q. rewrite Hc in Q. tauto.
Qed.
Lemma gcl_c : g_lay g c = Some L' /\ c <> R /\ c <> n /\ R <> n /\ g_lo g c = 0 /\ g_hi g c = U64 /\ n_parent nc = Some R /\ (ht nc < in_height i)%nat.
Proof.
  destruct gcl_L' as (A & B & _ & N). pose proof gcl_child as HC. destruct (nd_child HS HC) as (C1 & C2 & C3 & C4). pose proof (co_n _ _ _ _ _ _ _ _ HC) as D. pose proof Hown as (O1 & O2 & _).
  destruct (root_bounds h g L' HS) as [E F]. unfold bnd in C3, C4. rewrite Hnk in C4. cbn in C3, C4. split; auto. split; [exact (nd_np HS HC)|]. split; [congruence|]. split; [congruence|].
  split; [unfold R in *; lia|]. split; [unfold R in *; lia|]. auto.
Qed.
Lemma gcl_only k x : (k <= in_nkeys i)%nat -> in_child i k = Some x -> x = c.
Proof. intros A B. assert (k = 0%nat) by lia. subst k. congruence. Qed.
Lemma gcl_R' : hp_node h' R = Some (NInter (in_set_parent (Some c) (in_set_root false i))). Proof. apply hset_same. Qed.
Lemma gcl_n' : hp_node h' n = Some (NLeaf l').
Proof. destruct gcl_c as (_ & _ & _ & N & _). unfold h'. rewrite hset_other by auto. apply hset_same. Qed.
Lemma gcl_c' : hp_node h' c = Some (mlr nc).
Proof. destruct gcl_c as (_ & N1 & N2 & N & _). unfold h'. rewrite !hset_other by auto. apply hset_same. Qed.
Lemma gcl_o' m : m <> R -> m <> n -> m <> c -> hp_node h' m = hp_node h m.
Proof. intros. unfold h'. now rewrite !hset_other by auto. Qed.
Lemma gcl_ht m nd : hp_node h m = Some nd -> exists nd', hp_node h' m = Some nd' /\ ht nd' = ht nd /\ (m <> c -> m <> R -> n_parent nd' = n_parent nd) /\
  (m <> R -> forall x, nd = NInter x -> exists x', nd' = NInter x' /\ in_height x' = in_height x /\ in_nkeys x' = in_nkeys x /\ in_keys x' = in_keys x /\ in_child x' = in_child x /\ in_deleted x' = in_deleted x /\ (m <> c -> in_root x' = in_root x)).
Proof.
  intros E. destruct (Nat.eq_dec m R) as [->|N1]; [|destruct (Nat.eq_dec m n) as [->|N2]; [|destruct (Nat.eq_dec m c) as [->|N3]]].
  - rewrite ER in E. inversion E; subst nd. rewrite gcl_R'. eexists. split; [reflexivity|]. split; auto. split; [congruence|]. congruence.
  - destruct Hown as (_ & O2 & _). rewrite O2 in E. inversion E; subst nd. rewrite gcl_n'. eexists. split; [reflexivity|]. split; auto. split; [auto|discriminate].
  - rewrite Ec in E. inversion E; subst nd. rewrite gcl_c'. eexists. split; [reflexivity|]. split; [destruct nc; auto|]. split; [congruence|]. intros _ x ->. cbn [mlr]. eexists. split; [reflexivity|]. cbn. repeat split; auto. congruence.
  - rewrite gcl_o' by auto. exists nd. split; auto. split; auto. split; auto. intros _ x ->. eexists. split; [reflexivity|]. repeat split; auto.
Qed.
Lemma gcl_lay m M : g_lay g' m = Some M <-> g_lay g m = Some M /\ m <> R.
Proof. cbn [g' g_collapse g_lay]. destruct (Nat.eq_dec m R) as [->|N]; [rewrite upd_same; split; [discriminate|intros [_ []]; auto]|rewrite upd_other by auto; tauto]. Qed.
Lemma gcl_dead m M : g_dead g' m = Some M <-> g_dead g m = Some M /\ M <> L'.
Proof. exact (fg_dead g L' m M). Qed.
Lemma gcl_SL : SL h' g' (noexc g') L'.
Proof.
  destruct gcl_L' as (A & B & N0 & NL). destruct gcl_c as (C1 & C2 & C3 & C4 & C5 & C6 & C7 & C8). pose proof Hown as (O1 & O2 & _). pose proof gcl_child as HC.
  destruct (sl_first _ _ _ _ HS) as (_ & (fl & F2) & F3). assert (NR : L' <> R) by (intros E; rewrite E in F2 at 1; congruence).
  assert (RC : g_root g' L' = c) by apply upd_same.
  assert (RN : hp_node h' (g_root g' L') = Some (mlr nc)) by (rewrite RC; apply gcl_c').
  assert (ND : forall m, g_lay g' m = Some L' -> m <> n) by (intros m Hm ->; apply gcl_lay in Hm; destruct Hm; congruence).
  constructor.
  - split; [apply gcl_lay; auto|]. split; auto. destruct (gcl_ht L' _ F2) as (nd' & D1 & D2 & _). rewrite D1. destruct nd' as [l0|x]; [eauto|]. exfalso.
    destruct (Nat.eq_dec L' c) as [Q|Nc]; [rewrite Q, gcl_c' in D1; rewrite Q in F2; assert (Q2 : nc = NLeaf fl) by congruence; rewrite Q2 in D1; discriminate|]. rewrite gcl_o' in D1; congruence.
  - rewrite RC. split; [apply gcl_lay; auto|]. split; [exact C5|]. split; [exact C6|]. exists (mlr nc). split; [apply gcl_c'|]. destruct nc; reflexivity.
  - intros m Hm. pose proof Hm as Hm0. apply gcl_lay in Hm0. destruct Hm0 as [Hm0 NmR]. destruct (sl_node _ _ _ _ HS m Hm0) as (nd & nr & E1 & E2 & E3 & E4 & E5 & E6).
    destruct (gcl_ht m nd E1) as (nd' & D1 & D2 & _). exists nd', (mlr nc). split; auto. split; [exact RN|]. split; [|auto]. replace (ht (mlr nc)) with (ht nc) by (destruct nc; auto). rewrite D2.
    assert (PT : path h (g_lo g m) R m) by (apply (on_path h g (noexc g) L' HS); [apply clear_noexc|auto|lia]).
    destruct (path_first _ _ _ _ PT) as [Q|(x & ST & PT')]; [congruence|]. destruct ST as (i0 & k0 & S1 & S2 & S3). assert (i0 = i) by congruence. subst i0.
    assert (x = c). { destruct (dstep_live h g _ L' HS (g_lo g m) R x A (fun f => f)) as (i1 & ? & Q1 & Q2 & _).
      - destruct (root_bounds h g L' HS) as [Q1 Q2]. fold R in Q1, Q2. lia.
      - exists i, k0. auto.
      - apply (gcl_only k0); auto. destruct (in_upper_spec i (g_lo g m)) as (k1 & U1 & U2 & _); [intros u w ?; lia|]. assert (k1 = k0) by congruence. lia. }
    rewrite H in PT'. destruct (path_down h g L' HS (g_lo g m) c m C1) as (_ & _ & _ & _ & na & nb & P1 & P2 & P3 & _); [lia|auto|]. congruence.
  - intros q x Hq Eq _. pose proof Hq as Hq0. apply gcl_lay in Hq0. destruct Hq0 as [Hq0 NqR].
    destruct (sl_node _ _ _ _ HS q Hq0) as (nd & _ & E1 & _). destruct (gcl_ht q nd E1) as (nd' & D1 & D2 & D3 & D4). assert (nd' = NInter x) by congruence. subst nd'.
    destruct nd as [l0|x0]; [exfalso; destruct (Nat.eq_dec q c) as [Q|Nc]; [rewrite Q, gcl_c' in D1; rewrite Q in E1; assert (Q2 : nc = NLeaf l0) by congruence; rewrite Q2 in D1; discriminate|rewrite gcl_o' in D1; auto; congruence]|].
    destruct (D4 NqR x0 eq_refl) as (x' & T0 & T1 & T2 & T3 & T4 & T5 & _). inversion T0; subst x'. destruct (sl_inter _ _ _ _ HS q x0 Hq0 E1 (fun f => f)) as (I1 & I2 & I3).
    split; [congruence|]. split; [congruence|]. intros k Hk. rewrite T2 in Hk. specialize (I3 k Hk). unfold child_ok in *. rewrite T4.
    assert (BE : forall j, bnd g' q x j = bnd g q x0 j) by (intros j; unfold bnd; rewrite T2, T3; reflexivity).
    destruct (in_child x0 k) as [y|] eqn:EY; [|rewrite T2, T3; exact I3]. destruct I3 as (J1 & (ny & J2 & J3 & J4) & J5 & J6). cbn [noexc x_lo x_hi] in *. rewrite !BE.
    assert (Ny : y <> c). { intros ->. destruct (nd_only HS HC q x0 k Hq0 E1 Hk EY). contradiction. }
    assert (NyR : y <> R). { intros ->. destruct (sl_root _ _ _ _ HS) as (_ & _ & _ & nr & Q1 & Q2). fold R in Q1. congruence. }
    split; [apply gcl_lay; auto|]. split; [|auto]. destruct (gcl_ht y ny J2) as (ny' & Y1 & Y2 & Y3 & _). exists ny'. rewrite Y3, Y2, T1 by auto. auto.
  - intros m nd Hm Em Nm _. pose proof Hm as Hm0. apply gcl_lay in Hm0. destruct Hm0 as [Hm0 NmR]. rewrite RC in Nm. destruct (sl_node _ _ _ _ HS m Hm0) as (nd0 & _ & E1 & _).
    destruct (gcl_ht m nd0 E1) as (nd' & D1 & D2 & D3 & _). assert (nd' = nd) by congruence. subst nd'. destruct (linked_child h g L' m nd0 HS Hm0 E1 NmR) as (q & x & k & Q1 & Q2 & Q3 & Q4 & Q5).
    assert (NqR : q <> R). { intros ->. assert (x = i) by congruence. subst x. apply Nm. eapply gcl_only; eauto. }
    destruct (gcl_ht q _ Q3) as (x' & X1 & _ & _ & X2). destruct (X2 NqR x eq_refl) as (x'' & X3 & X4 & X5 & X6 & X7 & _). subst x'. exists q, x'', k. rewrite D3 by auto. rewrite X5, X7.
    repeat split; auto; [apply gcl_lay; auto].
  - intros m x Hm Em _. pose proof Hm as Hm0. apply gcl_lay in Hm0. destruct Hm0 as [Hm0 NmR]. rewrite RC. destruct (Nat.eq_dec m c) as [->|Nc].
    + rewrite gcl_c' in Em. destruct nc; inversion Em. cbn. tauto.
    + rewrite gcl_o' in Em; auto. split; [|contradiction]. intros Q. apply (sl_flag _ _ _ _ HS m x Hm0 Em (fun f => f)) in Q. contradiction.
  - intros m Hm. apply gcl_dead in Hm. tauto.
Qed.
Lemma gcl_sim m nd : g_lay g m <> Some L' -> hp_node h m = Some nd -> exists nd', hp_node h' m = Some nd' /\ nsim nd nd'.
Proof.
  destruct gcl_c as (C1 & _). destruct gcl_L' as (A & _). pose proof Hown as (_ & O2 & _). intros N E. destruct (Nat.eq_dec m n) as [->|N2].
  - exists (NLeaf l'). split; [apply gcl_n'|]. assert (nd = NLeaf l) by congruence. subst nd. cbn. auto.
  - exists nd. rewrite gcl_o' by congruence. auto using nsim_refl.
Qed.
Lemma gcl_SL_o m M : M <> L' -> g_lay g' m = Some M -> SL h' g' (noexc g') M.
Proof.
  intros N Hm. pose proof Hm as H0. apply gcl_lay in H0. destruct H0 as [H0 _]. pose proof (iv_lay _ _ HI m M H0) as HSM. destruct gcl_L' as (A & _).
  apply (SL_frame h g (noexc g) h' g' (noexc g') M HSM).
  - intros q [Hq|Hq].
    + destruct (sl_node _ _ _ _ HSM q Hq) as (nd & _ & B & _). destruct (gcl_sim q nd ltac:(congruence) B) as (nd' & C & D). eauto.
    + destruct (sl_dead _ _ _ _ HSM q Hq) as (D & x & _ & _ & B & _). destruct (gcl_sim q _ ltac:(congruence) B) as (nd' & C & F). eauto.
  - intros q. rewrite gcl_lay. split; [tauto|]. intros Q. split; auto. congruence.
  - intros q Hq. apply gcl_dead in Hq. split; [tauto|]. destruct (sl_dead _ _ _ _ HSM q (proj1 Hq)) as (D & _). destruct (g_lay g' q) eqn:F; auto. apply gcl_lay in F. destruct F; congruence.
  - intros q _ t Ht. apply gcl_dead. auto.
  - intros q Hq. cbn. tauto.
  - cbn [g' g_collapse g_root]. now rewrite upd_other.
Qed.
Lemma gcl_leaf m lm M : g_lay g m = Some M -> hp_node h m = Some (NLeaf lm) -> exists lm', g_lay g' m = Some M /\ hp_node h' m = Some (NLeaf lm') /\
  (m <> n -> lf_lv lm' = lf_lv lm) /\ (m = n -> lm = l /\ lf_lv lm' = upd (lf_lv l) p (LvLayer c)) /\
  lf_perm lm' = lf_perm lm /\ lf_deleted lm' = lf_deleted lm /\ lf_mod lm' = lf_mod lm /\ lf_ikey lm' = lf_ikey lm /\ lf_klx lm' = lf_klx lm /\ lf_ksuf lm' = lf_ksuf lm /\
  lf_prev lm' = lf_prev lm /\ lf_next lm' = lf_next lm /\ (m <> c -> lf_root lm' = lf_root lm) /\ (m = c -> lf_root lm' = true).
Proof.
  intros A B. destruct gcl_c as (C1 & C2 & C3 & C4 & _). pose proof Hown as (O1 & O2 & _). assert (NR : m <> R) by congruence. destruct (Nat.eq_dec m n) as [->|N2]; [|destruct (Nat.eq_dec m c) as [->|N3]].
  - assert (lm = l) by congruence. subst lm. exists l'. split; [now apply gcl_lay|]. split; [apply gcl_n'|]. cbn. repeat split; auto; congruence.
  - assert (Q : nc = NLeaf lm) by congruence. eexists. split; [now apply gcl_lay|]. split; [rewrite gcl_c', Q; reflexivity|]. cbn. repeat split; auto; congruence.
  - exists lm. split; [now apply gcl_lay|]. rewrite gcl_o' by auto. repeat split; auto; congruence.
Qed.
Lemma gcl_leaf_back m lm' M : g_lay g' m = Some M -> hp_node h' m = Some (NLeaf lm') -> g_lay g m = Some M /\ m <> R /\ exists lm, hp_node h m = Some (NLeaf lm).
Proof.
  intros A B. apply gcl_lay in A. destruct A as [A N]. split; auto. split; auto. destruct (sl_node _ _ _ _ (iv_lay _ _ HI m M A) m A) as (nd & _ & C & _). destruct nd as [lm|x]; [eauto|].
  destruct (gcl_ht m _ C) as (nd' & D1 & _ & _ & D2). destruct (D2 N x eq_refl) as (x' & D3 & _). congruence.
Qed.
Lemma gcl_slot M m lm lm' s : g_lay g m = Some M -> hp_node h m = Some (NLeaf lm) -> hp_node h' m = Some (NLeaf lm') -> (m = n -> s <> p) -> slot_eq lm s lm' s.
Proof.
  intros A B C D. destruct (gcl_leaf m lm M A B) as (lm1 & E1 & E2 & E3 & E4 & E5 & E6 & E7 & E8 & E9 & E10 & _). assert (lm1 = lm') by congruence. subst lm1.
  unfold slot_eq. rewrite E8, E9, E10. repeat split; auto. destruct (Nat.eq_dec m n) as [Q|Q]; [|now rewrite E3]. destruct (E4 Q) as [-> ->]. now rewrite upd_other by auto.
Qed.
Lemma gcl_lptr_c : lptr h' g' c L'.
Proof. pose proof (root_lptr h' g' L' gcl_SL) as Q. cbn [g' g_collapse g_root] in Q. rewrite upd_same in Q. exact Q. Qed.
Lemma gcl_lptr t M m lm s L2 : g_lay g m = Some M -> hp_node h m = Some (NLeaf lm) -> live_slot lm s -> (m = n -> s <> p) -> lf_klx lm s = 128 -> lf_lv lm s = LvLayer t -> lptr h g t L2 -> L2 <> L' /\ lptr h' g' t L2.
Proof.
  intros A B C D E F (G & nr & G1 & G2 & G3). assert (NL : L2 <> L').
  { intros ->. assert (O : owns h g M m lm s t L') by (repeat split; auto). destruct (owner_unique h g HI _ _ _ _ _ _ _ _ _ _ _ O Hown) as (_ & Q1 & _ & Q2 & _). exact (D Q1 Q2). }
  split; auto. destruct gcl_L' as (A' & _). split; [apply gcl_lay; split; auto; congruence|]. destruct (gcl_sim t nr ltac:(congruence) G1) as (nr' & I1 & I2). exists nr'. split; auto.
  rewrite <- (nsim_parent _ _ I2). cbn [g' g_collapse g_root]. rewrite upd_other by auto. split; auto. destruct G3 as [G3|(x & ->)]; auto. apply nsim_inter_l in I2. subst. right. eauto.
Qed.
Theorem collapse_inv : Inv h' g'.
Proof.
  destruct gcl_L' as (A & B & N0 & NL). destruct gcl_c as (C1 & C2 & C3 & C4 & C5 & C6 & C7 & C8). pose proof Hown as (O1 & O2 & O3 & O4 & O5 & O6).
  assert (NR0 : 0%nat <> R). { destruct (iv_l0 _ _ HI) as [Q _]. congruence. }
  constructor.
  - intros a nd E. change (hp_next h') with (hp_next h). assert (EX : exists nd0, hp_node h a = Some nd0 /\ ht nd0 = ht nd).
    { destruct (Nat.eq_dec a R) as [->|N1]; [|destruct (Nat.eq_dec a n) as [->|N2]; [|destruct (Nat.eq_dec a c) as [->|N3]]].
      - rewrite gcl_R' in E. inversion E. exists (NInter i). auto.
      - rewrite gcl_n' in E. inversion E. exists (NLeaf l). auto.
      - rewrite gcl_c' in E. inversion E. exists nc. split; auto. destruct nc; auto.
      - rewrite gcl_o' in E by auto. eauto. }
    destruct EX as (nd0 & E0 & <-). exact (iv_heap _ _ HI a nd0 E0).
  - destruct (iv_l0 _ _ HI). split; auto. apply gcl_lay. auto.
  - intros m M Hm. destruct (Nat.eq_dec M L') as [->|N]; [apply gcl_SL|exact (gcl_SL_o m M N Hm)].
  - intros M m lm' Hm Em. destruct (gcl_leaf_back m lm' M Hm Em) as (H0 & NmR & lm & E0). destruct (gcl_leaf m lm M H0 E0) as (lm1 & E1 & E2 & E3 & E4 & E5 & E6 & E7 & E8 & E9 & E10 & E11 & E12 & E13 & E14).
    assert (lm1 = lm') by congruence. subst lm1. destruct (iv_leaf _ _ HI M m lm H0 E0) as [K1 K2 K3 K4 K5 K6 K7 K8]. constructor; try congruence.
    + rewrite E5, E8, E9. auto.
    + intros s Hs. unfold live_slot in Hs. rewrite E5 in Hs. change (live_slot lm s) in Hs. destruct (K5 s Hs) as [V W]. rewrite E8. split; [|exact W].
      destruct (Nat.eq_dec m n) as [Q|Q]; [destruct (Nat.eq_dec s p) as [Q2|Q2]|].
      * destruct (E4 Q) as [-> LV']. subst m s. assert (M = L) by congruence. subst M. right. split; [now rewrite E9|]. exists c, L'. split; [rewrite LV'; apply upd_same|]. split; [apply gcl_lptr_c|].
        rewrite E8. apply (owns_pre h g HI _ _ _ _ _ _ Hown).
      * apply (slot_eq_ok' h g M lm s h' g'); auto; [apply (gcl_slot M m lm lm' s); auto|]. intros t L2 ? ? ?. eapply gcl_lptr; eauto.
      * apply (slot_eq_ok' h g M lm s h' g'); auto; [apply (gcl_slot M m lm lm' s); auto; contradiction|]. intros t L2 ? ? ?. eapply gcl_lptr; eauto; try contradiction.
    + rewrite E11. destruct (lf_prev lm) as [q|]; [|exact K6]. destruct K6 as (Y1 & Y2 & Y3 & Y4 & lq & Y5 & Y6). destruct (gcl_leaf q lq M Y3 Y5) as (lq' & Z1 & Z2 & _ & _ & _ & _ & _ & _ & _ & _ & _ & Z3 & _).
      rewrite E8. repeat split; auto. exists lq'. split; auto. congruence.
    + rewrite E12. destruct (lf_next lm) as [q|]; [|exact K7]. destruct K7 as (Y1 & Y2 & lq & Y5 & Y6). destruct (gcl_leaf q lq M Y1 Y5) as (lq' & Z1 & Z2 & _ & _ & _ & _ & _ & _ & _ & _ & Z3 & _).
      repeat split; auto. exists lq'. split; auto. congruence.
    + intros ->. cbn [g' g_collapse g_root]. destruct (Nat.eq_dec M L') as [->|NM].
      * rewrite upd_same. destruct (Nat.eq_dec L' c) as [Q|Nc]; [rewrite E14 by auto; split; auto|]. rewrite E13 by auto. rewrite (K8 eq_refl). fold R. split; intros Q; exfalso; congruence.
      * rewrite upd_other by auto. rewrite E13 by congruence. auto.
  - intros L2 HL2 NL2. apply gcl_lay in HL2. destruct HL2 as [HL2 NR2]. destruct (Nat.eq_dec L2 L') as [->|N].
    + exists L, n, l', p, c. repeat split; auto; [apply gcl_lay; split; auto|apply gcl_n'|apply upd_same|apply gcl_lay; auto].
    + destruct (iv_owner _ _ HI L2 HL2 NL2) as (M & m & lm & s & t & O). pose proof O as (P1 & P2 & P3 & P4 & P5 & P6).
      assert (SP : m = n -> s <> p). { intros -> ->. assert (lm = l) by congruence. subst lm. congruence. }
      destruct (gcl_leaf m lm M P1 P2) as (lm' & E1 & E2 & _ & _ & E5 & _). destruct (gcl_slot M m lm lm' s P1 P2 E2 SP) as (F1 & F2 & F3 & _). exists M, m, lm', s, t. repeat split; auto; try congruence.
      * unfold live_slot. now rewrite E5.
      * apply gcl_lay. split; auto. congruence.
  - intros M HM. apply gcl_lay in HM. apply (iv_pre _ _ HI M). tauto.
  - intros m M HM. apply gcl_dead in HM. destruct HM as [HM NM]. pose proof (iv_dead _ _ HI m M HM) as Q. apply gcl_lay. split; auto. intros ->. congruence.
Qed.
Theorem collapse_holds k v : holds h' g' k v <-> holds h g k v.
Proof.
  pose proof Hown as (O1 & O2 & O3 & O4 & O5 & O6). split.
  - intros (M & m & lm' & s & A & B & C & D & E & F). destruct (gcl_leaf_back m lm' M A B) as (H0 & NmR & lm & E0). destruct (gcl_leaf m lm M H0 E0) as (lm1 & E1 & E2 & E3 & E4 & E5 & _ & _ & E8 & E9 & _).
    assert (lm1 = lm') by congruence. subst lm1. assert (SP : m = n -> s <> p). { intros -> ->. assert (lm = l) by congruence. subst lm. congruence. }
    pose proof (gcl_slot M m lm lm' s H0 E0 B SP) as SE. pose proof SE as (F1 & F2 & F3 & _). exists M, m, lm, s. repeat split; auto; try congruence; [unfold live_slot in *; now rewrite <- E5|].
    rewrite <- (slot_eq_str _ _ _ _ SE). exact F.
  - intros (M & m & lm & s & A & B & C & D & E & F). destruct (gcl_leaf m lm M A B) as (lm' & E1 & E2 & E3 & E4 & E5 & _). assert (SP : m = n -> s <> p). { intros -> ->. assert (lm = l) by congruence. subst lm. congruence. }
    pose proof (gcl_slot M m lm lm' s A B E2 SP) as SE. pose proof SE as (F1 & F2 & F3 & _). exists M, m, lm', s. repeat split; auto; try congruence; [unfold live_slot in *; now rewrite E5|].
    rewrite (slot_eq_str _ _ _ _ SE). exact F.
Qed.
Theorem collapse_stale M m : M <> L' -> stale h g M m -> stale h' g' M m.
Proof.
  intros N [->|(x & D & B)]; [left; auto|right]. exists x. destruct gcl_L' as (A & _). assert (NL : g_lay g m <> Some L').
  { destruct B as [B|B]; [congruence|]. pose proof (iv_dead _ _ HI m M B) as Q. destruct (sl_dead _ _ _ _ (iv_lay _ _ HI M M Q) m B) as (F & _). congruence. }
  split.
  - destruct (gcl_sim m _ NL D) as (nd & C & F). apply nsim_inter_l in F. congruence.
  - destruct B as [B|B]; [left; apply gcl_lay; split; auto; congruence|right; now apply gcl_dead].
Qed.
Theorem collapse_at_root M : M <> L' -> at_root h g M -> at_root h' g' M.
Proof.
  intros N AR M' m lm' s t (P1 & P2 & P3 & P4 & P5 & P6). pose proof Hown as (O1 & O2 & O3 & O4 & O5 & O6). cbn [g' g_collapse g_root]. rewrite upd_other by auto.
  destruct (gcl_leaf_back m lm' M' P1 P2) as (H0 & NmR & lm & E0). destruct (gcl_leaf m lm M' H0 E0) as (lm1 & E1 & E2 & E3 & E4 & E5 & _ & _ & E8 & E9 & _). assert (lm1 = lm') by congruence. subst lm1.
  apply gcl_lay in P6. destruct P6 as [P6 NtR].
  assert (SP : m = n -> s <> p). { intros Q1 Q2. destruct (E4 Q1) as [_ Q]. rewrite Q, Q2, upd_same in P5. assert (t = c) by congruence. destruct gcl_c as (C1 & _). congruence. }
  destruct (gcl_slot M' m lm lm' s H0 E0 P2 SP) as (F1 & F2 & F3 & _). apply (AR M' m lm s t). repeat split; auto; try congruence. unfold live_slot in *. now rewrite <- E5.
Qed.
Theorem collapse_owns : owns h' g' L n l' p c L' /\ g_root g' L' = c.
Proof.
  pose proof Hown as (O1 & O2 & O3 & O4 & O5 & O6). destruct gcl_c as (C1 & C2 & C3 & C4 & _). split; [|apply upd_same].
  repeat split; auto; [apply gcl_lay; auto|apply gcl_n'|apply upd_same|apply gcl_lay; auto].
Qed.
Theorem collapse_hmv : hmv eq h g h' g'.
Proof.
  intros k b Hk (M & s & lb & A1 & A2 & A3 & A4 & A5). destruct (gcl_leaf_back b lb M A3 A4) as (H0 & NR & l0 & E0). exists b. split; [|auto].
  assert (CD : forall X t, cand g' k X t <-> cand g k X t).
  { intros X t. unfold cand. change (g_pre g') with (g_pre g). rewrite gcl_lay. split; intros (B1 & B2 & B3); split; auto; [tauto|]. split; auto. intros ->. destruct (sl_first _ _ _ _ (iv_lay _ _ HI R R B1)) as (_ & (f0 & F0) & _). congruence. }
  exists M, s, l0. split; [now apply CD|]. split; [intros X t HX; apply (A2 X t), CD, HX|]. auto.
Qed.
End Collapse.
