(* Removal, part 4: removing an empty leaf, and finish_remove. *)
From Verif Require Import Lib Spec_String M_Key P_Key M_Permuter P_Permuter2 M_Search P_Search M_Tree P_Tree1 P_Tree2 P_Tree3 P_Tree4 P_Tree4b P_Tree5 P_Tree6 P_Tree6c P_Tree7 P_Tree7b P_Tree7c.

(* Everything but the links. *)
Definition lsame (l l' : leafn) : Prop := lf_root l' = lf_root l /\ lf_deleted l' = lf_deleted l /\ lf_mod l' = lf_mod l /\ lf_perm l' = lf_perm l /\
  lf_klx l' = lf_klx l /\ lf_ikey l' = lf_ikey l /\ lf_lv l' = lf_lv l /\ lf_ksuf l' = lf_ksuf l.
Lemma lsame_slot l l' s : lsame l l' -> slot_eq l s l' s.
Proof. intros (_ & _ & _ & _ & A & B & C & D). unfold slot_eq. rewrite A, B, C, D. auto. Qed.
Lemma lsame_live l l' s : lsame l l' -> live_slot l' s <-> live_slot l s.
Proof. intros (_ & _ & _ & A & _). unfold live_slot. rewrite A. tauto. Qed.

Section RemoveLeaf.
Context (h : heap) (g : ghost) (L n : nat) (l : leafn) (pv : nat).
Hypothesis HI : Inv h g.
Hypothesis Hn : g_lay g n = Some L.
Hypothesis En : hp_node h n = Some (NLeaf l).
Hypothesis Hempty : perm_size (lf_perm l) = 0%nat.
Hypothesis AR : at_root h g L.
Hypothesis Hpv : lf_prev l = Some pv.

Lemma rl_self : n <> L /\ lf_ikey l 0%nat = g_lo g n /\ g_lay g pv = Some L /\ g_hi g pv = g_lo g n /\ exists lp, hp_node h pv = Some (NLeaf lp) /\ lf_next lp = Some n.
Proof. pose proof (lo_prev _ _ _ _ _ (iv_leaf _ _ HI L n l Hn En)) as P. now rewrite Hpv in P. Qed.
Lemma rl_bounds : 0 < g_lo g n < g_hi g n /\ g_hi g n <= U64.
Proof. destruct rl_self as (_ & _ & A & B & _). destruct (inv_bounds h g HI n L Hn). destruct (inv_bounds h g HI pv L A). lia. Qed.
Lemma rl_pvn : pv <> n.
Proof. destruct rl_self as (_ & _ & A & B & _). intros E. rewrite E in B. pose proof rl_bounds. lia. Qed.
Lemma rl_next x : lf_next l = Some x -> g_lay g x = Some L /\ g_hi g n = g_lo g x /\ x <> n /\ x <> pv /\ exists lx, hp_node h x = Some (NLeaf lx) /\ lf_prev lx = Some n.
Proof.
  intros E. pose proof (lo_next _ _ _ _ _ (iv_leaf _ _ HI L n l Hn En)) as P. rewrite E in P. destruct P as (A & B & C). split; auto. split; auto. pose proof rl_bounds.
  destruct rl_self as (_ & _ & _ & D & _). destruct (inv_bounds h g HI x L A). split; [intros ->; lia|]. split; [intros ->; lia|auto].
Qed.
(* Another live leaf does not start where n starts. *)
Lemma rl_lo m lm : g_lay g m = Some L -> hp_node h m = Some (NLeaf lm) -> m <> n -> g_lo g m <> g_lo g n.
Proof.
  intros A B N E. apply N. destruct (inv_bounds h g HI m L A). pose proof rl_bounds. apply (leaf_at h g HI L m n lm l (g_lo g n)); auto; lia.
Qed.

(* The state after marking and unlinking. *)
Let l1 := lf_set_root false (lf_set_deleted true l).
Let h1 := hset h n (NLeaf l1).
Lemma unlink_ok : exists h2, unlink h1 n = Ok h2 /\ hp_next h2 = hp_next h /\ hp_node h2 n = Some (NLeaf l1) /\
  (forall m i, hp_node h m = Some (NInter i) -> hp_node h2 m = Some (NInter i)) /\
  (forall m, g_lay g m <> Some L -> hp_node h2 m = hp_node h m) /\
  (forall m lm, m <> n -> hp_node h m = Some (NLeaf lm) -> exists lm', hp_node h2 m = Some (NLeaf lm') /\ lsame lm lm' /\ lf_parent lm' = lf_parent lm /\
     lf_next lm' = (if (m =? pv)%nat then lf_next l else lf_next lm) /\
     lf_prev lm' = (match lf_next l with Some x => if (m =? x)%nat then Some pv else lf_prev lm | None => lf_prev lm end)).
Proof.
  destruct rl_self as (A & B & C & D & lp & E & F). pose proof rl_pvn as NP.
  assert (E1 : hp_node h1 n = Some (NLeaf l1)) by apply hset_same. assert (E1o : forall m, m <> n -> hp_node h1 m = hp_node h m) by (intros; unfold h1; now rewrite hset_other).
  unfold unlink. rewrite (hleaf_some _ _ _ E1). cbn [bind]. change (lf_prev l1) with (lf_prev l). change (lf_next l1) with (lf_next l). rewrite Hpv. cbn [deref bind].
  assert (LI : forall m i, hp_node h m = Some (NInter i) -> m <> n /\ m <> pv /\ (forall x, lf_next l = Some x -> m <> x)).
  { intros m i Hm. repeat split; try congruence. intros x Ex ->. destruct (rl_next x Ex) as (_ & _ & _ & _ & lx & Q & _). congruence. }
  destruct (lf_next l) as [x|] eqn:EX.
  - destruct (rl_next x EX) as (X1 & X2 & X3 & X4 & lx & X5 & X6).
    assert (E1x : hp_node h1 x = Some (NLeaf lx)) by (rewrite E1o; auto). rewrite (hleaf_some _ _ _ E1x). cbn [bind].
    match goal with |- context[hleaf ?hh pv] => set (h1x := hh) end.
    assert (E1p : hp_node h1x pv = Some (NLeaf lp)) by (unfold h1x; rewrite hset_other by auto; rewrite E1o; auto). rewrite (hleaf_some _ _ _ E1p). cbn [bind].
    eexists. split; [reflexivity|]. split; [reflexivity|]. split; [rewrite hset_other by auto; unfold h1x; now rewrite hset_other by auto|].
    split; [|split].
    + intros m i Hm. destruct (LI m i Hm) as (N1 & N2 & N3). rewrite hset_other by auto. unfold h1x. rewrite hset_other by (apply N3; auto). rewrite E1o; auto.
    + intros m Hm. rewrite hset_other by congruence. unfold h1x. rewrite hset_other by congruence. apply E1o. congruence.
    + intros m lm Nm Em. destruct (Nat.eqb_spec m pv) as [->|N1].
      * assert (lm = lp) by congruence. subst lm. eexists. rewrite hset_same. split; [reflexivity|]. destruct (Nat.eqb_spec pv x) as [->|]; [congruence|]. cbn. repeat split; auto.
      * rewrite hset_other by auto. unfold h1x. destruct (Nat.eqb_spec m x) as [->|N2].
        -- assert (lm = lx) by congruence. subst lm. eexists. rewrite hset_same. split; [reflexivity|]. cbn. repeat split; auto.
        -- exists lm. rewrite hset_other by auto. rewrite E1o by auto. split; [auto|]. repeat split; auto.
  - assert (E1p : hp_node h1 pv = Some (NLeaf lp)) by (rewrite E1o; auto). cbn [bind]. rewrite (hleaf_some _ _ _ E1p). cbn [bind].
    eexists. split; [reflexivity|]. split; [reflexivity|]. split; [rewrite hset_other by auto; auto|]. split; [|split].
    + intros m i Hm. destruct (LI m i Hm) as (N1 & N2 & N3). rewrite hset_other by auto. rewrite E1o; auto.
    + intros m Hm. rewrite hset_other by congruence. apply E1o. congruence.
    + intros m lm Nm Em. destruct (Nat.eqb_spec m pv) as [->|N1].
      * assert (lm = lp) by congruence. subst lm. eexists. rewrite hset_same. split; [reflexivity|]. cbn. repeat split; auto.
      * exists lm. rewrite hset_other by auto. rewrite E1o by auto. split; [auto|]. repeat split; auto.
Qed.

Context (h2 h' : heap) (g1 : ghost).
Hypothesis U1 : hp_next h2 = hp_next h.
Hypothesis U2 : hp_node h2 n = Some (NLeaf l1).
Hypothesis U3 : forall m i, hp_node h m = Some (NInter i) -> hp_node h2 m = Some (NInter i).
Hypothesis U4 : forall m, g_lay g m <> Some L -> hp_node h2 m = hp_node h m.
Hypothesis U5 : forall m lm, m <> n -> hp_node h m = Some (NLeaf lm) -> exists lm', hp_node h2 m = Some (NLeaf lm') /\ lsame lm lm' /\ lf_parent lm' = lf_parent lm /\
     lf_next lm' = (if (m =? pv)%nat then lf_next l else lf_next lm) /\
     lf_prev lm' = (match lf_next l with Some x => if (m =? x)%nat then Some pv else lf_prev lm | None => lf_prev lm end).
Hypothesis S1 : SL h' g1 (noexc g1) L.
Hypothesis HE : hev h2 h' g L.
Hypothesis GE : gev h2 h' g g1 L (fun m => m = n).
Hypothesis Gn : g_lay g1 n = None.
Hypothesis Glo : forall m, g_lo g1 m = sig (g_lo g n) (g_hi g n) (g_lo g m).
Hypothesis Ghi : forall m, g_hi g1 m = sig (g_lo g n) (g_hi g n) (g_hi g m).
Let a := g_lo g n.
Let b := g_hi g n.
Definition inL (m : nat) : bool := match g_lay g m with Some M => (M =? L)%nat | None => false end.
Definition g_rem : ghost := MkG (g_lay g1) (fun m => if inL m then g_lo g1 m else g_lo g m) (fun m => if inL m then g_hi g1 m else g_hi g m) (g_root g) (g_pre g)
  (fun m => if (m =? n)%nat then g_dead g m else match g_lay g m, g_lay g1 m with Some M, None => Some M | _, _ => g_dead g m end).
Let g' := g_rem.

Lemma inL_iff m : inL m = true <-> g_lay g m = Some L.
Proof. unfold inL. destruct (g_lay g m) as [M|]; [|split; discriminate]. rewrite Nat.eqb_eq. split; congruence. Qed.
Lemma inL_no m : g_lay g m <> Some L -> inL m = false.
Proof. intros N. destruct (inL m) eqn:E; auto. apply inL_iff in E. contradiction. Qed.
Lemma rm_lo m : g_lay g m = Some L -> g_lo g' m = sig a b (g_lo g m) /\ g_hi g' m = sig a b (g_hi g m).
Proof. intros A. cbn [g' g_rem g_lo g_hi]. rewrite (proj2 (inL_iff m) A). rewrite Glo, Ghi. auto. Qed.
Lemma rm_lo_o m : g_lay g m <> Some L -> g_lo g' m = g_lo g m /\ g_hi g' m = g_hi g m.
Proof. intros A. cbn [g' g_rem g_lo g_hi]. rewrite (inL_no m A). auto. Qed.
Lemma rm_lay_o m M : M <> L -> g_lay g' m = Some M <-> g_lay g m = Some M.
Proof. intros N. cbn [g' g_rem g_lay]. destruct (ge_lay _ _ _ _ _ _ GE m) as [A|(A & B & _)]; [rewrite A; tauto|]. split; congruence. Qed.
Lemma rm_lay_back m M : g_lay g' m = Some M -> g_lay g m = Some M.
Proof. cbn [g' g_rem g_lay]. destruct (ge_lay _ _ _ _ _ _ GE m) as [A|(A & B & _)]; congruence. Qed.
Lemma rm_leaf_live m lm M : g_lay g m = Some M -> hp_node h m = Some (NLeaf lm) -> m <> n -> g_lay g' m = Some M.
Proof.
  intros A B N. cbn [g' g_rem g_lay]. destruct (ge_lay _ _ _ _ _ _ GE m) as [C|(C & D & [E|E])]; [congruence|congruence|]. exfalso.
  destruct E as (i & p & ip & E & _). destruct (U5 m lm N B) as (lm' & F & _). destruct (he_leaf _ _ _ _ HE m lm' F) as (q & G). congruence.
Qed.
Lemma rm_inter m i M : g_lay g m = Some M -> hp_node h m = Some (NInter i) -> g_lay g' m = Some M \/ g_dead g' m = Some M.
Proof.
  intros A B. assert (N : m <> n) by congruence. destruct (g_lay g' m) as [M'|] eqn:E; [left; apply rm_lay_back in E; congruence|right].
  cbn [g' g_rem g_dead]. destruct (Nat.eqb_spec m n); [contradiction|]. rewrite A. cbn [g' g_rem g_lay] in E. rewrite E. auto.
Qed.
Lemma rm_dead_old m M : g_dead g m = Some M -> g_dead g' m = Some M.
Proof.
  intros A. cbn [g' g_rem g_dead]. destruct (m =? n)%nat; auto. pose proof (iv_dead _ _ HI m M A) as B. destruct (sl_dead _ _ _ _ (iv_lay _ _ HI M M B) m A) as (-> & _). auto.
Qed.
(* leaves of the new heap *)
Lemma rm_leaf m lm : m <> n -> hp_node h m = Some (NLeaf lm) -> exists lm', hp_node h' m = Some (NLeaf lm') /\ lsame lm lm' /\
     lf_next lm' = (if (m =? pv)%nat then lf_next l else lf_next lm) /\
     lf_prev lm' = (match lf_next l with Some x => if (m =? x)%nat then Some pv else lf_prev lm | None => lf_prev lm end).
Proof.
  intros N E. destruct (U5 m lm N E) as (lm' & A & B & C & D & F). destruct (he_leaf _ _ _ _ HE m lm' A) as (q & G). eexists. split; [exact G|]. split; [exact B|]. auto.
Qed.
Lemma rm_other m : g_lay g m <> Some L -> hp_node h' m = hp_node h m.
Proof. intros N. rewrite (he_other _ _ _ _ HE m N). auto. Qed.
Lemma rm_inter' m i : hp_node h m = Some (NInter i) -> exists i', hp_node h' m = Some (NInter i') /\ in_height i' = in_height i.
Proof. intros E. apply (he_inter _ _ _ _ HE). auto. Qed.
Lemma rm_leaf_back m lm M : g_lay g' m = Some M -> hp_node h' m = Some (NLeaf lm) -> m <> n /\ g_lay g m = Some M /\ exists lm0, hp_node h m = Some (NLeaf lm0).
Proof.
  intros A B. assert (N : m <> n). { intros ->. cbn [g' g_rem g_lay] in A. congruence. }
  pose proof (rm_lay_back m M A) as C. split; auto. split; auto. destruct (sl_node _ _ _ _ (iv_lay _ _ HI m M C) m C) as (nd & _ & D & _).
  destruct nd as [l0|i]; [eauto|]. destruct (rm_inter' m i D) as (i' & F & _). congruence.
Qed.

Lemma rm_SL : SL h' g' (noexc g') L.
Proof.
  apply SL_undead.
  - apply (SL_frame h' g1 (noexc g1) h' (nodead g') (noexc (nodead g')) L S1).
    + intros m [Hm|Hm].
      * destruct (sl_node _ _ _ _ S1 m Hm) as (nd & _ & A & _). exists nd, nd. auto using nsim_refl.
      * destruct (sl_dead _ _ _ _ S1 m Hm) as (_ & i & _ & _ & A & _). exists (NInter i), (NInter i). auto using nsim_refl.
    + tauto.
    + intros m [=].
    + intros m [=].
    + intros m Hm. assert (G : g_lay g m = Some L) by (apply rm_lay_back; exact Hm). cbn [nodead g_lo g_hi g' g_rem noexc x_lo x_hi x_in x_up x_fl]. rewrite (proj2 (inL_iff m) G). tauto.
    + change (g_root (nodead g') L) with (g_root g L). now rewrite (ge_root _ _ _ _ _ _ GE).
  - intros m Hm. cbn [g' g_rem g_dead] in Hm. destruct (Nat.eqb_spec m n) as [E|N].
    { exfalso. rewrite E in Hm. destruct (sl_dead _ _ _ _ (iv_lay _ _ HI n L Hn) n Hm) as (A & _). congruence. }
    assert (Pq : forall p ip, g_lay g p = Some L -> hp_node h' p = Some (NInter ip) -> g_lay g' p = Some L \/ g_dead g' p = Some L).
    { intros p ip A B. destruct (sl_node _ _ _ _ (iv_lay _ _ HI p L A) p A) as (nd & _ & C & _). destruct nd as [l0|i]; [|eapply rm_inter; eauto].
      exfalso. destruct (Nat.eq_dec p n) as [->|Np].
      - destruct (he_leaf _ _ _ _ HE n _ U2) as (q & D). congruence.
      - destruct (rm_leaf p l0 Np C) as (l0' & D & _). congruence. }
    destruct (ge_lay _ _ _ _ _ _ GE m) as [A|(A & B & [C|C])]; [|contradiction|].
    + assert (Hd : g_dead g m = Some L).
      { rewrite A in Hm. destruct (g_lay g m); auto. }
      destruct (sl_dead _ _ _ _ (iv_lay _ _ HI n L Hn) m Hd) as (D & i & p & ip & D1 & D2 & D3 & D4 & D5 & D6).
      split; [cbn [g' g_rem g_lay]; congruence|]. destruct (rm_inter' p ip D4) as (ip' & E1 & E2).
      exists i, p, ip'. rewrite rm_other by congruence. repeat split; auto; [lia|]. destruct D6 as [D6|D6]; [eapply Pq; eauto|right; now apply rm_dead_old].
    + split; [exact B|]. destruct C as (i & p & ip & C1 & C2 & C3 & C4 & C5 & C6). exists i, p, ip. repeat split; auto. eapply Pq; eauto.
Qed.
Lemma rm_SL_o M m : M <> L -> g_lay g' m = Some M -> SL h' g' (noexc g') M.
Proof.
  intros N A. apply rm_lay_back in A. pose proof (iv_lay _ _ HI m M A) as HS.
  assert (NL : forall q, g_lay g q = Some M -> g_lay g q <> Some L) by congruence.
  apply (SL_frame h g (noexc g) h' g' (noexc g') M HS).
  - intros q [Hq|Hq].
    + destruct (sl_node _ _ _ _ HS q Hq) as (nd & _ & B & _). exists nd, nd. rewrite rm_other by auto. auto using nsim_refl.
    + destruct (sl_dead _ _ _ _ HS q Hq) as (D & i & _ & _ & B & _). exists (NInter i), (NInter i). rewrite rm_other by congruence. auto using nsim_refl.
  - intros q. now apply rm_lay_o.
  - intros q Hq. assert (D : g_dead g q = Some M).
    { cbn [g' g_rem g_dead] in Hq. destruct (Nat.eqb_spec q n); auto. destruct (ge_lay _ _ _ _ _ _ GE q) as [B|(B & C & _)].
      - rewrite B in Hq. destruct (g_lay g q); auto.
      - rewrite B, C in Hq. congruence. }
    split; auto. destruct (sl_dead _ _ _ _ HS q D) as (E & _). destruct (g_lay g' q) eqn:F; auto. apply rm_lay_back in F. congruence.
  - intros q _ p Hp. now apply rm_dead_old.
  - intros q Hq. destruct (rm_lo_o q (NL q Hq)) as [-> ->]. cbn [noexc x_lo x_hi x_in x_up x_fl]. destruct (rm_lo_o q (NL q Hq)) as [-> ->]. tauto.
  - reflexivity.
Qed.
Lemma rm_lptr t L' : lptr h g t L' -> (L' = L -> t = g_root g L) -> lptr h' g' t L'.
Proof.
  intros (A & nr & B & C & D) HR. destruct (Nat.eq_dec L' L) as [->|N].
  - rewrite (HR eq_refl). exact (root_lptr h' g' L rm_SL).
  - split; [now apply rm_lay_o|]. exists nr. rewrite rm_other by congruence. auto.
Qed.
Lemma rm_slot M m lm s l' s' : g_lay g m = Some M -> hp_node h m = Some (NLeaf lm) -> live_slot lm s -> slot_eq lm s l' s' -> slot_ok h' g' M l' s'.
Proof.
  intros A B C D. apply (slot_eq_ok' h g M lm s); auto.
  - intros t L' E1 E2 E3. apply rm_lptr; auto. intros ->. apply (AR M m lm s). destruct E3 as [F _]. repeat split; auto.
  - apply (lo_slots _ _ _ _ _ (iv_leaf _ _ HI M m lm A B)). auto.
Qed.
Lemma rm_leaf_ok M m lm : g_lay g' m = Some M -> hp_node h' m = Some (NLeaf lm) -> leaf_ok h' g' M m lm.
Proof.
  intros Hm Em. destruct (rm_leaf_back m lm M Hm Em) as (N & A & lm0 & E0). destruct (rm_leaf m lm0 N E0) as (lm' & E1 & SM & NX & PV).
  assert (lm' = lm) by congruence. subst lm'. pose proof (iv_leaf _ _ HI M m lm0 A E0) as [K1 K2 K3 K4 K5 K6 K7 K8].
  destruct rl_self as (NL & _ & Lpv & Hpv2 & lp & Elp & Nlp). pose proof rl_bounds as AB. fold a b in AB.
  pose proof SM as (M1 & M2 & M3 & M4 & M5 & M6 & M7 & M8).
  assert (NXT : forall x, lf_next l = Some x -> g_lay g x = Some L /\ b = g_lo g x /\ x <> n /\ x <> pv /\ exists lx, hp_node h x = Some (NLeaf lx) /\ lf_prev lx = Some n) by exact rl_next.
  constructor; try congruence.
  - rewrite M4, M6, M5. auto.
  - intros s Hs. apply (lsame_live _ _ s SM) in Hs. split; [apply (rm_slot M m lm0 s); auto using lsame_slot|]. rewrite M6. destruct (K5 s Hs) as [_ B].
    destruct (Nat.eq_dec M L) as [->|NM].
    + destruct (rm_lo m A) as [-> ->]. rewrite (sig_ne a b (g_lo g m)) by (apply (rl_lo m lm0); auto). unfold sig. destruct (Z.eqb_spec (g_hi g m) a); lia.
    + destruct (rm_lo_o m ltac:(congruence)) as [-> ->]. auto.
  - (* prev *) destruct (Nat.eq_dec M L) as [->|NM].
    + assert (CASE1 : lf_next l = Some m -> lf_prev lm = Some pv) by (intros Q; rewrite PV, Q; now rewrite Nat.eqb_refl).
      assert (CASE2 : lf_next l <> Some m -> lf_prev lm = lf_prev lm0).
      { intros Q. rewrite PV. case_eq (lf_next l); [intros x EX|auto]. destruct (Nat.eqb_spec m x) as [E|]; [exfalso; apply Q; rewrite E; exact EX|auto]. }
      destruct (rm_lo m A) as [LO _]. rewrite (sig_ne a b (g_lo g m)) in LO by (apply (rl_lo m lm0); auto).
      assert (DEC : lf_next l = Some m \/ lf_next l <> Some m) by (case_eq (lf_next l); [intros x EX; destruct (Nat.eq_dec x m) as [E|NE]; [left; now rewrite E|right; intros Q; inversion Q; contradiction]|intros _; right; discriminate]).
      destruct DEC as [Q|Q].
      * rewrite (CASE1 Q). destruct (NXT m Q) as (X1 & X2 & X3 & X4 & lx & X5 & X6). assert (lx = lm0) by congruence. subst lx. rewrite X6 in K6. destruct K6 as (Y1 & Y2 & _).
        split; auto. rewrite M6, LO. split; auto. split; [eapply rm_leaf_live; eauto; apply rl_pvn|]. split.
        { destruct (rm_lo pv Lpv) as [_ ->]. rewrite Hpv2. fold a. rewrite sig_eq. auto. }
        destruct (rm_leaf pv lp rl_pvn Elp) as (lp' & P1 & _ & P2 & _). exists lp'. split; auto. rewrite P2, Nat.eqb_refl. auto.
      * rewrite (CASE2 Q). destruct (lf_prev lm0) as [q|]; [|exact K6]. destruct K6 as (Y1 & Y2 & Y3 & Y4 & lq & Y5 & Y6).
        assert (Nq : q <> n) by (intros ->; congruence). split; auto. rewrite M6, LO. split; auto. split; [eapply rm_leaf_live; eauto|]. split.
        { destruct (rm_lo q Y3) as [_ ->]. rewrite Y4. apply sig_ne. apply (rl_lo m lm0); auto. }
        destruct (rm_leaf q lq Nq Y5) as (lq' & P1 & _ & P2 & _). exists lq'. split; auto. rewrite P2. destruct (Nat.eqb_spec q pv) as [->|]; auto. exfalso. apply N. congruence.
    + assert (EQ : lf_prev lm = lf_prev lm0).
      { rewrite PV. case_eq (lf_next l); [intros x EX|auto]. destruct (Nat.eqb_spec m x) as [->|]; auto. destruct (NXT x EX) as (X1 & _). congruence. }
      rewrite EQ. destruct (rm_lo_o m ltac:(congruence)) as [LO HI0]. destruct (lf_prev lm0) as [q|]; [|exact K6]. destruct K6 as (Y1 & Y2 & Y3 & Y4 & lq & Y5 & Y6).
      assert (Nq : q <> n) by congruence. split; auto. rewrite M6, LO. split; auto. split; [eapply rm_leaf_live; eauto|]. split; [destruct (rm_lo_o q ltac:(congruence)) as [_ ->]; auto|].
      destruct (rm_leaf q lq Nq Y5) as (lq' & P1 & _ & P2 & _). exists lq'. split; auto. rewrite P2. destruct (Nat.eqb_spec q pv) as [->|]; auto. exfalso. congruence.
  - (* next *) rewrite NX. destruct (Nat.eq_dec M L) as [->|NM].
    + destruct (rm_lo m A) as [_ HI']. destruct (Nat.eqb_spec m pv) as [->|Np].
      * rewrite Hpv2 in HI'. fold a in HI'. rewrite sig_eq in HI'. case_eq (lf_next l); [intros x EX|intros EX].
        -- destruct (NXT x EX) as (X1 & X2 & X3 & X4 & lx & X5 & X6). split; [eapply rm_leaf_live; eauto|]. split.
           { rewrite HI'. destruct (rm_lo x X1) as [-> _]. rewrite sig_ne by (apply (rl_lo x lx); auto). auto. }
           destruct (rm_leaf x lx X3 X5) as (lx' & P1 & _ & _ & P2). exists lx'. split; auto. rewrite P2, EX. now rewrite Nat.eqb_refl.
        -- rewrite HI'. pose proof (lo_next _ _ _ _ _ (iv_leaf _ _ HI L n l Hn En)) as Q. rewrite EX in Q. auto.
      * destruct (lf_next lm0) as [q|].
        -- destruct K7 as (Y1 & Y2 & lq & Y3 & Y4). assert (Nq : q <> n). { intros ->. assert (lq = l) by congruence. subst lq. congruence. }
           split; [eapply rm_leaf_live; eauto|]. split.
           { rewrite HI'. destruct (rm_lo q Y1) as [-> _]. now rewrite Y2. }
           destruct (rm_leaf q lq Nq Y3) as (lq' & P1 & _ & _ & P2). exists lq'. split; auto. rewrite P2. case_eq (lf_next l); [intros x EX|auto]. destruct (Nat.eqb_spec q x) as [->|]; auto.
           exfalso. destruct (NXT x EX) as (_ & _ & _ & _ & lx & X5 & X6). congruence.
        -- rewrite HI', K7. apply sig_ne. lia.
    + assert (Np : m <> pv) by congruence. destruct (Nat.eqb_spec m pv); [contradiction|]. destruct (rm_lo_o m ltac:(congruence)) as [_ ->]. destruct (lf_next lm0) as [q|]; [|auto].
      destruct K7 as (Y1 & Y2 & lq & Y3 & Y4). assert (Nq : q <> n) by congruence. split; [eapply rm_leaf_live; eauto|]. split; [destruct (rm_lo_o q ltac:(congruence)) as [-> _]; auto|].
      destruct (rm_leaf q lq Nq Y3) as (lq' & P1 & _ & _ & P2). exists lq'. split; auto. rewrite P2. case_eq (lf_next l); [intros x EX|auto]. destruct (Nat.eqb_spec q x) as [->|]; auto.
      exfalso. destruct (NXT x EX) as (X1 & _). congruence.
  - rewrite M1. exact K8.
Qed.
Theorem rm_inv : Inv h' g'.
Proof.
  destruct rl_self as (NL & _). pose proof (inv_layer h g HI n L Hn) as LL. destruct (sl_first _ _ _ _ (iv_lay _ _ HI n L Hn)) as (_ & (fl & F2) & _).
  assert (N0 : n <> 0%nat). { intros E. apply NL. destruct (iv_l0 _ _ HI) as [B _]. rewrite <- E in B. congruence. }
  constructor.
  - intros m nd E. rewrite (he_next _ _ _ _ HE), U1. destruct (inL m) eqn:IL.
    + apply inL_iff in IL. destruct (sl_node _ _ _ _ (iv_lay _ _ HI m L IL) m IL) as (nd0 & _ & A & _). destruct (iv_heap _ _ HI m nd0 A) as [B C]. split; auto.
      destruct nd0 as [l0|i0].
      * destruct (Nat.eq_dec m n) as [->|N]; [destruct (he_leaf _ _ _ _ HE n _ U2) as (q & D)|destruct (rm_leaf m l0 N A) as (l0' & D & _)]; rewrite D in E; inversion E; subst nd; cbn [ht] in *; auto.
      * destruct (rm_inter' m i0 A) as (i' & D & F). rewrite D in E. inversion E; subst nd. cbn [ht] in *. lia.
    + rewrite rm_other in E; [exact (iv_heap _ _ HI m nd E)|]. intros Q. apply inL_iff in Q. congruence.
  - destruct (iv_l0 _ _ HI) as [B C]. split; [|exact C]. destruct (sl_first _ _ _ _ (iv_lay _ _ HI 0%nat 0%nat B)) as (_ & (f0 & F0) & _). eapply rm_leaf_live; eauto.
  - intros m M Hm. destruct (Nat.eq_dec M L) as [->|N]; [exact rm_SL|exact (rm_SL_o M m N Hm)].
  - intros M m lm Hm Em. apply rm_leaf_ok; auto.
  - intros L' HL' NL'. apply rm_lay_back in HL'. destruct (iv_owner _ _ HI L' HL' NL') as (M & m & lm & s & r & O). pose proof O as (O1 & O2 & O3 & O4 & O5 & O6).
    assert (Nm : m <> n). { intros ->. assert (lm = l) by congruence. subst lm. destruct O3 as (j & Hj & _). lia. }
    destruct (rm_leaf m lm Nm O2) as (lm' & P1 & P2 & _). pose proof P2 as (_ & _ & _ & _ & Q1 & Q2 & Q3 & _). exists M, m, lm', s, r. repeat split; auto.
    + eapply rm_leaf_live; eauto.
    + now apply (lsame_live _ _ s P2).
    + congruence.
    + congruence.
    + destruct (Nat.eq_dec L' L) as [->|N]; [|now apply rm_lay_o]. rewrite (AR _ _ _ _ _ O). apply (sl_root _ _ _ _ rm_SL).
  - intros M HM. apply rm_lay_back in HM. exact (iv_pre _ _ HI M HM).
  - intros m M HM. cbn [g' g_rem g_dead] in HM.
    assert (OLD : g_dead g m = Some M -> g_lay g' M = Some M).
    { intros Q. pose proof (iv_dead _ _ HI m M Q) as B. destruct (sl_first _ _ _ _ (iv_lay _ _ HI M M B)) as (_ & (f0 & F0) & _). eapply rm_leaf_live; eauto. intros ->. congruence. }
    destruct (m =? n)%nat; [auto|]. destruct (g_lay g m) as [M2|] eqn:GM; [|auto]. destruct (g_lay g1 m) eqn:G1; [auto|].
    assert (M2 = M) by congruence. subst M2. destruct (ge_lay _ _ _ _ _ _ GE m) as [B|(B & _)]; [congruence|]. assert (M = L) by congruence. subst M. eapply rm_leaf_live; eauto.
Qed.
Theorem rm_holds k v : holds h' g' k v <-> holds h g k v.
Proof.
  split.
  - intros (M & m & lm & s & H1 & H2 & H3 & H4 & H5 & H6). destruct (rm_leaf_back m lm M H1 H2) as (N & A & lm0 & E0). destruct (rm_leaf m lm0 N E0) as (lm' & E1 & SM & _).
    assert (lm' = lm) by congruence. subst lm'. pose proof (lsame_slot _ _ s SM) as SE. pose proof SM as (_ & _ & _ & _ & Q1 & Q2 & Q3 & _).
    exists M, m, lm0, s. repeat split; auto; [now apply (lsame_live _ _ s SM)|congruence|congruence|]. rewrite <- (slot_eq_str _ _ _ _ SE). exact H6.
  - intros (M & m & lm & s & H1 & H2 & H3 & H4 & H5 & H6). assert (N : m <> n). { intros ->. assert (lm = l) by congruence. subst lm. destruct H3 as (j & Hj & _). lia. }
    destruct (rm_leaf m lm N H2) as (lm' & E1 & SM & _). pose proof (lsame_slot _ _ s SM) as SE. pose proof SM as (_ & _ & _ & _ & Q1 & Q2 & Q3 & _).
    exists M, m, lm', s. repeat split; auto; [eapply rm_leaf_live; eauto|now apply (lsame_live _ _ s SM)|congruence|congruence|]. rewrite (slot_eq_str _ _ _ _ SE). exact H6.
Qed.
Theorem rm_stale M m : stale h g M m -> stale h' g' M m.
Proof.
  intros [->|(i & A & B)]; [left; auto|right]. destruct (rm_inter' m i A) as (i' & C & _). exists i'. split; auto. destruct B as [B|B]; [eapply rm_inter; eauto|right; now apply rm_dead_old].
Qed.
Theorem rm_hmv : hmv (fun c c' => c' = c \/ (c = n /\ c' = pv)) h g h' g'.
Proof.
  intros k c Hk (M & s & lb & A1 & A2 & A3 & A4 & A5). destruct rl_self as (NL & _ & P1 & P2 & lp & P3 & _).
  destruct (rm_leaf_back c lb M A3 A4) as (Nc & C1 & lc & C2).
  assert (CD : forall X t, cand g' k X t <-> cand g k X t).
  { intros X t. unfold cand. change (g_pre g') with (g_pre g). split; intros (B1 & B2 & B3); split; auto; [now apply rm_lay_back|].
    destruct (sl_first _ _ _ _ (iv_lay _ _ HI X X B1)) as (_ & (f0 & F0) & _). eapply rm_leaf_live; eauto. intros ->. congruence. }
  assert (HM : forall d ld, g_lay g d = Some M -> hp_node h d = Some (NLeaf ld) -> g_lo g d <= slice_make_comparable s < g_hi g d -> home h g k d).
  { intros d ld D1 D2 D3. exists M, s, ld. split; [now apply CD|]. split; [intros X t HX; apply (A2 X t), CD, HX|]. auto. }
  destruct (Nat.eq_dec M L) as [->|NM].
  - destruct (rm_lo c C1) as [E1 E2]. rewrite E1, E2 in A5. rewrite sig_ne in A5 by (exact (rl_lo c lc C1 C2 Nc)).
    destruct (Z.eq_dec (g_hi g c) a) as [Eh|Eh].
    + rewrite Eh, sig_eq in A5. destruct (Z_lt_le_dec (slice_make_comparable s) (g_hi g c)) as [Q|Q].
      * exists c. split; [|auto]. apply (HM c lc); auto. lia.
      * exists n. split; [apply (HM n l); auto; unfold a, b in *; lia|]. right. split; auto. destruct (inv_bounds h g HI c L C1). destruct (inv_bounds h g HI pv L P1). fold a in P2.
        apply (leaf_at h g HI L c pv lc lp (a - 1)); auto; lia.
    + rewrite sig_ne in A5 by auto. exists c. split; [|auto]. apply (HM c lc); auto.
  - destruct (rm_lo_o c ltac:(congruence)) as [E1 E2]. rewrite E1, E2 in A5. exists c. split; [|auto]. apply (HM c lc); auto.
Qed.
End RemoveLeaf.

(* No layer appears and prefixes stay. *)
Definition lold (g g' : ghost) : Prop := (forall m M, g_lay g' m = Some M -> g_lay g m = Some M) /\ g_pre g' = g_pre g.
Lemma lold_refl g : lold g g. Proof. split; auto. Qed.
Lemma lold_trans g1 g2 g3 : lold g1 g2 -> lold g2 g3 -> lold g1 g3.
Proof. intros [A B] [C D]. split; [auto|congruence]. Qed.

(* The keys of a removed leaf go to its predecessor. *)
Definition pour (n : nat) (o : option nat) (c c' : nat) : Prop := c' = c \/ (c = n /\ o = Some c').
(* tcursor::remove_leaf on a leaf without entries. *)
Theorem remove_leaf_ok h g L n l root prefix : Inv h g -> g_lay g n = Some L -> hp_node h n = Some (NLeaf l) -> perm_size (lf_perm l) = 0%nat -> at_root h g L ->
  exists h' gc d g', remove_leaf h n root prefix = Ok (h', gc, d) /\ Inv h' g' /\ (forall k v, holds h' g' k v <-> holds h g k v) /\
    (forall M m, stale h g M m -> stale h' g' M m) /\ (forall it, In it gc -> it = (root, prefix) /\ prefix <> []) /\ lold g g' /\ hmv (pour n (lf_prev l)) h g h' g'.
Proof.
  intros HI Hn En Hempty AR. unfold remove_leaf. rewrite (hleaf_some _ _ _ En). cbn [bind]. destruct (lf_prev l) as [pv|] eqn:Hpv.
  - destruct (unlink_ok h g L n l pv HI Hn En Hempty Hpv) as (h2 & A1 & A2 & A3 & A4 & A5 & A6). rewrite A1. cbn [bind].
    destruct (rl_self h g L n l pv HI Hn En Hpv) as (_ & IK & _). rewrite IK.
    pose proof (iv_lay _ _ HI n L Hn) as HS. destruct (sl_root _ _ _ _ HS) as (R1 & _ & _ & nr & R2 & _). pose proof (rl_bounds h g L n l pv HI Hn En Hempty Hpv) as AB.
    destruct (phase1_ok (hfuel h2) h2 h g L n l (NLeaf (lf_set_root false (lf_set_deleted true l))) nr (fun m => m = n)) as (h' & g1 & B1 & B2 & B3 & B4 & B5 & B6 & B7); auto; try lia.
    + intros m nd Hm Nm Em. destruct nd as [l0|i].
      * destruct (A6 m l0 Nm Em) as (l0' & C1 & _ & C2 & _). exists (NLeaf l0'). split; auto.
      * exists (NInter i). split; auto. cbn. apply ksame_id.
    + intros q iq E1 E2. destruct (sl_root _ _ _ _ HS) as (_ & _ & _ & _). assert (NR : n <> g_root g L). { destruct (root_bounds h g L HS) as [Q _]. intros E. rewrite <- E in Q. lia. }
      destruct (linked_child h g L n _ HS Hn En NR) as (p & ip & kp & C1 & C2 & C3 & C4 & C5). cbn in C1. assert (p = q) by congruence. subst p. assert (ip = iq) by congruence. subst ip.
      assert (HC : childof h g L n (NLeaf l) q iq kp) by (constructor; auto). destruct (nd_child HS HC) as (_ & D & _). cbn in D |- *. lia.
    + destruct (iv_heap _ _ HI _ _ R2) as [_ Q]. unfold hfuel. rewrite A2. lia.
    + destruct (iv_heap _ _ HI _ _ R2) as [_ Q]. lia.
    + rewrite B1. cbn [bind]. exists h', [], true, (g_rem g L n g1). split; auto. split; [|split; [|split; [|split; [|split]]]].
      * apply (rm_inv h g L n l pv HI Hn En Hempty AR Hpv h2); auto.
      * intros k v. apply (rm_holds h g L n l pv HI En Hempty h2 h' g1); auto.
      * intros M m. apply (rm_stale h g L n l HI En h2 h' g1); auto.
      * intros it [].
      * split; [|reflexivity]. intros m M HM. cbn [g_rem g_lay] in HM. destruct (ge_lay _ _ _ _ _ _ B4 m) as [Q|(Q1 & Q2 & _)]; congruence.
      * assert (RH := rm_hmv h g L n l pv HI Hn En Hempty Hpv h2 h' g1). apply (hmv_imp (fun c c' => c' = c \/ (c = n /\ c' = pv))); [apply RH; auto|]. intros c c' [->|[-> ->]]; [left; auto|right; auto].
  - exists h. destruct (lf_next l); [|destruct prefix]; eexists _, _, g; (split; [reflexivity|]); (split; [auto|]); (split; [tauto|]); (split; [auto|]); (split; [|split; [apply lold_refl|intros k0 c _ Q; exists c; split; [exact Q|left; reflexivity]]]); intros it Q; cbn in Q; try tauto.
    destruct Q as [Q|[]]. subst it. split; auto. discriminate.
Qed.
