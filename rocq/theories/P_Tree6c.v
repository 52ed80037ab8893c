(* Insertion, part 3: a leaf split preserves the invariant and the represented relation. *)
From Verif Require Import Lib Spec_String M_Key P_Key M_Permuter P_Permuter2 M_Search P_Search M_Tree P_Tree1 P_Tree2 P_Tree3 P_Tree4 P_Tree5 P_Tree5b P_Tree6 P_Tree6b.

Lemma slot_eq_ok' h g L l s h' g' l' s' : slot_eq l s l' s' ->
  (forall r L', lf_klx l s = 128 -> lf_lv l s = LvLayer r -> lptr h g r L' -> lptr h' g' r L') -> g_pre g' = g_pre g ->
  slot_ok h g L l s -> slot_ok h' g' L l' s'.
Proof.
  intros E HL HP [V|(V1 & r & L' & V2 & V3 & V4)]; [left; eapply slot_eq_val; eauto|right].
  destruct E as (A & B & C & D). split; [congruence|]. exists r, L'. rewrite HP, A. split; [congruence|]. auto.
Qed.

(* l' holds the entries of l from position off on. *)
Record segment (l : leafn) (off : nat) (l' : leafn) : Prop := {
  sg_perm : perm_ok W (lf_perm l');
  sg_size : (off + perm_size (lf_perm l') <= perm_size (lf_perm l))%nat;
  sg_slot : forall j, (j < perm_size (lf_perm l'))%nat -> slot_eq l (perm_get (lf_perm l) (off + j)) l' (perm_get (lf_perm l') j)
}.
Lemma segment_sorted l off l' : segment l off l' -> leaf_sorted (lf_perm l) (lf_ikey l) (lf_klx l) -> leaf_sorted (lf_perm l') (lf_ikey l') (lf_klx l').
Proof.
  intros [A B C] HS i j Hij. destruct (C i ltac:(lia)) as (E1 & E2 & _), (C j ltac:(lia)) as (F1 & F2 & _). rewrite E1, E2, F1, F2. apply HS. lia.
Qed.
Lemma segment_live l off l' t : segment l off l' -> live_slot l' t -> exists j, (j < perm_size (lf_perm l'))%nat /\ perm_get (lf_perm l') j = t /\
  live_slot l (perm_get (lf_perm l) (off + j)) /\ slot_eq l (perm_get (lf_perm l) (off + j)) l' t.
Proof.
  intros [A B C] (j & Hj & <-). exists j. repeat split; auto; try apply C; auto. exists (off + j)%nat. split; [lia|auto].
Qed.

(* Everything but parent and prev. *)
Definition csame (l l' : leafn) : Prop := lf_root l' = lf_root l /\ lf_deleted l' = lf_deleted l /\ lf_mod l' = lf_mod l /\ lf_perm l' = lf_perm l /\
  lf_klx l' = lf_klx l /\ lf_ikey l' = lf_ikey l /\ lf_lv l' = lf_lv l /\ lf_ksuf l' = lf_ksuf l /\ lf_next l' = lf_next l.
Lemma csame_slot l l' s : csame l l' -> slot_eq l s l' s.
Proof. intros (_ & _ & _ & _ & A & B & C & D & _). unfold slot_eq. rewrite A, B, C, D. auto. Qed.
Lemma csame_live l l' s : csame l l' -> live_slot l' s <-> live_slot l s.
Proof. intros (_ & _ & _ & A & _). unfold live_slot. rewrite A. tauto. Qed.

Definition g_split (g : ghost) (L n a : nat) (xk : Z) : ghost :=
  MkG (upd (g_lay g) a (Some L)) (upd (g_lo g) a xk) (upd (upd (g_hi g) a (g_hi g n)) n xk) (g_root g) (g_pre g) (g_dead g).

Section SplitHeap.
Context (h : heap) (g : ghost) (L n : nat) (l r : leafn) (xk : Z) (h2 : heap).
Hypothesis HI : Inv h g.
Hypothesis Hn : g_lay g n = Some L.
Hypothesis En : hp_node h n = Some (NLeaf l).
Let a := hp_next h.
Let g1 := g_split g L n a xk.
Hypothesis Hxk : g_lo g n < xk < g_hi g n.
Hypothesis N2 : hp_next h2 = S a.
Hypothesis N2a : hp_node h2 a = Some (NLeaf r).
Hypothesis N2n : hp_node h2 n = Some (NLeaf (lf_set_next (Some a) l)).
Hypothesis N2o : forall m, m <> n -> m <> a -> lf_next l <> Some m -> hp_node h2 m = hp_node h m.
Hypothesis N2x : forall m lm, m <> n -> lf_next l = Some m -> hp_node h m = Some (NLeaf lm) -> hp_node h2 m = Some (NLeaf (lf_set_prev (Some a) lm)).
Hypothesis Rp : lf_prev r = Some n.
Hypothesis Rn : lf_next r = lf_next l.
Hypothesis Rpar : lf_parent r = None.

Let HSL := iv_lay _ _ HI n L Hn.
Let HK := iv_leaf _ _ HI L n l Hn En.

Lemma live_lt m M : g_lay g m = Some M -> (m < a)%nat.
Proof. intros H. destruct (sl_node _ _ _ _ (iv_lay _ _ HI m M H) m H) as (nd & _ & A & _). apply (iv_heap _ _ HI m nd A). Qed.
Lemma a_none : hp_node h a = None.
Proof. destruct (hp_node h a) eqn:E; auto. apply (iv_heap _ _ HI) in E. unfold a in E. lia. Qed.
Lemma na : n <> a. Proof. pose proof (live_lt n L Hn). lia. Qed.
Lemma lay_a : g_lay g a = None.
Proof. destruct (g_lay g a) eqn:E; auto. apply live_lt in E. lia. Qed.
Lemma next_facts x : lf_next l = Some x -> g_lay g x = Some L /\ x <> n /\ g_hi g n = g_lo g x /\ exists lx, hp_node h x = Some (NLeaf lx) /\ lf_prev lx = Some n.
Proof.
  intros E. pose proof (lo_next _ _ _ _ _ HK) as A. rewrite E in A. destruct A as (A1 & A2 & A3). split; auto. split; auto. intros ->. lia.
Qed.
Lemma n2_sim m nd : hp_node h m = Some nd -> exists nd', hp_node h2 m = Some nd' /\ nsim nd nd' /\
  (forall lm, nd = NLeaf lm -> m <> n -> exists lm', nd' = NLeaf lm' /\ csame lm lm' /\ lf_prev lm' = (if match lf_next l with Some x => (m =? x)%nat | None => false end then Some a else lf_prev lm)).
Proof.
  intros E. assert (Na : m <> a) by (intros ->; rewrite a_none in E; discriminate).
  destruct (Nat.eq_dec m n) as [->|N].
  - exists (NLeaf (lf_set_next (Some a) l)). assert (nd = NLeaf l) by congruence. subst nd. split; auto. split; [reflexivity|]. intros ? _ X. contradiction.
  - assert (D : lf_next l = Some m \/ lf_next l <> Some m) by (destruct (lf_next l) as [x|]; [destruct (Nat.eq_dec x m) as [->|Nx]; [left; auto|right; intros [= E2]; contradiction]|right; discriminate]).
    destruct D as [D|D].
    + destruct (next_facts m D) as (_ & _ & _ & lx & F & _). assert (nd = NLeaf lx) by congruence. subst nd.
      exists (NLeaf (lf_set_prev (Some a) lx)). split; [apply N2x; auto|]. split; [reflexivity|]. intros lm [= <-] _.
      exists (lf_set_prev (Some a) lx). split; auto. split; [repeat split|]. rewrite D, Nat.eqb_refl. reflexivity.
    + exists nd. rewrite N2o by auto. split; auto. split; [apply nsim_refl|]. intros lm -> _. exists lm. split; auto. split; [repeat split|].
      destruct (lf_next l) as [x|]; auto. destruct (Nat.eqb_spec m x) as [Q|Q]; [exfalso; apply D; rewrite Q; reflexivity|reflexivity].
Qed.
Lemma n2_back m nd' : hp_node h2 m = Some nd' -> m <> a -> exists nd, hp_node h m = Some nd /\ nsim nd nd'.
Proof.
  intros E Na. destruct (hp_node h m) as [nd|] eqn:F.
  - destruct (n2_sim m nd F) as (nd2 & A & B & _). exists nd. split; auto. congruence.
  - exfalso. destruct (Nat.eq_dec m n) as [->|N]; [congruence|].
    assert (D : lf_next l <> Some m) by (intros D; destruct (next_facts m D) as (_ & _ & _ & lx & G & _); congruence).
    rewrite N2o in E by auto. congruence.
Qed.

Lemma heap_ok2 : heap_ok h2.
Proof.
  intros m nd E. rewrite N2. destruct (Nat.eq_dec m a) as [->|Na].
  - assert (nd = NLeaf r) by congruence. subst. cbn [ht]. lia.
  - destruct (n2_back m nd E Na) as (nd0 & A & B). rewrite <- (nsim_ht _ _ B). destruct (iv_heap _ _ HI m nd0 A). unfold a. lia.
Qed.

Lemma lay1 m M : g_lay g1 m = Some M <-> (m = a /\ M = L) \/ (m <> a /\ g_lay g m = Some M).
Proof.
  cbn [g1 g_split g_lay]. unfold upd. destruct (Nat.eqb_spec m a).
  - subst. split; [intros [= <-]; auto|intros [[_ ->]|[]]; congruence].
  - split; [auto|intros [[]|[]]; congruence].
Qed.
Lemma lo1 m : m <> a -> g_lo g1 m = g_lo g m. Proof. intros. cbn. now rewrite upd_other. Qed.
Lemma hi1 m : m <> a -> m <> n -> g_hi g1 m = g_hi g m. Proof. intros. cbn. now rewrite !upd_other. Qed.
Lemma hi1n : g_hi g1 n = xk. Proof. cbn. apply upd_same. Qed.
Lemma lo1a : g_lo g1 a = xk. Proof. cbn. apply upd_same. Qed.
Lemma hi1a : g_hi g1 a = g_hi g n. Proof. cbn. rewrite upd_other by (pose proof na; auto). apply upd_same. Qed.
Lemma xhi m : m <> a -> x_hi (pexc g1 n a) m = g_hi g m.
Proof.
  intros H. cbn [pexc x_hi]. destruct (Nat.eq_dec m n) as [->|N]; [rewrite upd_same; apply hi1a|rewrite upd_other by auto; now apply hi1].
Qed.

Lemma pend_sl : SL h2 g1 (pexc g1 n a) L.
Proof.
  destruct (inv_bounds h g HI n L Hn) as [B1 B2].
  assert (RA : g_root g L <> a) by (intros E; pose proof (proj1 (sl_root _ _ _ _ HSL)) as F; rewrite E, lay_a in F; discriminate).
  constructor.
  - destruct (sl_first _ _ _ _ HSL) as (A & (l0 & B) & C).
    assert (LA : L <> a) by (intros E; rewrite E, lay_a in A; discriminate).
    split; [apply lay1; auto|]. split; [|rewrite lo1; auto]. destruct (n2_sim L _ B) as (nd & E & S & _). apply nsim_leaf_l in S. destruct S as (l' & ->). eauto.
  - destruct (sl_root _ _ _ _ HSL) as (A & B & C & nr & D & E). change (g_root g1 L) with (g_root g L).
    split; [apply lay1; auto|]. rewrite xhi by auto. cbn [pexc x_lo]. rewrite lo1 by auto. split; auto. split; auto.
    destruct (n2_sim _ _ D) as (nd & F & S & _). exists nd. split; auto. now rewrite <- (nsim_parent _ _ S).
  - intros m Hm. change (g_root g1 L) with (g_root g L). destruct (sl_root _ _ _ _ HSL) as (_ & _ & _ & nr & D & _).
    destruct (n2_sim _ _ D) as (nr' & F & S & _). apply lay1 in Hm. destruct Hm as [[-> _]|[Na Hm]].
    + exists (NLeaf r), nr'. split; auto. split; auto. cbn [ht]. split; [lia|]. cbn [pexc x_lo x_hi]. rewrite lo1a, hi1a, upd_other, hi1a by (pose proof na; auto).
      destruct (inv_bounds h g HI n L Hn). repeat split; lia.
    + destruct (sl_node _ _ _ _ HSL m Hm) as (nd & nr2 & A & B & C & E & G & H). assert (nr2 = nr) by congruence. subst nr2.
      destruct (n2_sim m nd A) as (nd' & A' & S' & _). exists nd', nr'. rewrite <- (nsim_ht _ _ S), <- (nsim_ht _ _ S').
      split; auto. split; auto. split; auto. rewrite xhi by auto. cbn [pexc x_lo]. rewrite lo1 by auto.
      destruct (Nat.eq_dec m n) as [->|N]; [rewrite hi1n; lia|]. rewrite hi1 by auto. auto.
  - intros p i Hp Ei _. apply lay1 in Hp. destruct Hp as [[-> _]|[Na Hp]]; [congruence|].
    destruct (n2_back p _ Ei Na) as (nd & E0 & S0). apply nsim_inter_r in S0. subst nd.
    assert (Nn : p <> n) by congruence.
    destruct (sl_inter _ _ _ _ HSL p i Hp E0) as (A & B & C); [cbn; tauto|]. split; auto. split; auto. intros k Hk. specialize (C k Hk).
    assert (BN : forall k, bnd g1 p i k = bnd g p i k) by (intros; unfold bnd; now rewrite lo1, hi1).
    unfold child_ok in *. destruct (in_child i k) as [c|].
    + destruct C as (C1 & (nc & C2 & C3 & C4) & C5 & C6). destruct (n2_sim c nc C2) as (nc' & C2' & S & _).
      assert (Nc : c <> a) by (intros ->; rewrite lay_a in C1; discriminate).
      split; [apply lay1; auto|]. split; [exists nc'; rewrite <- (nsim_parent _ _ S), <- (nsim_ht _ _ S); auto|].
      rewrite !BN, xhi by auto. cbn [pexc x_lo]. rewrite lo1 by auto. auto.
    + rewrite lo1 by auto. auto.
  - intros m nd Hm E Hne Hu. cbn [pexc x_up] in Hu. apply lay1 in Hm. destruct Hm as [[-> _]|[Na Hm]]; [congruence|].
    destruct (n2_back m _ E Na) as (nd0 & E0 & S0). change (g_root g1 L) with (g_root g L) in Hne.
    destruct (sl_up _ _ _ _ HSL m nd0 Hm E0 Hne ltac:(cbn; tauto)) as (p & i & k & A1 & A2 & A3 & A4 & A5 & A6).
    exists p, i, k. rewrite <- (nsim_parent _ _ S0). split; auto.
    assert (Np : p <> a) by (intros ->; rewrite lay_a in A2; discriminate). split; [apply lay1; auto|]. split; [|split; [cbn; tauto|auto]].
    destruct (n2_sim p _ A3) as (nd' & F & S & _). apply nsim_inter_l in S. congruence.
  - intros m i Hm Ei Hx. apply lay1 in Hm. destruct Hm as [[-> _]|[Na Hm]]; [congruence|].
    destruct (n2_back m _ Ei Na) as (nd0 & E0 & S0). apply nsim_inter_r in S0. subst nd0. apply (sl_flag _ _ _ _ HSL m i Hm E0). cbn. tauto.
  - intros m Hm. change (g_dead g m = Some L) in Hm. destruct (sl_dead _ _ _ _ HSL m Hm) as (D0 & i & p & ip & A1 & A2 & A3 & A4 & A5 & A6).
    assert (Na : m <> a) by (intros ->; rewrite a_none in A1; discriminate).
    assert (Np : p <> a) by (intros ->; rewrite a_none in A4; discriminate).
    split; [cbn [g1 g_split g_lay]; rewrite upd_other; auto|]. exists i, p, ip.
    destruct (n2_sim m _ A1) as (nd & F & S & _). apply nsim_inter_l in S. subst nd.
    destruct (n2_sim p _ A4) as (nd & F2 & S & _). apply nsim_inter_l in S. subst nd.
    repeat split; auto. destruct A6 as [A6|A6]; [left; apply lay1; auto|right; exact A6].
Qed.

Lemma split_pend : pend h2 g1 L n a xk 0.
Proof.
  constructor; auto using pend_sl.
  - apply lay1. right. split; [apply na|auto].
  - apply lay1. auto.
  - apply na.
  - split; [apply hi1n|apply lo1a].
  - eexists. split; [exact N2n|]. split; [reflexivity|]. discriminate.
  - eexists. split; [exact N2a|]. split; [reflexivity|]. split; [exact Rpar|]. discriminate.
  - intros E. pose proof (proj1 (sl_root _ _ _ _ HSL)) as F. change (g_root g1 L) with (g_root g L) in E. rewrite <- E, lay_a in F. discriminate.
Qed.
Lemma split_live_lt m M : g_lay g1 m = Some M -> (m < hp_next h2)%nat.
Proof. rewrite N2. intros H. apply lay1 in H. destruct H as [[-> _]|[_ H]]; [lia|]. apply live_lt in H. lia. Qed.

(* ---- after the upward loop and the stripping of the left leaf ---- *)
Context (h3 : heap) (g' : ghost) (l4 : leafn) (q : option nat) (base : nat).
Hypothesis HO3 : heap_ok h3.
Hypothesis SF : sframe h2 g1 h3 g' L.
Hypothesis S3 : SL h3 g' (noexc g') L.
Hypothesis E3n : hp_node h3 n = Some (NLeaf (lf_set_parent q (lf_set_next (Some a) l))).
Let h4 := hset h3 n (NLeaf l4).
Hypothesis AR : at_root h g L.
Hypothesis Lpar : lf_parent l4 = q.
Hypothesis Lnext : lf_next l4 = Some a.
Hypothesis Lprev : lf_prev l4 = lf_prev l.
Hypothesis Lroot : lf_root l4 = false.
Hypothesis Ldel : lf_deleted l4 = false.
Hypothesis Lmod : lf_mod l4 <> MsDeletedLayer.
Hypothesis Lik0 : lf_prev l <> None -> lf_ikey l4 0%nat = lf_ikey l 0%nat.
Hypothesis LS : segment l 0 l4.
Hypothesis Lsize : perm_size (lf_perm l4) = base.
Hypothesis RS : segment l base r.
Hypothesis Rsize : (base + perm_size (lf_perm r) = perm_size (lf_perm l))%nat.
Hypothesis Rdel : lf_deleted r = false.
Hypothesis Rmod : lf_mod r <> MsDeletedLayer.
Hypothesis Rik0 : lf_ikey r 0%nat = xk.
Hypothesis Clow : forall j, (j < base)%nat -> lf_ikey l (perm_get (lf_perm l) j) < xk.
Hypothesis Chigh : forall j, (base <= j < perm_size (lf_perm l))%nat -> xk <= lf_ikey l (perm_get (lf_perm l) j).

Lemma lay' m : (m < a)%nat -> g_lay g' m = g_lay g m.
Proof. intros H. rewrite (sf_lay _ _ _ _ _ SF) by (rewrite N2; lia). cbn. rewrite upd_other by lia. auto. Qed.
Lemma lay'_live m M : g_lay g m = Some M -> g_lay g' m = Some M.
Proof. intros H. rewrite lay'; auto. eapply live_lt; eauto. Qed.
Lemma lay'_a : g_lay g' a = Some L.
Proof. rewrite (sf_lay _ _ _ _ _ SF) by (rewrite N2; lia). cbn. apply upd_same. Qed.
Lemma lay'_back m M : g_lay g' m = Some M -> (M = L /\ (a <= m)%nat) \/ (m < a)%nat /\ g_lay g m = Some M.
Proof.
  intros H. destruct (Nat.lt_ge_cases m a) as [C|C]; [right; rewrite lay' in H; auto|left]. split; auto.
  destruct (Nat.eq_dec m a) as [->|]; [rewrite lay'_a in H; congruence|].
  destruct (Nat.lt_ge_cases m (hp_next h3)) as [D|D].
  - destruct (sf_new _ _ _ _ _ SF m) as [_ F]; [rewrite N2; lia|]. congruence.
  - rewrite (sf_fresh _ _ _ _ _ SF) in H by auto. discriminate.
Qed.
Lemma lo' m : (m < a)%nat -> g_lo g' m = g_lo g m.
Proof. intros H. rewrite (sf_lo _ _ _ _ _ SF) by (rewrite N2; lia). apply lo1. lia. Qed.
Lemma lo'_a : g_lo g' a = xk.
Proof. rewrite (sf_lo _ _ _ _ _ SF) by (rewrite N2; lia). apply lo1a. Qed.
Lemma hi'_a : g_hi g' a = g_hi g n.
Proof. rewrite (sf_hi _ _ _ _ _ SF a _ ltac:(rewrite N2; lia) N2a). apply hi1a. Qed.
Lemma hi'_n : g_hi g' n = xk.
Proof. pose proof (live_lt n L Hn). rewrite (sf_hi _ _ _ _ _ SF n _ ltac:(rewrite N2; lia) N2n). apply hi1n. Qed.
Lemma hi'_leaf m lm : hp_node h m = Some (NLeaf lm) -> m <> n -> g_hi g' m = g_hi g m.
Proof.
  intros H N. assert (m < a)%nat by apply (iv_heap _ _ HI m _ H).
  destruct (n2_sim m _ H) as (nd' & A & S & _). destruct (nsim_leaf_l _ _ S) as (l' & ->).
  rewrite (sf_hi _ _ _ _ _ SF m l' ltac:(rewrite N2; lia) A). apply hi1; auto. lia.
Qed.

Lemma h4_n : hp_node h4 n = Some (NLeaf l4). Proof. apply hset_same. Qed.
Lemma h4_o m : m <> n -> hp_node h4 m = hp_node h3 m. Proof. apply hset_other. Qed.
Lemma h4_a : exists r4, hp_node h4 a = Some (NLeaf r4) /\ csame r r4 /\ lf_prev r4 = Some n.
Proof.
  rewrite h4_o by (pose proof na; auto). destruct (sf_leaf _ _ _ _ _ SF a r N2a) as (p & E). eexists. split; [exact E|]. split; [repeat split|]. exact Rp.
Qed.
Lemma h4_leaf m lm : hp_node h m = Some (NLeaf lm) -> m <> n -> exists lm', hp_node h4 m = Some (NLeaf lm') /\ csame lm lm' /\
  lf_prev lm' = (if match lf_next l with Some x => (m =? x)%nat | None => false end then Some a else lf_prev lm).
Proof.
  intros H N. destruct (n2_sim m _ H) as (nd & A & _ & B). destruct (B lm eq_refl N) as (lm2 & -> & C & D).
  rewrite h4_o by auto. destruct (sf_leaf _ _ _ _ _ SF m lm2 A) as (p & E). exists (lf_set_parent p lm2). auto.
Qed.
Lemma h4_leaf_back m lm M : g_lay g' m = Some M -> hp_node h4 m = Some (NLeaf lm) ->
  m = n \/ m = a \/ (m <> n /\ m <> a /\ g_lay g m = Some M /\ exists lm0, hp_node h m = Some (NLeaf lm0)).
Proof.
  intros HL E. destruct (Nat.eq_dec m n) as [->|Nn]; auto. destruct (Nat.eq_dec m a) as [->|Na]; auto. right. right.
  rewrite h4_o in E by auto. destruct (Nat.lt_ge_cases m (hp_next h2)) as [D|D].
  - assert (m < a)%nat by (rewrite N2 in D; lia). split; auto. split; auto. rewrite lay' in HL by auto. split; auto.
    destruct (sl_node _ _ _ _ (iv_lay _ _ HI m M HL) m HL) as (nd & _ & F & _). destruct nd as [l0|i]; [eauto|exfalso].
    destruct (n2_sim m _ F) as (nd' & G & S & _). apply nsim_inter_l in S. subst nd'.
    destruct (sf_inter _ _ _ _ _ SF m i G) as (i' & K & _). congruence.
  - exfalso. assert (m < hp_next h3)%nat by apply (HO3 m _ E). destruct (sf_new _ _ _ _ _ SF m ltac:(lia)) as [(i & F) _]. congruence.
Qed.
Lemma h4_other m : g_lay g m <> Some L -> hp_node h m <> None -> hp_node h4 m = hp_node h m.
Proof.
  intros H1 H2. assert (m <> n) by congruence. assert (m <> a) by (intros ->; apply H2; apply a_none).
  assert (m < a)%nat by (destruct (hp_node h m) eqn:E; [apply (iv_heap _ _ HI m _ E)|congruence]).
  rewrite h4_o by auto. rewrite (sf_other _ _ _ _ _ SF) by (rewrite ?N2; try lia; cbn; rewrite upd_other; auto).
  apply N2o; auto. intros D. destruct (next_facts m D) as [E _]. congruence.
Qed.

Lemma S4 : SL h4 g' (noexc g') L.
Proof.
  apply (SL_leaf h3); auto. intros m nd E. destruct (Nat.eq_dec m n) as [->|N].
  - exists (NLeaf l4). split; [apply h4_n|]. rewrite E3n in E. inversion E; subst nd. cbn. auto.
  - exists nd. rewrite h4_o by auto. split; auto. apply nsim_refl.
Qed.
Lemma S4_other M m : g_lay g' m = Some M -> SL h4 g' (noexc g') M.
Proof.
  intros Hm. destruct (Nat.eq_dec M L) as [->|NM]; [apply S4|].
  destruct (lay'_back m M Hm) as [[E _]|[Hma Hm0]]; [contradiction|].
  pose proof (iv_lay _ _ HI m M Hm0) as SM. apply (SL_frame h g _ h4 g' _ M SM).
  - intros x Hx. assert (exists nd, hp_node h x = Some nd /\ g_lay g x <> Some L) as (nd & A & B).
    { destruct Hx as [Hx|Hx]; [destruct (sl_node _ _ _ _ SM x Hx) as (nd & _ & A & _); exists nd; split; [auto|congruence]|].
      destruct (sl_dead _ _ _ _ SM x Hx) as (A & i & _ & _ & B & _). exists (NInter i). split; auto. congruence. }
    exists nd, nd. rewrite h4_other by (auto; congruence). split; auto. split; auto. apply nsim_refl.
  - intros x. split; intros Hx; [|now apply lay'_live]. destruct (lay'_back x M Hx) as [[E _]|[_ ?]]; [contradiction|auto].
  - intros x Hx. rewrite (sf_dead _ _ _ _ _ SF) in Hx. change (g_dead g x = Some M) in Hx. split; auto.
    destruct (sl_dead _ _ _ _ SM x Hx) as (A & i & _ & _ & B & _). rewrite lay'; auto. apply (iv_heap _ _ HI x _ B).
  - intros x _ p Hp. rewrite (sf_dead _ _ _ _ _ SF). exact Hp.
  - intros x Hx. pose proof (live_lt x M Hx) as Hxa. cbn [noexc x_lo x_hi x_in x_up x_fl]. rewrite lo' by auto.
    assert (EH : g_hi g' x = g_hi g x).
    { rewrite (sf_hi2 _ _ _ _ _ SF) by (rewrite ?N2; try lia; cbn; rewrite upd_other by lia; congruence). apply hi1; [lia|congruence]. }
    rewrite EH. tauto.
  - apply (sf_root _ _ _ _ _ SF). auto.
Qed.

Lemma root'_ne x lx : g_lay g' x = Some L -> hp_node h4 x = Some (NLeaf lx) -> g_root g' L <> x.
Proof.
  intros A B E. destruct (sl_root _ _ _ _ S4) as (_ & R1 & R2 & _). cbn [noexc x_lo x_hi] in R1, R2. rewrite E in *.
  destruct (h4_a) as (r4 & A4 & _).
  assert (BN : 0 <= g_lo g' n < g_hi g' n /\ g_hi g' n <= U64).
  { pose proof (lay'_live n L Hn) as Q. destruct (sl_node _ _ _ _ S4 n Q) as (? & ? & _ & _ & _ & B1 & B2 & _). auto. }
  assert (BA : 0 <= g_lo g' a < g_hi g' a /\ g_hi g' a <= U64).
  { pose proof lay'_a as Q. destruct (sl_node _ _ _ _ S4 a Q) as (? & ? & _ & _ & _ & B1 & B2 & _). auto. }
  assert (x = n) by (apply (leaf_unique h4 g' _ L S4 (g_lo g' n)) with (l1 := lx) (l2 := l4); auto using clear_noexc, lay'_live, h4_n; lia).
  assert (x = a) by (apply (leaf_unique h4 g' _ L S4 (g_lo g' a)) with (l1 := lx) (l2 := r4); auto using clear_noexc, lay'_a; lia).
  pose proof na. congruence.
Qed.

Lemma lptr' t L' : lptr h g t L' -> (L' = L -> t = g_root g L) -> lptr h4 g' t L'.
Proof.
  intros (A & nr & B & C & D) HR. split; [now apply lay'_live|].
  destruct (Nat.eq_dec L' L) as [->|N].
  - specialize (HR eq_refl). pose proof (live_lt t L A) as Hta.
    assert (X : exists nr4, hp_node h4 t = Some nr4 /\ (t = L \/ exists i, nr4 = NInter i)).
    { destruct D as [->|(i & ->)].
      - destruct (sl_first _ _ _ _ S4) as (_ & (x & E) & _). eauto.
      - destruct (n2_sim t _ B) as (nd' & G & S & _). apply nsim_inter_l in S. subst nd'.
        destruct (sf_inter _ _ _ _ _ SF t i G) as (i' & K & _). exists (NInter i'). rewrite h4_o by congruence. split; auto. right. eauto. }
    destruct X as (nr4 & X1 & X2). exists nr4. split; auto. split; auto.
    destruct (sf_rootL _ _ _ _ _ SF) as [E|(nr3 & E1 & E2)].
    + left. change (g_root g1 L) with (g_root g L) in E. congruence.
    + right. change (g_root g1 L) with (g_root g L) in E1. rewrite <- HR in E1. destruct (Nat.eq_dec t n) as [->|Nt].
      * rewrite E3n in E1. inversion E1; subst nr3. rewrite h4_n in X1. inversion X1; subst nr4. cbn in E2 |- *. congruence.
      * rewrite h4_o in X1 by auto. assert (nr4 = nr3) by congruence. subst. auto.
  - exists nr. rewrite h4_other by congruence. split; auto. rewrite (sf_root _ _ _ _ _ SF) by auto. change (g_root g1 L') with (g_root g L'). auto.
Qed.
Lemma lptr_live M m lm s t L' : g_lay g m = Some M -> hp_node h m = Some (NLeaf lm) -> live_slot lm s -> lf_klx lm s = 128 -> lf_lv lm s = LvLayer t ->
  lptr h g t L' -> lptr h4 g' t L'.
Proof. intros A B C D E F. apply lptr'; auto. intros ->. apply (AR M m lm s). destruct F as [F _]. repeat split; auto. Qed.
Lemma slot_live M m lm s l' s' : g_lay g m = Some M -> hp_node h m = Some (NLeaf lm) -> live_slot lm s -> slot_eq lm s l' s' -> slot_ok h4 g' M l' s'.
Proof.
  intros A B C D. apply (slot_eq_ok' h g M lm s); auto; [|exact (sf_pre _ _ _ _ _ SF)|].
  - intros t L' E1 E2 E3. eapply lptr_live; eauto.
  - apply (lo_slots _ _ _ _ _ (iv_leaf _ _ HI M m lm A B)). auto.
Qed.

Lemma leaf4_n : leaf_ok h4 g' L n l4.
Proof.
  pose proof HK as [K1 K2 K3 K4 K5 K6 K7 K8]. pose proof (live_lt n L Hn) as Hna. constructor; auto.
  - apply LS.
  - eapply segment_sorted; eauto.
  - intros s Hs. destruct (segment_live _ _ _ _ LS Hs) as (j & J1 & J2 & J3 & J4). split; [eapply slot_live; eauto|].
    rewrite lo', hi'_n by auto. destruct (K5 _ J3) as [_ B]. pose proof (Clow j ltac:(lia)). cbn [Nat.add] in *. destruct J4 as (-> & _). lia.
  - rewrite Lprev. destruct (lf_prev l) as [x|] eqn:Q; auto. destruct K6 as (A1 & A2 & A3 & A4 & lq & A5 & A6).
    assert (x <> n) by (intros ->; lia). rewrite lo' by auto. split; auto. split; [rewrite Lik0 by congruence; auto|].
    split; [now apply lay'_live|]. split; [rewrite (hi'_leaf _ _ A5); auto|].
    destruct (h4_leaf x lq A5 H) as (lq' & B1 & B2 & _). exists lq'. split; auto. destruct B2 as (_ & _ & _ & _ & _ & _ & _ & _ & B2). congruence.
  - rewrite Lnext. split; [apply lay'_a|]. split; [rewrite hi'_n, lo'_a; auto|]. destruct h4_a as (r4 & A & B & C). eauto.
  - intros E. rewrite Lroot. split; [discriminate|]. intros R. exfalso. apply (root'_ne n l4); auto using h4_n; [now apply lay'_live|]. congruence.
Qed.
Lemma leaf4_a r4 : hp_node h4 a = Some (NLeaf r4) -> leaf_ok h4 g' L a r4.
Proof.
  intros E. destruct h4_a as (r4' & A & B & C). assert (r4' = r4) by congruence. subst r4'.
  pose proof HK as [K1 K2 K3 K4 K5 K6 K7 K8]. pose proof (live_lt n L Hn) as Hna.
  pose proof B as (B1 & B2 & B3 & B4 & B5 & B6 & B7 & B8 & B9).
  assert (aL : a <> L). { pose proof (inv_layer h g HI n L Hn) as X. apply live_lt in X. lia. }
  constructor; rewrite ?B2, ?B3, ?B4, ?B5, ?B6, ?C; auto.
  - apply RS.
  - eapply segment_sorted; eauto.
  - intros s Hs. apply (csame_live r) in Hs; auto. destruct (segment_live _ _ _ _ RS Hs) as (j & J1 & J2 & J3 & J4). split.
    + eapply slot_live; eauto. eapply slot_eq_trans; eauto. now apply csame_slot.
    + rewrite lo'_a, hi'_a. destruct (K5 _ J3) as [_ X]. pose proof (Chigh (base + j) ltac:(lia)). destruct J4 as (-> & _). lia.
  - split; auto. rewrite lo'_a. split; [exact Rik0|]. split; [now apply lay'_live|]. split; [apply hi'_n|]. exists l4. split; [apply h4_n|auto].
  - rewrite B9, Rn. case_eq (lf_next l); [intros x Q|intros Q].
    + destruct (next_facts x Q) as (F1 & F2 & F3 & lx & F4 & F5). split; [now apply lay'_live|]. rewrite hi'_a, lo' by (eapply live_lt; eauto). split; auto.
      destruct (h4_leaf x lx F4 F2) as (lx' & G1 & G2 & G3). exists lx'. split; auto. rewrite Q, Nat.eqb_refl in G3. auto.
    + rewrite Q in K7. rewrite hi'_a. auto.
  - intros X. exfalso. auto.
Qed.
Lemma leaf4_o M m lm0 lm : m <> n -> m <> a -> g_lay g m = Some M -> hp_node h m = Some (NLeaf lm0) -> hp_node h4 m = Some (NLeaf lm) -> leaf_ok h4 g' M m lm.
Proof.
  intros Nn Na Hm E0 E. destruct (h4_leaf m lm0 E0 Nn) as (lm' & A & B & C). assert (lm' = lm) by congruence. subst lm'.
  pose proof (iv_leaf _ _ HI M m lm0 Hm E0) as [K1 K2 K3 K4 K5 K6 K7 K8]. pose proof (live_lt m M Hm) as Hma.
  pose proof B as (B1 & B2 & B3 & B4 & B5 & B6 & B7 & B8 & B9).
  constructor; rewrite ?B2, ?B3, ?B4, ?B5, ?B6; auto.
  - intros s Hs. apply (csame_live lm0) in Hs; auto. destruct (K5 s Hs) as [_ X]. split.
    + eapply slot_live; eauto. now apply csame_slot.
    + rewrite lo', (hi'_leaf _ _ E0) by auto. auto.
  - rewrite C. case_eq (lf_next l); [intros x Q; destruct (Nat.eqb_spec m x) as [Ex|Nx]; [subst x|]|intros Q].
    + destruct (next_facts m Q) as (F1 & F2 & F3 & lx & F4 & F5). assert (M = L) by congruence. subst M. assert (lx = lm0) by congruence. subst lx.
      rewrite F5 in K6. destruct K6 as (G1 & G2 & _). split; auto. rewrite lo' by auto. split; auto. split; [apply lay'_a|]. split; [rewrite hi'_a; auto|].
      destruct h4_a as (r4 & A1 & A2 & A3). exists r4. split; auto. destruct A2 as (_ & _ & _ & _ & _ & _ & _ & _ & A2). rewrite A2, Rn. exact Q.
    + destruct (lf_prev lm0) as [y|]; auto. destruct K6 as (G1 & G2 & G3 & G4 & lq & G5 & G6). split; auto. rewrite lo' by auto. split; auto. split; [now apply lay'_live|].
      assert (y <> n) by (intros ->; assert (lq = l) by congruence; subst; congruence).
      split; [rewrite (hi'_leaf _ _ G5); auto|]. destruct (h4_leaf y lq G5 H) as (lq' & H1 & H2 & _). exists lq'. split; auto.
      destruct H2 as (_ & _ & _ & _ & _ & _ & _ & _ & H2). congruence.
    + destruct (lf_prev lm0) as [y|]; auto. destruct K6 as (G1 & G2 & G3 & G4 & lq & G5 & G6). split; auto. rewrite lo' by auto. split; auto. split; [now apply lay'_live|].
      assert (y <> n) by (intros ->; assert (lq = l) by congruence; subst; congruence).
      split; [rewrite (hi'_leaf _ _ G5); auto|]. destruct (h4_leaf y lq G5 H) as (lq' & H1 & H2 & _). exists lq'. split; auto.
      destruct H2 as (_ & _ & _ & _ & _ & _ & _ & _ & H2). congruence.
  - rewrite B9. destruct (lf_next lm0) as [y|].
    + destruct K7 as (G1 & G2 & ly & G3 & G4). split; [now apply lay'_live|]. rewrite (hi'_leaf _ _ E0), lo' by (auto; eapply live_lt; eauto). split; auto.
      destruct (Nat.eq_dec y n) as [->|Ny].
      * exists l4. split; [apply h4_n|]. assert (ly = l) by congruence. subst. congruence.
      * destruct (h4_leaf y ly G3 Ny) as (ly' & H1 & H2 & H3). exists ly'. split; auto. rewrite H3.
        case_eq (lf_next l); [intros x Q|auto]. destruct (Nat.eqb_spec y x); auto. subst x.
        destruct (next_facts y Q) as (_ & _ & _ & lx & F4 & F5). assert (lx = ly) by congruence. subst. congruence.
    + rewrite (hi'_leaf _ _ E0); auto.
  - intros ->. rewrite B1, (K8 eq_refl). destruct (Nat.eq_dec M L) as [->|NM].
    + assert (g_root g L <> L).
      { intros R. destruct (sl_root _ _ _ _ HSL) as (_ & R1 & R2 & _). cbn [noexc x_lo x_hi] in R1, R2. rewrite R in *.
        destruct (inv_bounds h g HI n L Hn). apply Nn. apply (leaf_at h g HI L L n lm0 l (g_lo g n)); auto; lia. }
      assert (g_root g' L <> L) by (apply (root'_ne L lm); [now apply lay'_live|auto]). tauto.
    + rewrite (sf_root _ _ _ _ _ SF) by auto. reflexivity.
Qed.

Lemma live_pos t : live_slot l t -> (exists t', live_slot l4 t' /\ slot_eq l t l4 t') \/ (exists t', live_slot r t' /\ slot_eq l t r t').
Proof.
  intros (j & J & <-). destruct (Nat.lt_ge_cases j base) as [C|C].
  - left. pose proof (sg_slot _ _ _ LS j ltac:(lia)) as X. eexists. split; [|exact X]. exists j. split; [lia|auto].
  - right. pose proof (sg_slot _ _ _ RS (j - base) ltac:(lia)) as X. replace (base + (j - base))%nat with j in X by lia.
    eexists. split; [|exact X]. exists (j - base)%nat. split; [lia|auto].
Qed.

Theorem split_inv : Inv h4 g'.
Proof.
  pose proof HI as [I1 I2 I3 I4 I5 I6 I7]. constructor.
  - intros m nd E. change (hp_next h4) with (hp_next h3). destruct (Nat.eq_dec m n) as [->|N].
    + destruct (HO3 n _ E3n) as [X _]. rewrite h4_n in E. inversion E; subst nd. cbn [ht]. lia.
    + rewrite h4_o in E by auto. exact (HO3 m nd E).
  - destruct I2 as [A B]. split; [now apply lay'_live|]. rewrite (sf_pre _ _ _ _ _ SF). exact B.
  - intros m M Hm. eapply S4_other; eauto.
  - intros M m lm Hm E. destruct (h4_leaf_back m lm M Hm E) as [->|[->|(N1 & N2' & A & lm0 & B)]].
    + assert (M = L) by (rewrite (lay'_live n L Hn) in Hm; congruence). subst M. rewrite h4_n in E. inversion E; subst lm. apply leaf4_n.
    + assert (M = L) by (rewrite lay'_a in Hm; congruence). subst M. now apply leaf4_a.
    + eapply leaf4_o; eauto.
  - intros L' HL' N0. assert (HL0 : g_lay g L' = Some L').
    { destruct (lay'_back L' L' HL') as [[E C]|[_ ?]]; auto. subst L'. pose proof (live_lt _ _ (inv_layer h g HI n L Hn)). lia. }
    destruct (I5 L' HL0 N0) as (M & m & lm & s & t & (O1 & O2 & O3 & O4 & O5 & O6)).
    destruct (Nat.eq_dec m n) as [->|N].
    + assert (lm = l) by congruence. subst lm. assert (M = L) by congruence. subst M.
      destruct (live_pos s O3) as [(t' & X1 & X2)|(t' & X1 & X2)]; destruct X2 as (X2 & X3 & X4 & _).
      * exists L, n, l4, t', t. repeat split; try congruence; auto using lay'_live, h4_n.
      * destruct h4_a as (r4 & A & B & C). exists L, a, r4, t', t. pose proof (csame_slot _ _ t' B) as (Y1 & Y2 & Y3 & _).
        repeat split; try congruence; auto using lay'_live, lay'_a. now apply (csame_live r).
    + destruct (h4_leaf m lm O2 N) as (lm' & A & B & _). exists M, m, lm', s, t. pose proof (csame_slot _ _ s B) as (Y1 & Y2 & Y3 & _).
      repeat split; try congruence; auto using lay'_live. now apply (csame_live lm).
  - intros M HM. rewrite (sf_pre _ _ _ _ _ SF). change (g_pre g1) with (g_pre g). destruct (lay'_back M M HM) as [[-> _]|[_ ?]]; auto. apply I6. eapply inv_layer; eauto.
  - intros m M Hm. rewrite (sf_dead _ _ _ _ _ SF) in Hm. apply lay'_live. exact (I7 m M Hm).
Qed.

Theorem split_holds k v : holds h4 g' k v <-> holds h g k v.
Proof.
  pose proof (sf_pre _ _ _ _ _ SF) as PR. change (g_pre g1) with (g_pre g) in PR.
  destruct h4_a as (r4 & A & B & C). split.
  - intros (M & m & lm & s & H1 & H2 & H3 & H4 & H5 & H6). rewrite PR in H6.
    destruct (h4_leaf_back m lm M H1 H2) as [->|[->|(N1 & N2' & X & lm0 & Y)]].
    + assert (M = L) by (rewrite (lay'_live n L Hn) in H1; congruence). subst M. rewrite h4_n in H2. inversion H2; subst lm.
      destruct (segment_live _ _ _ _ LS H3) as (j & J1 & J2 & J3 & J4). pose proof (slot_eq_str _ _ _ _ J4) as ES. destruct J4 as (_ & J5 & J6 & _).
      exists L, n, l, (perm_get (lf_perm l) (0 + j)). repeat split; auto; congruence.
    + assert (M = L) by (rewrite lay'_a in H1; congruence). subst M. assert (lm = r4) by congruence. subst lm. apply (csame_live r) in H3; auto.
      destruct (segment_live _ _ _ _ RS H3) as (j & J1 & J2 & J3 & J4).
      assert (J4' := slot_eq_trans _ _ _ _ _ _ J4 (csame_slot _ _ s B)). pose proof (slot_eq_str _ _ _ _ J4') as ES. destruct J4' as (_ & J5 & J6 & _).
      exists L, n, l, (perm_get (lf_perm l) (base + j)). repeat split; auto; congruence.
    + destruct (h4_leaf m lm0 Y N1) as (lm' & D & E & _). assert (lm' = lm) by congruence. subst lm'.
      pose proof (csame_slot _ _ s E) as J. pose proof (slot_eq_str _ _ _ _ J) as ES. destruct J as (_ & J5 & J6 & _).
      exists M, m, lm0, s. repeat split; auto; try congruence. now apply (csame_live lm0 lm).
  - intros (M & m & lm & s & H1 & H2 & H3 & H4 & H5 & H6).
    destruct (Nat.eq_dec m n) as [->|N].
    + assert (lm = l) by congruence. subst lm. assert (M = L) by congruence. subst M.
      destruct (live_pos s H3) as [(t' & X1 & X2)|(t' & X1 & X2)].
      * pose proof (slot_eq_str _ _ _ _ X2) as ES. destruct X2 as (X2 & X3 & X4 & _).
        exists L, n, l4, t'. rewrite PR. repeat split; try congruence; auto using lay'_live, h4_n.
      * assert (X2' := slot_eq_trans _ _ _ _ _ _ X2 (csame_slot _ _ t' B)). pose proof (slot_eq_str _ _ _ _ X2') as ES. destruct X2' as (_ & X3 & X4 & _).
        exists L, a, r4, t'. rewrite PR. repeat split; try congruence; auto using lay'_a. now apply (csame_live r).
    + destruct (h4_leaf m lm H2 N) as (lm' & D & E & _). pose proof (csame_slot _ _ s E) as J. pose proof (slot_eq_str _ _ _ _ J) as ES. destruct J as (_ & J5 & J6 & _).
      exists M, m, lm', s. rewrite PR. repeat split; try congruence; auto using lay'_live. now apply (csame_live lm lm').
Qed.

Lemma split_stale M m : stale h g M m -> stale h4 g' M m.
Proof.
  intros [->|(i & A & B)]; [left; auto|right].
  destruct (n2_sim m _ A) as (nd' & G & S & _). apply nsim_inter_l in S. subst nd'.
  destruct (sf_inter _ _ _ _ _ SF m i G) as (i' & K & _). exists i'. rewrite h4_o by congruence. split; auto.
  destruct B as [B|B]; [left; now apply lay'_live|right]. rewrite (sf_dead _ _ _ _ _ SF). exact B.
Qed.
End SplitHeap.
