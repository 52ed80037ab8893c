(* The leaf responsible for a key, present or absent. *)
From Verif Require Import Lib Spec_String M_Key P_Key M_Permuter P_Permuter2 M_Search P_Search M_Tree P_Tree1 P_Tree2 P_Tree3 P_Tree4.

(* A layer whose prefix begins k, and the rest of k. *)
Definition cand (g : ghost) (k : list Z) (L : nat) (s : list Z) : Prop := g_lay g L = Some L /\ k = g_pre g L ++ s /\ (L <> 0%nat -> s <> []).
(* The leaf an insertion of k would reach: in the deepest such layer, the leaf whose range has the slice. *)
Definition home (h : heap) (g : ghost) (k : list Z) (n : nat) : Prop :=
  exists L s l, cand g k L s /\ (forall M t, cand g k M t -> (length s <= length t)%nat) /\ g_lay g n = Some L /\ hp_node h n = Some (NLeaf l) /\
    g_lo g n <= slice_make_comparable s < g_hi g n.
(* Every home after a change comes from a home before it. *)
Definition hmv (R : nat -> nat -> Prop) (h : heap) (g : ghost) (h' : heap) (g' : ghost) : Prop :=
  forall k b', bytes_ok k -> home h' g' k b' -> exists b, home h g k b /\ R b b'.

Lemma hmv_comp (R1 R2 R : nat -> nat -> Prop) h g h1 g1 h2 g2 : hmv R1 h g h1 g1 -> hmv R2 h1 g1 h2 g2 ->
  (forall b k b1 b2, home h g k b -> home h1 g1 k b1 -> R1 b b1 -> R2 b1 b2 -> R b b2) -> hmv R h g h2 g2.
Proof. intros A B C k b' Hk H. destruct (B k b' Hk H) as (b1 & H1 & R1'). destruct (A k b1 Hk H1) as (b & H0 & R0). exists b. split; eauto. Qed.
Lemma hmv_imp (R1 R2 : nat -> nat -> Prop) h g h' g' : hmv R1 h g h' g' -> (forall b b', R1 b b' -> R2 b b') -> hmv R2 h g h' g'.
Proof. intros A B k b' Hk H. destruct (A k b' Hk H) as (b & H0 & R0). eauto. Qed.
Lemma hmv_leafs h g h' : (forall m l, hp_node h' m = Some (NLeaf l) -> exists l0, hp_node h m = Some (NLeaf l0)) -> hmv (fun b b' => b' = b) h g h' g.
Proof. intros A k b' _ (L & s & l & C & D & E & F & G). destruct (A _ _ F) as (l0 & F0). exists b'. split; auto. exists L, s, l0. auto. Qed.
Lemma hmv_hset h g n l l' : hp_node h n = Some (NLeaf l) -> hmv (fun b b' => b' = b) h g (hset h n (NLeaf l')) g.
Proof.
  intros E. apply hmv_leafs. intros m lm Hm. destruct (Nat.eq_dec m n) as [->|N]; [eauto|]. rewrite hset_other in Hm by auto. eauto.
Qed.
Lemma hmv_post R h g h1 g1 h2 : hmv R h g h1 g1 -> (forall m l, hp_node h2 m = Some (NLeaf l) -> exists l0, hp_node h1 m = Some (NLeaf l0)) -> hmv R h g h2 g1.
Proof. intros A B. apply (hmv_comp R (fun b b' => b' = b) R h g h1 g1 h2 g1 A (hmv_leafs _ _ _ B)). intros b k b1 b2 _ _ X ->. exact X. Qed.

Lemma home_live h g k n : Inv h g -> home h g k n -> (n < hp_next h)%nat.
Proof. intros HI (L & s & l & _ & _ & _ & E & _). apply (iv_heap _ _ HI n _ E). Qed.
Lemma cand_det h g k L s L' s' : Inv h g -> cand g k L s -> cand g k L' s' -> length s = length s' -> L = L' /\ s = s'.
Proof.
  intros HI (A1 & A2 & A3) (B1 & B2 & B3) E. assert (P : g_pre g L = g_pre g L' /\ s = s').
  { assert (Q : g_pre g L ++ s = g_pre g L' ++ s') by congruence. apply app_inj_tail_iff' with (2 := Q).
    apply (f_equal (@length Z)) in Q. rewrite !app_length in Q. lia. }
  destruct P as [P1 P2]. split; auto. exact (pre_inj h g HI _ _ A1 B1 P1).
Qed.
Lemma home_det h g k a b : Inv h g -> home h g k a -> home h g k b -> a = b.
Proof.
  intros HI (L & s & l & A1 & A2 & A3 & A4 & A5) (M & t & l2 & B1 & B2 & B3 & B4 & B5).
  pose proof (A2 _ _ B1). pose proof (B2 _ _ A1). destruct (cand_det h g k L s M t HI A1 B1) as [-> ->]; [lia|].
  eapply leaf_at; eauto.
Qed.

Lemma deepest h g k L s : Inv h g -> bytes_ok k -> cand g k L s -> (forall L' s', ~ rstep h g L s L' s') -> forall M t, cand g k M t -> (length s <= length t)%nat.
Proof.
  intros HI Hk (A1 & A2 & A3) NS M t (B1 & B2 & B3).
  assert (BA : bytes_ok s) by (rewrite A2 in Hk; apply bytes_ok_app in Hk; tauto). assert (BB : bytes_ok t) by (rewrite B2 in Hk; apply bytes_ok_app in Hk; tauto).
  pose proof (route_complete h g HI _ L s (le_n _) A1 BA A3) as R1. pose proof (route_complete h g HI _ M t (le_n _) B1 BB B3) as R2. rewrite <- A2 in R1. rewrite <- B2 in R2.
  destruct (route_routen _ _ _ _ _ R1) as (d1 & D1), (route_routen _ _ _ _ _ R2) as (d2 & D2).
  pose proof (routen_len _ _ _ _ _ _ D1). pose proof (routen_len _ _ _ _ _ _ D2).
  destruct (lt_dec d1 d2) as [Hd|Hd]; [|lia]. exfalso. destruct (routen_more h g HI _ _ _ _ D1 _ _ _ D2 Hd) as (L' & s' & Q). exact (NS _ _ Q).
Qed.

(* A slot with the slice and not a layer ends the route. *)
Lemma slot_ends h g L s n l p : Inv h g -> g_lay g n = Some L -> hp_node h n = Some (NLeaf l) -> live_slot l p -> lf_ikey l p = slice_make_comparable s -> lenclass (lf_klx l p) = 9 ->
  lf_klx l p <> 128 -> forall L' s', ~ rstep h g L s L' s'.
Proof.
  intros HI Hn En LV E1 E2 E3 L' s' (_ & _ & n2 & l2 & sl & r & (O1 & O2 & O3 & O4 & O5 & O6) & E).
  destruct (slot_unique h g HI L n l p n2 l2 sl) as (-> & -> & ->); auto; [congruence|now rewrite O4].
Qed.

Lemma located_ends h g k cu L s l : Inv h g -> bytes_ok k -> located h g k cu L s l -> forall L' s', ~ rstep h g L s L' s'.
Proof.
  intros HI Hk J L' s' RS. pose proof J as [J1 J2 J3 J4 J5 J6 J7 J8]. pose proof (iv_leaf _ _ HI L _ l J3 J4) as K.
  destruct J2 as (_ & _ & KL & KI).
  destruct (lf_lower_ok l (cu_ka cu) (lo_sorted _ _ _ _ _ K)) as (i & p & A & B & C & D & E). rewrite J6 in A. injection A as <- <-.
  pose proof RS as (S8 & _ & n2 & l2 & sl & r & O & Ei). pose proof O as (O1 & O2 & O3 & O4 & O5 & O6).
  destruct (cu_p cu) as [p|].
  - destruct E as (E1 & E2 & E3 & E4). destruct J8 as [LV Q]. assert (NL : lf_klx l p <> 128) by (destruct Q as [(_ & Q & _)|(_ & Q & _)]; lia).
    apply (slot_ends h g L s (cu_n cu) l p HI J3 J4 LV) with (L' := L') (s' := s'); auto; [congruence|]. rewrite E4, KL. unfold lenclass. lia.
  - assert (n2 = cu_n cu).
    { destruct (lo_slots _ _ _ _ _ (iv_leaf _ _ HI L n2 l2 O1 O2) sl O3) as [_ Q]. rewrite Ei, <- KI in Q. eapply leaf_at; eauto. }
    subst n2. assert (l2 = l) by congruence. subst l2. destruct O3 as (j & Hj & Ej).
    destruct (lt_dec j (cu_i cu)) as [Hlt|Hge].
    + specialize (C j Hlt). rewrite Ej, Ei, O4, KI, KL in C. unfold entry_lt, lenclass in C. cbn [fst snd] in C. lia.
    + specialize (E j ltac:(lia)). rewrite Ej, Ei, O4, KI, KL in E. unfold entry_lt, lenclass in E. cbn [fst snd] in E. lia.
Qed.
Lemma located_home h g k cu L s l : Inv h g -> bytes_ok k -> located h g k cu L s l -> home h g k (cu_n cu).
Proof.
  intros HI Hk J. pose proof (located_ends h g k cu L s l HI Hk J) as NS. destruct J as [J1 (J2 & _ & _ & KI) J3 J4 J5 J6 J7 J8].
  destruct (route_pre h g HI _ _ _ Hk J1) as (E1 & E2 & E3 & E4). assert (C : cand g k L s) by (split; [|split]; auto).
  exists L, s, l. split; auto. split; [exact (deepest h g k L s HI Hk C NS)|]. split; auto. split; auto. rewrite <- KI. auto.
Qed.

(* The locking search changes no node's kind. *)
Lemma find_locked_leafs : forall fuel h root0 root ka h' cu, find_locked fuel h root0 root ka = Ok (h', cu) ->
  forall m, (exists l, hp_node h m = Some (NLeaf l)) <-> (exists l, hp_node h' m = Some (NLeaf l)).
Proof.
  induction fuel as [|f IH]; intros h root0 root ka h' cu E m; cbn [find_locked] in E; [discriminate|].
  destruct (reach_leaf h root (k_ikey ka)) as [a|]; [|discriminate]. cbn [bind] in E. destruct (hleaf h a) as [l|] eqn:Ea; [|discriminate]. cbn [bind] in E.
  destruct (lf_deleted l); [discriminate|]. destruct (lf_lower l ka) as [[i p]|]; [|discriminate]. cbn [bind] in E.
  assert (DONE : forall st, (match lf_mod l with MsDeletedLayer => find_locked f h root0 root0 (key_unshift_all ka) | _ => Ok (h, MkCur a ka i p root0 st) end) = Ok (h', cu) ->
     (exists l, hp_node h m = Some (NLeaf l)) <-> (exists l, hp_node h' m = Some (NLeaf l))).
  { intros st Q. destruct (lf_mod l); try (injection Q as <- _; tauto). exact (IH _ _ _ _ _ _ Q m). }
  destruct p as [p|]; [|cbn in E; exact (DONE _ E)]. destruct (ksuf_matches l p ka <? 0); [|exact (DONE _ E)].
  destruct (lv_layer (lf_lv l p)) as [r|]; [|discriminate]. cbn [bind] in E. destruct (hget h r) as [nr|]; [|discriminate]. cbn [bind] in E.
  destruct (n_is_root nr); [exact (IH _ _ _ _ _ _ E m)|]. destruct (maybe_parent h r) as [r'|]; [|discriminate]. cbn [bind] in E.
  rewrite <- (IH _ _ _ _ _ _ E m). unfold hleaf, hget in Ea. destruct (hp_node h a) as [[la|]|] eqn:Na; cbn in Ea; try discriminate.
  destruct (Nat.eq_dec m a) as [->|N]; [rewrite hset_same; split; eauto|rewrite hset_other by auto; tauto].
Qed.
