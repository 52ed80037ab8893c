(* The other accesses keep the invariant too. *)
From Verif Require Import Lib M_Link Spec_Link P_Link1 P_Link2 P_Link3.

Ltac flat c := let e := fresh in intros; pose proof c as e; rewrite e; cbn; intuition congruence.
Lemma after_first Q f a : NoDup Q -> hd_error Q = Some f -> after Q a <> Some f.
Proof.
  destruct Q as [|x Q]; [discriminate|]. cbn [hd_error after]. intros N E. injection E as ->. inversion N; subst. destruct (Nat.eqb f a); intros X.
  - destruct Q; cbn in X; [discriminate|]. injection X as ->. apply H1. now left.
  - apply after_in in X. tauto.
Qed.
Lemma step_L0 s Q R S i n nr : Inv s Q R S -> l_pc s i = L0 n nr -> Inv (MkLs (l_nx s) (lset (l_pv s) nr (Some n)) (lset (l_pc s) i (L1 n nr)) (l_lk s) (l_used s) (l_bad s)) Q R S.
Proof.
  intros V C. pose proof (iFact _ _ _ _ V i) as F. rewrite C in F. destruct F as [F1 F2].
  assert (Hr : In nr (holds (l_pc s i))) by (rewrite C; cbn; auto).
  apply step_same; auto; try solve [rewrite ?C; cbn; tauto | discriminate].
  - cbn. rewrite lset_eq. auto.
  - intros j x J O. apply lset_neq. intros ->. destruct (own_pv_pred V _ _ O) as [[O1 _]|(a & _ & O1)]; [apply J; exact (held_uniq V _ _ _ O1 Hr)|]. apply after_in in O1. tauto.
  - intros a I. apply (keep_next (l_nx s) _ _ _ _ Q); auto; try (rewrite C; cbn; tauto). exact (iNext _ _ _ _ V a I).
  - intros a b I. apply (keep_prev (l_pv s)); auto; try (rewrite C; cbn; tauto); [exact (iPrev _ _ _ _ V a b I)|]. apply lset_neq. intros ->. apply after_in in I. tauto.
  - rewrite lset_neq; [exact (iFirst _ _ _ _ V)|]. intros <-. apply F2. pose proof (iHd _ _ _ _ V) as H. destruct Q; cbn in H; [discriminate|]. injection H as ->. now left.
Qed.
Lemma step_L3 s Q R S i n nr next : Inv s Q R S -> l_pc s i = L3 n nr next -> Inv (MkLs (lset (l_nx s) nr (next, false)) (l_pv s) (lset (l_pc s) i (L4 n nr next)) (l_lk s) (l_used s) (l_bad s)) Q R S.
Proof.
  intros V C. pose proof (iFact _ _ _ _ V i) as F. rewrite C in F. destruct F as (F1 & F2 & F3 & F4 & F5 & F6 & F7).
  assert (Hr : In nr (holds (l_pc s i))) by (rewrite C; cbn; auto). assert (NE : n <> nr) by (intros ->; exact (after_self _ _ (iNd _ _ _ _ V) F3)).
  assert (O : own_nx (l_pc s i) nr) by (rewrite C; cbn; unfold own_nx; cbn; auto).
  apply step_same; auto; try solve [rewrite ?C; cbn; tauto | discriminate].
  - cbn. rewrite lset_eq, lset_neq by auto. repeat split; auto.
  - intros j x J X. apply lset_neq. intros ->. apply J. exact (own_nx_uniq V _ _ _ X O).
  - intros x X. apply lset_neq. intros ->. destruct (iRem _ _ _ _ V _ X). contradiction.
  - intros a I. cbn [l_pc]. destruct (Nat.eq_dec a nr) as [->|X].
    + left. rewrite lset_eq. cbn [fst snd]. split; auto. split; [discriminate|]. split; intros j; (destruct (Nat.eq_dec j i) as [->|J]; [rewrite lset_eq; cbn; auto|rewrite lset_neq by auto]).
      * intros K. apply J. exact (held_uniq V _ _ _ (link_held _ _ K) Hr).
      * intros K. apply J. exact (held_uniq V _ _ _ (early_held _ _ (raw_early _ _ K)) Hr).
    + apply (keep_next (l_nx s) _ _ _ _ Q); auto; try (rewrite C; cbn; intuition congruence); [exact (iNext _ _ _ _ V a I)|now apply lset_neq].
  - intros a b I. apply (keep_prev (l_pv s)); auto; try (rewrite C; cbn; tauto). exact (iPrev _ _ _ _ V a b I).
  - exact (iFirst _ _ _ _ V).
  - intros j p J G. cbn. split; auto. intros <-. apply (proj1 (iExcl _ _ _ _ V j i nr G)). rewrite C. reflexivity.
Qed.
Lemma step_L4 s Q R S i n nr next pv' : Inv s Q R S -> l_pc s i = L4 n nr next -> (forall x, pv' x = if match next with Some b => Nat.eqb x b | None => false end then Some nr else l_pv s x) ->
  Inv (MkLs (l_nx s) pv' (lset (l_pc s) i (L5 n nr)) (l_lk s) (l_used s) (l_bad s)) Q R S.
Proof.
  intros V C P. pose proof (iFact _ _ _ _ V i) as F. rewrite C in F. destruct F as (F1 & F2 & F3 & F4 & F5 & F6 & F7 & F8).
  assert (Hn : In n (holds (l_pc s i))) by (rewrite C; cbn; auto). assert (Hr : In nr (holds (l_pc s i))) by (rewrite C; cbn; auto). pose proof (iNd _ _ _ _ V) as Nd. assert (NE : n <> nr) by (intros ->; exact (after_self _ _ Nd F3)).
  assert (P1 : forall b, after Q nr = Some b -> pv' b = Some nr) by (intros b B; rewrite P; replace next with (Some b) by congruence; now rewrite Nat.eqb_refl).
  assert (P2 : forall x, after Q nr <> Some x -> pv' x = l_pv s x) by (intros x X; rewrite P; destruct next as [b|]; auto; destruct (Nat.eqb_spec x b); [subst; congruence|auto]).
  apply step_same; auto; try solve [rewrite ?C; cbn; tauto | discriminate].
  - cbn [Fact]. rewrite P2; [|intros X; apply NE; exact (after_uniq _ _ _ _ Nd F3 X)]. rewrite F5. cbn [fst snd]. repeat split; auto. rewrite F4. apply leads_refl.
  - intros j x J O. apply P2. intros X. apply J. symmetry. exact (own_pv_held V _ _ _ _ Hr X O).
  - intros a I. apply (keep_next (l_nx s) _ _ _ _ Q); auto; try (rewrite C; cbn; tauto). exact (iNext _ _ _ _ V a I).
  - intros a b I. cbn [l_pc]. destruct (Nat.eq_dec a nr) as [->|X].
    + left. split; auto. split; intros j; (destruct (Nat.eq_dec j i) as [->|J]; [rewrite lset_eq; cbn; auto|rewrite lset_neq by auto]).
      * intros K. apply J. exact (held_uniq V _ _ _ (early_held _ _ K) Hr).
      * intros K. apply J. exact (held_uniq V _ _ _ (unl_held _ _ (at6_unl _ _ K)) Hr).
    + apply (keep_prev (l_pv s)); auto; try (rewrite C; cbn; intuition congruence); [exact (iPrev _ _ _ _ V a b I)|]. apply P2. intros Y. apply X. exact (after_uniq _ _ _ _ Nd I Y).
  - rewrite P2; [exact (iFirst _ _ _ _ V)|]. exact (after_first _ _ _ Nd (iHd _ _ _ _ V)).
Qed.
(* unlink marks the next pointer of the node *)
Lemma step_U2 s Q R S i n next nx' : Inv s Q R S -> (l_pc s i = U1 n \/ exists v, l_pc s i = U2 n v) ->
  after Q n = next -> l_nx s n = (next, false) -> nx' n = (next, isS next) -> (forall x, x <> n -> nx' x = l_nx s x) ->
  Inv (MkLs nx' (l_pv s) (lset (l_pc s) i (U3 n next)) (l_lk s) (l_used s) (l_bad s)) Q R S.
Proof.
  intros V C A N N1 N2.
  assert (F : In n Q /\ n <> first) by (pose proof (iFact _ _ _ _ V i) as F; destruct C as [C|[v C]]; rewrite C in F; exact F). destruct F as [F1 F2].
  assert (Hn : In n (holds (l_pc s i))) by (destruct C as [C|[v C]]; rewrite C; cbn; auto).
  assert (P0 : forall a, ~ newly (l_pc s i) a /\ ~ link_on (l_pc s i) a /\ ~ raw (l_pc s i) a /\ ~ unl (l_pc s i) a /\ ~ grab (l_pc s i) a /\ ~ early (l_pc s i) a /\ ~ at6 (l_pc s i) a)
    by (intros a; destruct C as [C|[v C]]; rewrite C; cbn; tauto).
  assert (NU : forall j, ~ own_nx (l_pc s j) n).
  { intros j O. destruct (Nat.eq_dec j i) as [->|J]; [destruct (P0 n) as (Q1 & Q2 & Q3 & Q4 & Q5 & Q6 & Q7); unfold own_nx in O; tauto|].
    destruct O as [O|[O|[O|O]]].
    - apply J. exact (held_uniq V _ _ _ (link_held _ _ O) Hn).
    - apply J. exact (held_uniq V _ _ _ (early_held _ _ O) Hn).
    - apply J. exact (held_uniq V _ _ _ (unl_held _ _ O) Hn).
    - destruct (fact_grab V _ _ O) as (m & _ & _ & M). congruence. }
  apply step_same; auto; try solve [cbn; tauto | discriminate].
  - destruct C as [C|[v C]]; rewrite C; reflexivity.
  - intros a. destruct (P0 a). cbn. tauto.
  - intros j x J O. apply N2. intros ->. exact (NU j O).
  - intros x X. apply N2. intros ->. destruct (iRem _ _ _ _ V _ X). contradiction.
  - intros a I. cbn [l_pc]. destruct (Nat.eq_dec a n) as [->|X].
    + left. rewrite N1. cbn [fst snd]. split; auto. split; [intros _; exists i; rewrite lset_eq; left; reflexivity|]. split; intros j; (destruct (Nat.eq_dec j i) as [->|J]; [rewrite lset_eq; cbn; auto|rewrite lset_neq by auto]); intros K; apply (NU j); unfold own_nx; auto.
      apply raw_early in K. auto.
    + destruct (P0 a) as (Q1 & Q2 & Q3 & Q4 & Q5 & Q6 & Q7). apply (keep_next (l_nx s) _ _ _ _ Q); auto; try (cbn; tauto). exact (iNext _ _ _ _ V a I).
  - intros a b I. destruct (P0 a) as (Q1 & Q2 & Q3 & Q4 & Q5 & Q6 & Q7). apply (keep_prev (l_pv s)); auto; try (cbn; tauto). exact (iPrev _ _ _ _ V a b I).
  - exact (iFirst _ _ _ _ V).
  - intros j p J G. cbn. split; auto. intros <-. apply (NU j). unfold own_nx. tauto.
Qed.
(* unlink marks the next pointer of the left neighbour *)
Lemma step_U4 s Q R S i n next p : Inv s Q R S -> l_pc s i = U4 n next p -> l_nx s p = (Some n, false) ->
  Inv (MkLs (lset (l_nx s) p (Some n, true)) (l_pv s) (lset (l_pc s) i (U5 n next p)) (l_lk s) (l_used s) (l_bad s)) Q R S.
Proof.
  intros V C N. pose proof (iFact _ _ _ _ V i) as F. rewrite C in F. destruct F as (F1 & F2 & F3 & F4).
  assert (Hn : In n (holds (l_pc s i))) by (rewrite C; cbn; auto).
  destruct (iKnown _ _ _ _ V _ _ _ _ C) as [K1 K2].
  assert (PQ : In p Q) by (destruct K1 as [K1|K1]; auto; destruct (iRem _ _ _ _ V _ K1) as (_ & K3 & _); rewrite N in K3; cbn in K3; intuition discriminate).
  assert (NE : p <> n) by (intros ->; rewrite N in F4; destruct next; cbn in F4; congruence).
  assert (NU : forall j, ~ own_nx (l_pc s j) p).
  { intros j [O|[O|[O|O]]].
    - destruct (fact_link V _ _ O) as (nr & _ & _ & B). rewrite N in B. discriminate.
    - exact (K2 j O).
    - pose proof (iFact _ _ _ _ V j) as F. destruct (l_pc s j); cbn in O, F; try contradiction; subst; assert (X : l_nx s p = (next0, isS next0)) by tauto; rewrite N in X; destruct next0; cbn in X; congruence.
    - destruct (fact_grab V _ _ O) as (m & _ & _ & M). congruence. }
  assert (A : after Q p = Some n).
  { destruct (iNext _ _ _ _ V p PQ) as [(A & _)|(j & [J|J])]; [now rewrite N in A| |]; exfalso; apply (NU j); unfold own_nx; auto. apply raw_early in J. auto. }
  apply step_same; auto; try solve [rewrite ?C; cbn; tauto | discriminate].
  - cbn. rewrite lset_eq, lset_neq by auto. repeat split; auto.
  - intros j x J O. apply lset_neq. intros ->. exact (NU j O).
  - intros x X. apply lset_neq. intros ->. destruct (iRem _ _ _ _ V _ X). contradiction.
  - intros a I. cbn [l_pc]. destruct (Nat.eq_dec a p) as [->|X].
    + left. rewrite lset_eq. cbn [fst snd]. split; auto. split; [intros _; exists i; rewrite lset_eq; right; reflexivity|]. split; intros j; (destruct (Nat.eq_dec j i) as [->|J]; [rewrite lset_eq; cbn; auto|rewrite lset_neq by auto]); intros K; apply (NU j); unfold own_nx; auto.
      apply raw_early in K. auto.
    + apply (keep_next (l_nx s) _ _ _ _ Q); auto; try (rewrite C; cbn; tauto); [exact (iNext _ _ _ _ V a I)|now apply lset_neq].
  - intros a b I. apply (keep_prev (l_pv s)); auto; try (rewrite C; cbn; tauto). exact (iPrev _ _ _ _ V a b I).
  - exact (iFirst _ _ _ _ V).
  - intros j q J G. pose proof (iExcl _ _ _ _ V j i q G) as E. rewrite C in E. exact E.
  - intros j q J G. cbn in G. subst q. split; [apply K2|]. intros U. apply (NU j). unfold own_nx. auto.
  - cbn. intros q <-. split; auto.
Qed.
Lemma step_U5 s Q R S i n next p pv' : Inv s Q R S -> l_pc s i = U5 n next p -> (forall x, pv' x = if match next with Some b => Nat.eqb x b | None => false end then Some p else l_pv s x) ->
  Inv (MkLs (l_nx s) pv' (lset (l_pc s) i (U6 n next p)) (l_lk s) (l_used s) (l_bad s)) Q R S.
Proof.
  intros V C P. pose proof (iFact _ _ _ _ V i) as F. rewrite C in F. destruct F as (F1 & F2 & F3 & F4 & F5 & F6).
  assert (Hn : In n (holds (l_pc s i))) by (rewrite C; cbn; auto). pose proof (iNd _ _ _ _ V) as Nd.
  assert (P2 : forall x, after Q n <> Some x -> pv' x = l_pv s x) by (intros x X; rewrite P; destruct next as [b|]; auto; destruct (Nat.eqb_spec x b); [subst; congruence|auto]).
  apply step_same; auto; try solve [rewrite ?C; cbn; tauto | discriminate].
  - cbn [Fact]. repeat split; auto. intros b ->. rewrite P. now rewrite Nat.eqb_refl.
  - intros j x J O. apply P2. intros X. apply J. symmetry. exact (own_pv_held V _ _ _ _ Hn X O).
  - intros a I. apply (keep_next (l_nx s) _ _ _ _ Q); auto; try (rewrite C; cbn; tauto). exact (iNext _ _ _ _ V a I).
  - intros a b I. cbn [l_pc]. destruct (Nat.eq_dec a n) as [->|X].
    + right. exists i. rewrite lset_eq. right. reflexivity.
    + apply (keep_prev (l_pv s)); auto; try (rewrite C; cbn; intuition congruence); [exact (iPrev _ _ _ _ V a b I)|]. apply P2. intros Y. apply X. exact (after_uniq _ _ _ _ Nd I Y).
  - rewrite P2; [exact (iFirst _ _ _ _ V)|]. exact (after_first _ _ _ Nd (iHd _ _ _ _ V)).
  - intros j q J G. pose proof (iExcl _ _ _ _ V j i q G) as E. rewrite C in E. exact E.
  - intros j q J G. apply (iExcl _ _ _ _ V i j q). rewrite C. exact G.
  - intros q G. pose proof (iExcl _ _ _ _ V i i q) as E. rewrite C in E. exact (E G).
Qed.
