(* Each access keeps the invariant of the list of leaves. *)
From Verif Require Import Lib M_Link Spec_Link P_Link1 P_Link2.

Lemma drops_iff (A B : nat -> Prop) Q S : (forall x, In x Q -> (A x <-> B x)) -> drops A Q S -> drops B Q S.
Proof.
  intros E D. induction D as [|x Q S N D IH|x Q S N D IH]; [constructor|apply drop_keep|apply drop_skip].
  - rewrite <- E; auto. now left.
  - apply IH. intros y Y. apply E. now right.
  - rewrite <- E; auto. now left.
  - apply IH. intros y Y. apply E. now right.
Qed.
Lemma drops_insert (A B : nat -> Prop) n nr Q S : ~ In nr Q -> In n Q -> (forall x, B x <-> A x \/ x = nr) -> drops A Q S -> drops B (insert_after n nr Q) S.
Proof.
  intros N I E D. revert N I. induction D as [|x Q S K D IH|x Q S K D IH]; cbn [insert_after In]; intros N I; [tauto| |].
  - destruct (Nat.eqb_spec x n) as [->|X].
    + apply drop_keep; [rewrite E; intuition|]. apply drop_skip; [rewrite E; auto|]. eapply drops_iff; [|exact D]. intros y Y. rewrite E. split; [auto|]. intros [C|C]; auto. subst. tauto.
    + apply drop_keep; [rewrite E; intuition|]. apply IH; tauto.
  - destruct (Nat.eqb_spec x n) as [->|X].
    + apply drop_skip; [rewrite E; auto|]. apply drop_skip; [rewrite E; auto|]. eapply drops_iff; [|exact D]. intros y Y. rewrite E. split; [auto|]. intros [C|C]; auto. subst. tauto.
    + apply drop_skip; [rewrite E; auto|]. apply IH; tauto.
Qed.
Lemma drops_link (A B : nat -> Prop) n nr Q S : NoDup Q -> after Q n = Some nr -> A nr -> ~ A n -> (forall x, B x <-> A x /\ x <> nr) -> drops A Q S -> drops B Q (insert_after n nr S).
Proof.
  intros N F An AN E D. revert N F. induction D as [|x Q S K D IH|x Q S K D IH]; cbn [insert_after after]; intros N F; [discriminate| |].
  - inversion N; subst. destruct (Nat.eqb_spec x n) as [->|X].
    + destruct Q as [|y Q]; cbn in F; [discriminate|]. injection F as ->. inversion H2; subst. inversion D; subst; [contradiction|].
      apply drop_keep; [rewrite E; tauto|]. apply drop_keep; [rewrite E; tauto|]. eapply drops_iff; [|eassumption]. intros y Y. rewrite E. split; [|tauto]. intros; split; auto. intros ->. contradiction.
    + apply drop_keep; [rewrite E; tauto|]. now apply IH.
  - inversion N; subst. destruct (Nat.eqb_spec x n) as [->|X]; [contradiction|]. apply drop_skip; [|now apply IH]. rewrite E. split; auto. intros ->. apply after_in in F. tauto.
Qed.
Lemma drops_remove (A B : nat -> Prop) n Q S : ~ A n -> (forall x, B x <-> A x) -> drops A Q S -> drops B (remove Nat.eq_dec n Q) (remove Nat.eq_dec n S).
Proof.
  intros N E D. induction D as [|x Q S K D IH|x Q S K D IH]; cbn [remove]; [constructor| |].
  - destruct (Nat.eq_dec n x); auto. apply drop_keep; auto. now rewrite E.
  - destruct (Nat.eq_dec n x); [subst; contradiction|]. apply drop_skip; auto. now rewrite E.
Qed.

Definition next_ok (nx : nat -> link) (pc : nat -> lpc) (Q : list nat) (a : nat) : Prop :=
  (fst (nx a) = after Q a /\ (snd (nx a) = true -> marked pc a) /\ (forall j, ~ link_on (pc j) a) /\ (forall j, ~ raw (pc j) a)) \/ (exists j, link_on (pc j) a \/ raw (pc j) a).
Definition prev_ok (pv : nat -> option nat) (pc : nat -> lpc) (a b : nat) : Prop :=
  (pv b = Some a /\ (forall j, ~ early (pc j) a) /\ (forall j, ~ at6 (pc j) a)) \/ (exists j, early (pc j) a \/ at6 (pc j) a).
Lemma keep_next nx nx' pc i c' Q Q' a : next_ok nx pc Q a -> nx' a = nx a -> after Q' a = after Q a -> (link_on c' a <-> link_on (pc i) a) -> (raw c' a <-> raw (pc i) a) -> (unl (pc i) a \/ grab (pc i) a -> unl c' a \/ grab c' a) ->
  next_ok nx' (lset pc i c') Q' a.
Proof.
  intros H N A L W M. unfold next_ok in *. rewrite N, A. destruct H as [(B & C & D & E)|(j & J)]; [left|right].
  - split; auto. split; [|split].
    + intros X. destruct (C X) as (j & J). exists j. destruct (Nat.eq_dec j i) as [->|Y]; [rewrite lset_eq; auto|now rewrite lset_neq].
    + intros j. destruct (Nat.eq_dec j i) as [->|Y]; [rewrite lset_eq, L; auto|rewrite lset_neq by auto; auto].
    + intros j. destruct (Nat.eq_dec j i) as [->|Y]; [rewrite lset_eq, W; auto|rewrite lset_neq by auto; auto].
  - exists j. destruct (Nat.eq_dec j i) as [->|Y]; [rewrite lset_eq, L, W; auto|rewrite lset_neq by auto; auto].
Qed.
Lemma keep_prev pv pv' pc i c' a b : prev_ok pv pc a b -> pv' b = pv b -> (early c' a <-> early (pc i) a) -> (at6 c' a <-> at6 (pc i) a) -> prev_ok pv' (lset pc i c') a b.
Proof.
  intros H N L W. unfold prev_ok in *. rewrite N. destruct H as [(B & D & E)|(j & J)]; [left|right].
  - split; auto. split.
    + intros j. destruct (Nat.eq_dec j i) as [->|Y]; [rewrite lset_eq, L; auto|rewrite lset_neq by auto; auto].
    + intros j. destruct (Nat.eq_dec j i) as [->|Y]; [rewrite lset_eq, W; auto|rewrite lset_neq by auto; auto].
  - exists j. destruct (Nat.eq_dec j i) as [->|Y]; [rewrite lset_eq, L, W; auto|rewrite lset_neq by auto; auto].
Qed.

(* Moving on without touching memory. *)
Lemma step_pc s Q R S i c' : Inv s Q R S -> holds c' = holds (l_pc s i) ->
  (forall a, newly c' a <-> newly (l_pc s i) a) -> (forall a, early c' a <-> early (l_pc s i) a) -> (forall a, raw c' a <-> raw (l_pc s i) a) -> (forall a, link_on c' a <-> link_on (l_pc s i) a) ->
  (forall a, at6 c' a <-> at6 (l_pc s i) a) -> (forall a, unl c' a <-> unl (l_pc s i) a) -> (forall a, grab c' a <-> grab (l_pc s i) a) ->
  Fact (l_nx s) (l_pv s) Q R c' -> (forall n nxt p, c' = U4 n nxt p -> (In p Q \/ In p R) /\ forall j, ~ early (l_pc s j) p) ->
  Inv (set_pc s i c') Q R S.
Proof.
  intros V H1 H2 H3 H4 H5 H6 H7 H8 F K. unfold set_pc. apply step_same; auto.
  - intros a I. apply (keep_next (l_nx s) _ _ _ _ Q); auto; [exact (iNext _ _ _ _ V a I)|]. rewrite H7, H8. tauto.
  - intros a b I. apply (keep_prev (l_pv s)); auto. exact (iPrev _ _ _ _ V a b I).
  - exact (iFirst _ _ _ _ V).
  - intros j p _ G. rewrite H3, H7. exact (iExcl _ _ _ _ V j i p G).
  - intros j p _. rewrite H8. exact (iExcl _ _ _ _ V i j p).
  - intros p. rewrite H3, H7, H8. exact (iExcl _ _ _ _ V i i p).
  - intros p. now rewrite H3.
  - intros n nxt p E. destruct (K _ _ _ E). split; auto.
Qed.

(* The new node enters the sequence. *)
Lemma step_insert s Q R S i n nr next nx' : Inv s Q R S -> (l_pc s i = L1 n nr \/ exists v, l_pc s i = L2 n nr v) ->
  after Q n = next -> l_nx s n = (next, false) -> nx' n = (next, isS next) -> (forall x, x <> n -> nx' x = l_nx s x) ->
  Inv (MkLs nx' (l_pv s) (lset (l_pc s) i (L3 n nr next)) (l_lk s) (l_used s) (l_bad s)) (insert_after n nr Q) R S.
Proof.
  intros V C A N N1 N2.
  assert (Ho : holds (l_pc s i) = [n; nr]) by (destruct C as [C|[v C]]; rewrite C; reflexivity).
  assert (F : In n Q /\ ~ In nr Q /\ l_pv s nr = Some n) by (pose proof (iFact _ _ _ _ V i) as F; destruct C as [C|[v C]]; rewrite C in F; exact F).
  destruct F as (F1 & F2 & F3). pose proof (iNd _ _ _ _ V) as Nd.
  assert (Hn : In n (holds (l_pc s i))) by (rewrite Ho; cbn; auto). assert (Hr : In nr (holds (l_pc s i))) by (rewrite Ho; cbn; auto).
  assert (D : n <> nr) by congruence.
  assert (AF := fun a => after_insert n nr Q a Nd F2 F1).
  assert (P0 : forall a, ~ newly (l_pc s i) a /\ ~ link_on (l_pc s i) a /\ ~ raw (l_pc s i) a /\ ~ unl (l_pc s i) a /\ ~ grab (l_pc s i) a /\ ~ early (l_pc s i) a /\ ~ at6 (l_pc s i) a)
    by (intros a; destruct C as [C|[v C]]; rewrite C; cbn; tauto).
  assert (NU : forall j, ~ own_nx (l_pc s j) n).
  { intros j O. destruct (Nat.eq_dec j i) as [->|J]; [destruct (P0 n) as (Q1 & Q2 & Q3 & Q4 & Q5 & Q6 & Q7); unfold own_nx in O; tauto|].
    destruct O as [O|[O|[O|O]]].
    - apply J. exact (held_uniq V _ _ _ (link_held _ _ O) Hn).
    - apply J. exact (held_uniq V _ _ _ (early_held _ _ O) Hn).
    - apply J. exact (held_uniq V _ _ _ (unl_held _ _ O) Hn).
    - destruct (fact_grab V _ _ O) as (m & _ & _ & M). congruence. }
  assert (NR : forall j, ~ own_nx (l_pc s j) nr).
  { intros j O. destruct (Nat.eq_dec j i) as [->|J]; [destruct (P0 nr) as (Q1 & Q2 & Q3 & Q4 & Q5 & Q6 & Q7); unfold own_nx in O; tauto|].
    destruct O as [O|[O|[O|O]]].
    - apply J. exact (held_uniq V _ _ _ (link_held _ _ O) Hr).
    - apply J. exact (held_uniq V _ _ _ (early_held _ _ O) Hr).
    - apply J. exact (held_uniq V _ _ _ (unl_held _ _ O) Hr).
    - destruct (fact_grab V _ _ O) as (m & M & _). apply after_in in M. tauto. }
  assert (HO : forall j, holds (lset (l_pc s) i (L3 n nr next) j) = holds (l_pc s j)) by (intros j; destruct (Nat.eq_dec j i) as [->|J]; [rewrite lset_eq, Ho; auto|now rewrite lset_neq]).
  assert (NRR : ~ In nr R) by (intros X; destruct (iRem _ _ _ _ V _ X) as (_ & _ & Y); exact (Y i Hr)).
  assert (NNR : ~ In n R) by (intros X; destruct (iRem _ _ _ _ V _ X) as (_ & _ & Y); exact (Y i Hn)).
  pose proof V as V0. destruct V as [vNd vHd vBad vRem vDisj vLock vUsed vFree vFact vNext vPrev vFirst vExcl vKnown vDrops]. constructor; cbn [l_nx l_pv l_pc l_lk l_used l_bad]; auto.
  - now apply nodup_insert.
  - destruct Q as [|y Q]; [discriminate|]. rewrite hd_insert; auto. discriminate.
  - intros x X. destruct (vRem _ X) as (B1 & B2 & B3). split; [rewrite in_insert; intros [Y|[Y _]]; [tauto|subst; contradiction]|].
    split; [rewrite N2; auto; intros ->; contradiction|]. intros j. rewrite HO. apply B3.
  - intros a b x. rewrite !HO. apply vDisj.
  - intros x [(j & J)|X]; apply vLock; auto. left. exists j. now rewrite HO in J.
  - intros x [(j & J)|[X|X]]; apply vUsed; auto.
    + left. exists j. now rewrite HO in J.
    + apply in_insert in X as [X|[-> _]]; auto. left. exists i. auto.
  - intros x U L. apply in_insert. left. auto.
  - intros j. destruct (Nat.eq_dec j i) as [->|J].
    + rewrite lset_eq. cbn [Fact]. rewrite !AF, Nat.eqb_refl. destruct (Nat.eqb_spec nr n); [congruence|]. rewrite Nat.eqb_refl.
      repeat split; auto; [apply in_insert; auto|apply in_insert; auto|]. intros b ->.
      destruct (vPrev _ _ A) as [(B1 & B2 & B3)|(k & [K|K])]; auto.
      * exfalso. apply (NU k). unfold own_nx. tauto.
      * exfalso. apply (NU k). unfold own_nx. apply at6_unl in K. tauto.
    + rewrite lset_neq by auto. apply (Fact_frame _ _ _ _ _ _ _ _ _ (vFact j)).
      * intros x O. apply N2. intros ->. exact (NU j O).
      * auto.
      * intros x _ X. apply in_insert. auto.
      * intros x O X. rewrite in_insert. intros [Y|[-> _]]; [tauto|]. apply J. exact (held_uniq V0 _ _ _ (absent_held _ _ O) Hr).
      * intros x O. rewrite AF. destruct (Nat.eqb_spec x n) as [->|X1]; [destruct (NU j O)|]. destruct (Nat.eqb_spec x nr) as [->|X2]; [destruct (NR j O)|]. auto.
      * intros m mr E L. rewrite AF. pose proof (vFact j) as Fj. assert (Hmr : In mr (holds (l_pc s j))) by (rewrite E; cbn; auto).
        destruct (Nat.eqb_spec mr n) as [->|X1]; [destruct J; exact (held_uniq V0 _ _ _ Hmr Hn)|]. destruct (Nat.eqb_spec mr nr) as [->|X2]; [destruct J; exact (held_uniq V0 _ _ _ Hmr Hr)|].
        eapply leads_nx; [|exact L]. intros x X. apply N2. intros ->. contradiction.
  - intros a I. change (next_ok nx' (lset (l_pc s) i (L3 n nr next)) (insert_after n nr Q) a). apply in_insert in I.
    destruct (Nat.eq_dec a n) as [->|X1]; [right; exists i; rewrite lset_eq; left; reflexivity|]. destruct (Nat.eq_dec a nr) as [->|X2]; [right; exists i; rewrite lset_eq; right; reflexivity|].
    destruct I as [I|[I _]]; [|congruence]. apply (keep_next (l_nx s) _ _ _ _ Q); auto.
    + exact (vNext a I).
    + rewrite AF. destruct (Nat.eqb_spec a n); [congruence|]. destruct (Nat.eqb_spec a nr); [congruence|]. auto.
    + destruct (P0 a) as (Q1 & Q2 & Q3 & Q4 & Q5 & Q6 & Q7). cbn. split; [congruence|tauto].
    + destruct (P0 a) as (Q1 & Q2 & Q3 & Q4 & Q5 & Q6 & Q7). cbn. split; [congruence|tauto].
    + destruct (P0 a) as (Q1 & Q2 & Q3 & Q4 & Q5 & Q6 & Q7). tauto.
  - intros a b. change (after (insert_after n nr Q) a = Some b -> prev_ok (l_pv s) (lset (l_pc s) i (L3 n nr next)) a b). rewrite AF. intros I.
    destruct (Nat.eqb_spec a n) as [->|X1].
    + injection I as <-. left. split; auto. split; intros j; (destruct (Nat.eq_dec j i) as [->|J]; [rewrite lset_eq; cbn; auto|rewrite lset_neq by auto]).
      * intros O. apply (NU j). unfold own_nx. tauto.
      * intros O. apply (NU j). unfold own_nx. apply at6_unl in O. tauto.
    + destruct (Nat.eqb_spec a nr) as [->|X2]; [right; exists i; rewrite lset_eq; left; reflexivity|]. apply (keep_prev (l_pv s)); auto.
      * exact (vPrev a b I).
      * destruct (P0 a) as (Q1 & Q2 & Q3 & Q4 & Q5 & Q6 & Q7). cbn. split; [congruence|tauto].
      * destruct (P0 a) as (Q1 & Q2 & Q3 & Q4 & Q5 & Q6 & Q7). cbn. tauto.
  - intros a b p G. destruct (Nat.eq_dec a i) as [->|X]; [rewrite lset_eq in G; contradiction|]. rewrite lset_neq in G by auto. destruct (Nat.eq_dec b i) as [->|X'].
    + rewrite lset_eq. cbn. split; auto. intros <-. apply (NR a). unfold own_nx. tauto.
    + rewrite lset_neq by auto. eauto.
  - intros j m nxt p E. destruct (Nat.eq_dec j i) as [->|X]; [rewrite lset_eq in E; discriminate|]. rewrite lset_neq in E by auto. destruct (vKnown _ _ _ _ E) as [K1 K2]. split; [destruct K1; auto; left; apply in_insert; auto|].
    intros k. destruct (Nat.eq_dec k i) as [->|Y]; [|rewrite lset_neq by auto; auto]. rewrite lset_eq. cbn. intros <-. tauto.
  - eapply drops_insert; [exact F2|exact F1| |exact vDrops]. intros x. split.
    + intros (j & J). destruct (Nat.eq_dec j i) as [->|X]; [rewrite lset_eq in J; cbn in J; auto|]. rewrite lset_neq in J by auto. left. exists j. auto.
    + intros [(j & J)| ->]; [|exists i; rewrite lset_eq; reflexivity]. exists j. destruct (Nat.eq_dec j i) as [->|X]; [destruct (P0 x); tauto|]. now rewrite lset_neq.
Qed.
