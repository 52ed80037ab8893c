(* Operations begin and end; the invariant holds along every run. *)
From Verif Require Import Lib M_Link Spec_Link P_Link1 P_Link2 P_Link3 P_Link4.

Lemma step_L5 s Q R S i n nr : Inv s Q R S -> l_pc s i = L5 n nr ->
  Inv (MkLs (lset (l_nx s) n (Some nr, false)) (l_pv s) (lset (l_pc s) i LIdle) (lset (lset (l_lk s) n false) nr false) (l_used s) (l_bad s)) Q R (insert_after n nr S).
Proof.
  intros V C. pose proof (iFact _ _ _ _ V i) as F. rewrite C in F. destruct F as (F1 & F2 & F3 & F4 & F5 & F6).
  assert (Hn : In n (holds (l_pc s i))) by (rewrite C; cbn; auto). assert (Hr : In nr (holds (l_pc s i))) by (rewrite C; cbn; auto). pose proof (iNd _ _ _ _ V) as Nd.
  assert (O : own_nx (l_pc s i) n) by (rewrite C; unfold own_nx; cbn; auto).
  assert (NE : n <> nr) by (intros ->; exact (after_self _ _ Nd F3)).
  assert (HO : forall j x, In x (holds (lset (l_pc s) i LIdle j)) -> j <> i /\ In x (holds (l_pc s j))) by (intros j x; destruct (Nat.eq_dec j i) as [->|J]; [rewrite lset_eq; cbn; tauto|rewrite lset_neq; auto]).
  assert (NN : ~ In n R /\ ~ In nr R) by (split; intros X; destruct (iRem _ _ _ _ V _ X); contradiction). destruct NN as [NN1 NN2].
  pose proof V as V0. destruct V as [vNd vHd vBad vRem vDisj vLock vUsed vFree vFact vNext vPrev vFirst vExcl vKnown vDrops]. constructor; cbn [l_nx l_pv l_pc l_lk l_used l_bad]; auto.
  - intros x X. destruct (vRem _ X) as (B1 & B2 & B3). split; auto. split; [rewrite lset_neq; auto; intros ->; contradiction|]. intros j J. apply HO in J as [_ J]. exact (B3 _ J).
  - intros a b x N A B. apply HO in A as [_ A]. apply HO in B as [_ B]. exact (vDisj _ _ _ N A B).
  - intros x X. assert (x <> n /\ x <> nr /\ l_lk s x = true) as (X1 & X2 & X3).
    { destruct X as [(j & J)|X].
      - apply HO in J as [J1 J2]. repeat split; [intros ->|intros ->|apply vLock; eauto]; apply J1; [exact (held_uniq V0 _ _ _ J2 Hn)|exact (held_uniq V0 _ _ _ J2 Hr)].
      - repeat split; [intros ->; contradiction|intros ->; contradiction|auto]. }
    rewrite !lset_neq; auto.
  - intros x [(j & J)|X]; apply vUsed; auto. left. apply HO in J as [_ J]. eauto.
  - intros x U L. destruct (Nat.eq_dec x nr) as [->|X1]; auto. rewrite lset_neq in L by auto. destruct (Nat.eq_dec x n) as [->|X2]; auto. rewrite lset_neq in L by auto. auto.
  - intros j. destruct (Nat.eq_dec j i) as [->|J]; [rewrite lset_eq; exact I|]. rewrite lset_neq by auto. apply (Fact_frame _ _ _ _ _ _ _ _ _ (vFact j)); auto.
    + intros x X. apply lset_neq. intros ->. apply J. exact (own_nx_uniq V0 _ _ _ X O).
    + intros m mr _. apply leads_nx. intros x X. apply lset_neq. intros ->. contradiction.
  - intros a I. change (next_ok (lset (l_nx s) n (Some nr, false)) (lset (l_pc s) i LIdle) Q a). destruct (Nat.eq_dec a n) as [->|X].
    + left. rewrite lset_eq. cbn [fst snd]. split; auto. split; [discriminate|]. split; intros j; (destruct (Nat.eq_dec j i) as [->|J]; [rewrite lset_eq; cbn; auto|rewrite lset_neq by auto]); intros K; apply J.
      * exact (held_uniq V0 _ _ _ (link_held _ _ K) Hn).
      * exact (held_uniq V0 _ _ _ (early_held _ _ (raw_early _ _ K)) Hn).
    + apply (keep_next (l_nx s) _ _ _ _ Q); auto; try (rewrite C; cbn; intuition congruence); [exact (vNext a I)|now apply lset_neq].
  - intros a b I. change (prev_ok (l_pv s) (lset (l_pc s) i LIdle) a b). apply (keep_prev (l_pv s)); auto; try (rewrite C; cbn; tauto). exact (vPrev a b I).
  - intros a b p G. destruct (Nat.eq_dec a i) as [->|X]; [rewrite lset_eq in G; contradiction|]. rewrite lset_neq in G by auto. destruct (Nat.eq_dec b i) as [->|X']; [rewrite lset_eq; cbn; auto|rewrite lset_neq by auto; eauto].
  - intros j m nxt p E. destruct (Nat.eq_dec j i) as [->|X]; [rewrite lset_eq in E; discriminate|]. rewrite lset_neq in E by auto. destruct (vKnown _ _ _ _ E) as [K1 K2]. split; auto. intros k. destruct (Nat.eq_dec k i) as [->|Y]; [rewrite lset_eq; cbn; auto|rewrite lset_neq by auto; auto].
  - eapply drops_link; [exact Nd|exact F3| | | |exact vDrops]; cbn.
    + exists i. rewrite C. reflexivity.
    + intros (j & J). assert (j = i) by exact (held_uniq V0 _ _ _ (newly_held _ _ J) Hn). subst. rewrite C in J. cbn in J. congruence.
    + intros x. split.
      * intros (j & J). destruct (Nat.eq_dec j i) as [->|X]; [rewrite lset_eq in J; contradiction|]. rewrite lset_neq in J by auto. split; eauto. intros ->. apply X. exact (held_uniq V0 _ _ _ (newly_held _ _ J) Hr).
      * intros [(j & J) X]. exists j. destruct (Nat.eq_dec j i) as [->|Y]; [rewrite C in J; cbn in J; congruence|]. now rewrite lset_neq.
Qed.
Lemma step_U6 s Q R S i n next p : Inv s Q R S -> l_pc s i = U6 n next p ->
  Inv (MkLs (lset (l_nx s) p (next, false)) (l_pv s) (lset (l_pc s) i LIdle) (l_lk s) (l_used s) (l_bad s)) (remove Nat.eq_dec n Q) (n :: R) (remove Nat.eq_dec n S).
Proof.
  intros V C. pose proof (iFact _ _ _ _ V i) as F. rewrite C in F. destruct F as (F1 & F2 & F3 & F4 & F5 & F6 & F7).
  assert (Hn : In n (holds (l_pc s i))) by (rewrite C; cbn; auto). pose proof (iNd _ _ _ _ V) as Nd.
  assert (O : own_nx (l_pc s i) p) by (rewrite C; unfold own_nx; cbn; auto).
  assert (On : own_nx (l_pc s i) n) by (rewrite C; unfold own_nx; cbn; auto).
  assert (NE : p <> n) by (intros ->; exact (after_self _ _ Nd F5)).
  assert (PQ : In p Q) by (apply after_in in F5; tauto).
  assert (AF := fun a => after_rem p n Q a Nd F5).
  assert (HO : forall j x, In x (holds (lset (l_pc s) i LIdle j)) -> j <> i /\ In x (holds (l_pc s j))) by (intros j x; destruct (Nat.eq_dec j i) as [->|J]; [rewrite lset_eq; cbn; tauto|rewrite lset_neq; auto]).
  assert (NP : ~ In p R) by (intros X; destruct (iRem _ _ _ _ V _ X); contradiction).
  assert (EX : forall j, ~ early (l_pc s j) p /\ ~ unl (l_pc s j) p) by (intros j; apply (iExcl _ _ _ _ V i j p); rewrite C; reflexivity).
  pose proof V as V0. destruct V as [vNd vHd vBad vRem vDisj vLock vUsed vFree vFact vNext vPrev vFirst vExcl vKnown vDrops]. constructor; cbn [l_nx l_pv l_pc l_lk l_used l_bad]; auto.
  - now apply nodup_rem.
  - destruct Q as [|q Q']; [discriminate|]. cbn in vHd |- *. injection vHd as ->. destruct (Nat.eq_dec n first); [congruence|reflexivity].
  - intros x X. split; [rewrite in_rem; destruct X as [<-|X]; [tauto|]; destruct (vRem _ X); tauto|]. destruct (Nat.eq_dec x n) as [->|Xn].
    + rewrite lset_neq by auto. rewrite F4. cbn. split; [destruct next; auto|]. intros j J. apply HO in J as [J1 J2]. apply J1. exact (held_uniq V0 _ _ _ J2 Hn).
    + destruct X as [X|X]; [congruence|]. destruct (vRem _ X) as (B1 & B2 & B3). rewrite lset_neq by (intros ->; contradiction). split; auto. intros j J. apply HO in J as [_ J]. exact (B3 _ J).
  - intros a b x N A B. apply HO in A as [_ A]. apply HO in B as [_ B]. exact (vDisj _ _ _ N A B).
  - intros x [(j & J)|[<-|X]]; apply vLock; eauto. left. apply HO in J as [_ J]. eauto.
  - intros x [(j & J)|[[<-|X]|X]]; apply vUsed; eauto; [left; apply HO in J as [_ J]; eauto|]. apply in_rem in X. tauto.
  - intros x U L. apply in_rem. split; auto. intros ->. rewrite vLock in L; [discriminate|eauto].
  - intros j. destruct (Nat.eq_dec j i) as [->|J]; [rewrite lset_eq; exact I|]. rewrite lset_neq by auto.
    assert (XN : forall x, own_nx (l_pc s j) x -> x <> p /\ x <> n) by (intros x X; split; intros ->; apply J; [exact (own_nx_uniq V0 _ _ _ X O)|exact (own_nx_uniq V0 _ _ _ X On)]).
    apply (Fact_frame _ _ _ _ _ _ _ _ _ (vFact j)); auto.
    + intros x X. apply lset_neq. apply (XN x X).
    + intros x X. rewrite in_rem. intros Y. split; auto. intros ->. apply J. exact (held_uniq V0 _ _ _ (mem_held _ _ X) Hn).
    + intros x X Y. rewrite in_rem. tauto.
    + intros x X. destruct (XN x X) as [X1 X2]. rewrite AF by auto. destruct (Nat.eqb_spec x p); [congruence|auto].
    + intros m mr E L.
      assert (Mr : mr <> n) by (intros ->; apply J; apply (held_uniq V0 _ _ n); auto; rewrite E; cbn; auto).
      assert (L' : leads (lset (l_nx s) p (next, false)) (n :: R) (fst (l_nx s m)) (after Q mr)).
      { apply leads_more. eapply leads_nx; [|exact L]. intros x X. apply lset_neq. intros ->. contradiction. }
      rewrite AF by auto. destruct (Nat.eqb_spec mr p) as [->|X]; auto. eapply leads_trans; [exact L'|]. rewrite F5. apply leads_step; [now left|].
      rewrite lset_neq by auto. rewrite F4, F3. cbn [fst]. apply leads_refl.
  - intros a I. change (next_ok (lset (l_nx s) p (next, false)) (lset (l_pc s) i LIdle) (remove Nat.eq_dec n Q) a). apply in_rem in I as [I An]. destruct (Nat.eq_dec a p) as [->|X].
    + left. rewrite lset_eq. cbn [fst snd]. rewrite AF by auto. rewrite Nat.eqb_refl. split; auto. split; [discriminate|].
      split; intros j; (destruct (Nat.eq_dec j i) as [->|J]; [rewrite lset_eq; cbn; auto|rewrite lset_neq by auto]); intros K; apply J; apply (own_nx_uniq V0 j i p); auto; unfold own_nx; auto. apply raw_early in K. auto.
    + apply (keep_next (l_nx s) _ _ _ _ Q); auto; try (rewrite C; cbn; intuition congruence); [exact (vNext a I)|now apply lset_neq|]. rewrite AF by auto. destruct (Nat.eqb_spec a p); [congruence|auto].
  - intros a b. change (after (remove Nat.eq_dec n Q) a = Some b -> prev_ok (l_pv s) (lset (l_pc s) i LIdle) a b). intros I.
    assert (An : a <> n) by (intros ->; apply after_in in I as [I _]; apply in_rem in I; tauto). rewrite AF in I by auto. destruct (Nat.eqb_spec a p) as [->|X].
    + left. split; [apply F7; congruence|]. split; intros j; (destruct (Nat.eq_dec j i) as [->|J]; [rewrite lset_eq; cbn; auto|rewrite lset_neq by auto]); [apply EX|]. intros K. apply at6_unl in K. now apply (EX j).
    + apply (keep_prev (l_pv s)); auto; try (rewrite C; cbn; intuition congruence). exact (vPrev a b I).
  - intros a b q G. destruct (Nat.eq_dec a i) as [->|X]; [rewrite lset_eq in G; contradiction|]. rewrite lset_neq in G by auto. destruct (Nat.eq_dec b i) as [->|X']; [rewrite lset_eq; cbn; auto|rewrite lset_neq by auto; eauto].
  - intros j m nxt q E. destruct (Nat.eq_dec j i) as [->|X]; [rewrite lset_eq in E; discriminate|]. rewrite lset_neq in E by auto. destruct (vKnown _ _ _ _ E) as [K1 K2]. split.
    + destruct (Nat.eq_dec q n) as [->|Y]; [right; now left|]. destruct K1; [left; apply in_rem; auto|right; now right].
    + intros k. destruct (Nat.eq_dec k i) as [->|Y]; [rewrite lset_eq; cbn; auto|rewrite lset_neq by auto; auto].
  - eapply drops_remove; [| |exact vDrops]; cbn.
    + intros (j & J). assert (j = i) by exact (held_uniq V0 _ _ _ (newly_held _ _ J) Hn). subst. rewrite C in J. contradiction.
    + intros x. split; intros (j & J); exists j; (destruct (Nat.eq_dec j i) as [->|Y]; [|rewrite lset_neq in *; auto]); [rewrite lset_eq in J; contradiction|rewrite C in J; contradiction].
Qed.
(* Taking locks. *)
Lemma step_begin s Q R S i c lk' used' : Inv s Q R S -> l_pc s i = LIdle ->
  (forall x, In x (holds c) -> l_lk s x = false /\ l_used s x = true \/ l_used s x = false) ->
  Fact (l_nx s) (l_pv s) Q R c -> (forall a, ~ newly c a /\ ~ link_on c a /\ ~ unl c a /\ ~ grab c a) -> (forall n nxt p, c <> U4 n nxt p) ->
  (forall x, lk' x = true <-> l_lk s x = true \/ In x (holds c)) -> (forall x, used' x = true <-> l_used s x = true \/ In x (holds c)) ->
  Inv (MkLs (l_nx s) (l_pv s) (lset (l_pc s) i c) lk' used' (l_bad s)) Q R S.
Proof.
  intros V C H F P NU L U.
  assert (P0 : forall a, ~ early c a /\ ~ raw c a /\ ~ at6 c a).
  { intros a. destruct (P a) as (P1 & P2 & P3 & P4). repeat split; intros X; [now apply P1, early_newly|now apply P1, early_newly, raw_early|now apply P3, at6_unl]. }
  assert (HD : forall j x, In x (holds c) -> ~ In x (holds (l_pc s j))).
  { intros j x X Y. destruct (H x X) as [[H1 H2]|H1].
    - rewrite (iLock _ _ _ _ V) in H1; [discriminate|eauto].
    - rewrite (iUsed _ _ _ _ V) in H1; [discriminate|eauto]. }
  pose proof V as V0. destruct V as [vNd vHd vBad vRem vDisj vLock vUsed vFree vFact vNext vPrev vFirst vExcl vKnown vDrops]. constructor; cbn [l_nx l_pv l_pc l_lk l_used l_bad]; auto.
  - intros x X. destruct (vRem _ X) as (B1 & B2 & B3). split; auto. split; auto. intros j. destruct (Nat.eq_dec j i) as [->|J]; [rewrite lset_eq|rewrite lset_neq; auto].
    intros Y. destruct (H x Y) as [[H1 H2]|H1]; [rewrite vLock in H1; [discriminate|auto]|rewrite vUsed in H1; [discriminate|auto]].
  - intros a b x N A B. destruct (Nat.eq_dec a i) as [->|Ja]; destruct (Nat.eq_dec b i) as [->|Jb]; [congruence| | |]; rewrite ?lset_eq in *; rewrite ?lset_neq in * by auto.
    + exact (HD _ _ A B).
    + exact (HD _ _ B A).
    + exact (vDisj _ _ _ N A B).
  - intros x [(j & J)|X]; apply L; [destruct (Nat.eq_dec j i) as [->|Y]; [rewrite lset_eq in J; auto|rewrite lset_neq in J by auto; left; apply vLock; eauto]|left; auto].
  - intros x [(j & J)|X]; apply U; [destruct (Nat.eq_dec j i) as [->|Y]; [rewrite lset_eq in J; auto|rewrite lset_neq in J by auto; left; apply vUsed; eauto]|left; auto].
  - intros x X Y. assert (l_lk s x <> true /\ ~ In x (holds c)) as [Z1 Z2] by (split; intros K; assert (lk' x = true) by (apply L; auto); congruence).
    apply U in X as [X|X]; [|contradiction]. apply vFree; auto. now apply Bool.not_true_is_false.
  - intros j. destruct (Nat.eq_dec j i) as [->|J]; [now rewrite lset_eq|rewrite lset_neq; auto].
  - intros a I. destruct (P a) as (P1 & P2 & P3 & P4). destruct (P0 a) as (P5 & P6 & P7). apply (keep_next (l_nx s) _ _ _ _ Q); auto; try (rewrite C; cbn; tauto). exact (vNext a I).
  - intros a b I. destruct (P a) as (P1 & P2 & P3 & P4). destruct (P0 a) as (P5 & P6 & P7). apply (keep_prev (l_pv s)); auto; try (rewrite C; cbn; tauto). exact (vPrev a b I).
  - intros a b p G. destruct (P p) as (P1 & P2 & P3 & P4). destruct (P0 p) as (P5 & P6 & P7). destruct (Nat.eq_dec a i) as [->|X]; [rewrite lset_eq in G; contradiction|]. rewrite lset_neq in G by auto. destruct (Nat.eq_dec b i) as [->|X']; [rewrite lset_eq; auto|rewrite lset_neq by auto; eauto].
  - intros j m nxt p E. destruct (Nat.eq_dec j i) as [->|X]; [rewrite lset_eq in E; now destruct (NU m nxt p)|]. rewrite lset_neq in E by auto. destruct (vKnown _ _ _ _ E) as [K1 K2]. split; auto. intros k. destruct (Nat.eq_dec k i) as [->|Y]; [rewrite lset_eq; apply P0|rewrite lset_neq by auto; auto].
  - eapply drops_iff; [|exact vDrops]. intros x _. split; intros (j & J); exists j; (destruct (Nat.eq_dec j i) as [->|Y]; [|rewrite lset_neq in *; auto]); [rewrite C in J; contradiction|rewrite lset_eq in J; destruct (P x); tauto].
Qed.

Lemma link_eqb_eq a b : link_eqb a b = true -> a = b.
Proof.
  destruct a as [[x|] m], b as [[y|] m']; cbn; try discriminate.
  - rewrite andb_true_iff. intros [A B]. apply Nat.eqb_eq in A. apply Bool.eqb_prop in B. congruence.
  - intros B. apply Bool.eqb_prop in B. congruence.
Qed.
Definition removed (R : list nat) (d : list ldone) : list nat := fold_left (fun R d => match d with DUnlink n => n :: R | _ => R end) d R.
(* the next pointer of a node that this thread holds and has not marked *)
Lemma own_free s Q R S i n v : Inv s Q R S -> In n (holds (l_pc s i)) -> In n Q -> ~ link_on (l_pc s i) n -> ~ early (l_pc s i) n -> ~ unl (l_pc s i) n ->
  fst (l_nx s n) = v -> l_nx s n = (v, false) \/ v = None -> after Q n = v /\ l_nx s n = (v, false).
Proof.
  intros V Hn I K1 K2 K3 E N.
  assert (X : forall j (T : lpc -> nat -> Prop), (forall c x, T c x -> In x (holds c)) -> ~ T (l_pc s i) n -> ~ T (l_pc s j) n).
  { intros j T HT NT TJ. assert (j = i) by exact (held_uniq V _ _ _ (HT _ _ TJ) Hn). subst. contradiction. }
  apply (next_free V); auto.
  - intros j. exact (X j early early_held K2).
  - intros j. right. exact (X j link_on link_held K1).
  - right. intros j. exact (X j unl unl_held K3).
Qed.
Lemma pc_id s Q R S : Inv s Q R S -> forall s', (forall x, l_nx s' x = l_nx s x) -> s' = s -> Inv s' Q R S.
Proof. intros V s' _ ->. exact V. Qed.
Theorem step_inv s a s' d Q R S : Inv s Q R S -> lstep s a = Some (s', d) -> exists Q', Inv s' Q' (removed R d) (fold_left list_after d S).
Proof.
  intros V. destruct a as [i n nr|i n|i]; cbn [lstep].
  - destruct (l_pc s i) eqn:C; try discriminate. destruct (l_used s n) eqn:Un; [|discriminate]. destruct (l_lk s n) eqn:Ln; [discriminate|]. destruct (l_used s nr) eqn:Ur; [discriminate|]. cbn. intros H; injection H as <- <-. exists Q.
    unfold set_pc, set_used, set_lk. cbn [l_nx l_pv l_pc l_lk l_used l_bad removed fold_left list_after].
    assert (In n Q) by (now apply (iFree _ _ _ _ V)). assert (~ In nr Q) by (intros X; rewrite (iUsed _ _ _ _ V) in Ur; [discriminate|auto]).
    apply step_begin; auto.
    + cbn. intros x [<-|[<-|[]]]; auto.
    + cbn. auto.
    + discriminate.
    + intros x. cbn. destruct (Nat.eq_dec x nr) as [->|X]; [rewrite lset_eq; intuition|]. rewrite lset_neq by auto. destruct (Nat.eq_dec x n) as [->|Y]; [rewrite lset_eq; intuition|]. rewrite lset_neq by auto. intuition congruence.
    + intros x. cbn. destruct (Nat.eq_dec x nr) as [->|X]; [rewrite lset_eq; intuition|]. rewrite lset_neq by auto. intuition congruence.
  - destruct (l_pc s i) eqn:C; try discriminate. destruct (l_used s n) eqn:Un; [|discriminate]. destruct (l_lk s n) eqn:Ln; [discriminate|]. destruct (l_pv s n) eqn:Pv; [|discriminate]. cbn. intros H; injection H as <- <-. exists Q.
    unfold set_pc, set_lk. cbn [l_nx l_pv l_pc l_lk l_used l_bad removed fold_left list_after].
    assert (In n Q) by (now apply (iFree _ _ _ _ V)).
    apply step_begin; auto.
    + cbn. intros x [<-|[]]; auto.
    + cbn. split; auto. intros ->. rewrite (iFirst _ _ _ _ V) in Pv. discriminate.
    + discriminate.
    + intros x. cbn. destruct (Nat.eq_dec x n) as [->|Y]; [rewrite lset_eq; intuition|]. rewrite lset_neq by auto. intuition congruence.
    + intros x. cbn. intuition congruence.
  - unfold access. pose proof (iFact _ _ _ _ V i) as F. destruct (l_pc s i) eqn:C; try discriminate; cbn [Fact] in F.
    + intros H; injection H as <- <-. exists Q. exact (step_L0 s Q R S i n nr V C).
    + destruct F as (F1 & F2 & F3). destruct (l_nx s n) as [[v|] m] eqn:N; [destruct m|]; intros H; injection H as <- <-.
      * exists Q. exact V.
      * exists Q. cbn [removed fold_left]. apply step_pc; auto; try discriminate; rewrite ?C; cbn; tauto.
      * exists (insert_after n nr Q). cbn [removed fold_left].
        destruct (own_free s Q R S i n None V) as [A B]; auto; try (rewrite C; cbn; tauto); [now rewrite N|].
        exact (step_insert s Q R S i n nr None (l_nx s) V (or_introl C) A B B (fun x _ => eq_refl)).
    + destruct F as (F1 & F2 & F3). destruct (link_eqb (l_nx s n) (Some v, false)) eqn:E; intros H; injection H as <- <-.
      * apply link_eqb_eq in E. exists (insert_after n nr Q). cbn [removed fold_left].
        destruct (own_free s Q R S i n (Some v) V) as [A B]; auto; try (rewrite C; cbn; tauto); [now rewrite E|].
        exact (step_insert s Q R S i n nr (Some v) (lset (l_nx s) n (Some v, true)) V (or_intror (ex_intro _ _ C)) A B (lset_eq _ _ _) (fun x X => lset_neq _ _ _ _ X)).
      * exists Q. cbn [removed fold_left]. apply step_pc; auto; try discriminate; rewrite ?C; cbn; tauto.
    + intros H; injection H as <- <-. exists Q. exact (step_L3 s Q R S i n nr next V C).
    + intros H; injection H as <- <-. exists Q. cbn [removed fold_left]. destruct next as [b|].
      * apply (step_L4 s Q R S i n nr (Some b)); auto.
      * apply (step_L4 s Q R S i n nr None); auto.
    + intros H; injection H as <- <-. exists Q. exact (step_L5 s Q R S i n nr V C).
    + destruct F as (F1 & F2). destruct (l_nx s n) as [[v|] m] eqn:N; [destruct m|]; intros H; injection H as <- <-.
      * exists Q. exact V.
      * exists Q. cbn [removed fold_left]. apply step_pc; auto; try discriminate; rewrite ?C; cbn; tauto.
      * exists Q. cbn [removed fold_left].
        destruct (own_free s Q R S i n None V) as [A B]; auto; try (rewrite C; cbn; tauto); [now rewrite N|].
        exact (step_U2 s Q R S i n None (l_nx s) V (or_introl C) A B B (fun x _ => eq_refl)).
    + destruct F as (F1 & F2). destruct (link_eqb (l_nx s n) (Some v, false)) eqn:E; intros H; injection H as <- <-.
      * apply link_eqb_eq in E. exists Q. cbn [removed fold_left].
        destruct (own_free s Q R S i n (Some v) V) as [A B]; auto; try (rewrite C; cbn; tauto); [now rewrite E|].
        exact (step_U2 s Q R S i n (Some v) (lset (l_nx s) n (Some v, true)) V (or_intror (ex_intro _ _ C)) A B (lset_eq _ _ _) (fun x X => lset_neq _ _ _ _ X)).
      * exists Q. cbn [removed fold_left]. apply step_pc; auto; try discriminate; rewrite ?C; cbn; tauto.
    + destruct F as (F1 & F2 & F3 & F4). assert (Hn : In n (holds (l_pc s i))) by (rewrite C; cbn; auto). destruct (prev_known V i n Hn F1 F2) as (p & P1 & P2 & P3). rewrite P1. intros H; injection H as <- <-. exists Q.
      cbn [removed fold_left]. apply step_pc; auto; try (rewrite C; cbn; tauto); [cbn; auto|]. intros a b q X. injection X as <- <- <-. auto.
    + destruct (link_eqb (l_nx s prev) (Some n, false)) eqn:E; intros H; injection H as <- <-.
      * apply link_eqb_eq in E. exists Q. exact (step_U4 s Q R S i n next prev V C E).
      * exists Q. cbn [removed fold_left]. apply step_pc; auto; try discriminate; rewrite ?C; cbn; tauto.
    + intros H; injection H as <- <-. exists Q. cbn [removed fold_left]. destruct next as [b|].
      * apply (step_U5 s Q R S i n (Some b) prev); auto.
      * apply (step_U5 s Q R S i n None prev); auto.
    + intros H; injection H as <- <-. exists (remove Nat.eq_dec n Q). exact (step_U6 s Q R S i n next prev V C).
Qed.
Lemma init_inv g p : Inv (l_init g p) [first] [] [first].
Proof.
  constructor; cbn; try tauto; auto.
  - repeat constructor. intros [].
  - intros x [(i & [])|[]].
  - intros x [(i & [])|[[]|[<-|[]]]]. reflexivity.
  - intros x. unfold lset. destruct (Nat.eqb_spec x first); [auto|discriminate].
  - intros a [<-|[]]. left. cbn. split; auto. split; [discriminate|]. auto.
  - intros a b. destruct (match a with 0%nat => true | _ => false end); discriminate.
  - discriminate.
  - apply drop_keep; [intros (i & [])|constructor].
Qed.
Theorem exec_inv l : forall s s' d Q R S, Inv s Q R S -> lexec s l = Some (s', d) -> exists Q', Inv s' Q' (removed R d) (fold_left list_after d S).
Proof.
  induction l as [|a l IH]; intros s s' d Q R S V; cbn [lexec].
  - intros H; injection H as <- <-. exists Q. exact V.
  - destruct (lstep s a) as [[s1 d1]|] eqn:E; [|discriminate]. destruct (lexec s1 l) as [[s2 d2]|] eqn:E2; [|discriminate]. intros H; injection H as <- <-.
    destruct (step_inv _ _ _ _ _ _ _ V E) as (Q1 & V1). destruct (IH _ _ _ _ _ _ V1 E2) as (Q2 & V2). exists Q2. unfold removed in *. now rewrite !fold_left_app.
Qed.
