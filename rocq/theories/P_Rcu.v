(* Epoch-based reclamation: safety. *)
From Verif Require Import Lib M_Circular M_Rcu Spec_Rcu P_Limbo2.

Lemma reach_trans f x y z : reach f x y -> reach f y z -> reach f x z.
Proof. induction 1; auto. intros H1. econstructor; eauto. Qed.
Lemma memb_in x l : memb x l = true <-> In x l.
Proof. unfold memb. rewrite existsb_exists. split; [intros (y & A & B); apply Nat.eqb_eq in B; now subst|intros H; exists x; split; auto; apply Nat.eqb_refl]. Qed.
(* A store adds no way to an object satisfying P. *)
Lemma reach_write f q ps x p : (forall y, In y ps -> In y (f q) \/ ~ reach f y p) -> reach (fun z => if Nat.eqb z q then ps else f z) x p -> reach f x p.
Proof.
  intros H R. induction R as [x|x y z Hy R IH]; [constructor|]. specialize (IH H). destruct (Nat.eqb_spec x q) as [->|N].
  - destruct (H y Hy) as [A|A]; [econstructor; eauto|contradiction].
  - econstructor; eauto.
Qed.

Section Rcu.
Context (n : nat).
(* What protects object p, retired at epoch e, from being released while thread i can reach it. *)
Definition guarded (s : rcu) (i p : nat) (e : Z) : Prop :=
  t_gc (r_th s i) <= e /\ r_active s <= e /\ (forall j b, t_bound (r_th s j) = Some b -> b <= e) /\
  match r_tick s with TScan ae rest => ae <= e \/ In i rest | _ => True end.
Record RInv (s : rcu) : Prop := {
  v_ge : 1 <= r_ge s < 2 ^ 63;
  v_active : 1 <= r_active s <= r_ge s;
  v_tick : match r_tick s with TInc v => v = r_ge s | TScan ae _ => 1 <= ae <= r_ge s | _ => True end;
  v_th : forall i, match t_pc (r_th s i) with RIdle => t_gc (r_th s i) = 0 | RStart v => 1 <= v <= r_ge s /\ (i < n)%nat | RIn => 1 <= t_gc (r_th s i) /\ (i < n)%nat end;
  v_gc : forall i, 0 <= t_gc (r_th s i) <= r_ge s;
  v_bound : forall i b, t_bound (r_th s i) = Some b -> 1 <= b <= r_ge s;
  v_ret : forall p e, r_retired s p = Some e -> 1 <= e <= r_ge s /\ (reach (r_succ s) root p -> e = r_ge s /\ r_freed s p = false);
  v_free : forall p, r_freed s p = true -> r_retired s p <> None;
  v_q : forall i p e, In (p, e) (t_q (r_th s i)) -> r_retired s p = Some e;
  v_ref : forall i q p e, t_pc (r_th s i) = RIn -> In q (t_refs (r_th s i)) -> reach (r_succ s) q p -> r_retired s p = Some e -> guarded s i p e /\ r_freed s p = false }.

Lemma inv_init succ : RInv (r_init succ).
Proof. constructor; cbn; auto; try lia; try easy. Qed.
Lemma inv_safe s : RInv s -> no_use_after_free s.
Proof.
  intros I i q p A B C. destruct (r_freed s p) eqn:F; auto. destruct (r_retired s p) as [e|] eqn:R; [|now apply (v_free s I) in F].
  destruct (v_ref s I i q p e A B C R). congruence.
Qed.

(* A thread changes its own state. *)
Lemma th_same s i t j : j <> i -> r_th (set_th s i t) j = r_th s j.
Proof. intros H. cbn. destruct (Nat.eqb_spec j i); [easy|reflexivity]. Qed.
Lemma th_own s i t : r_th (set_th s i t) i = t.
Proof. cbn. now rewrite Nat.eqb_refl. Qed.
Lemma inv_th s i t : RInv s ->
  match t_pc t with RIdle => t_gc t = 0 | RStart v => 1 <= v <= r_ge s /\ (i < n)%nat | RIn => 1 <= t_gc t /\ (i < n)%nat end ->
  0 <= t_gc t <= r_ge s -> (forall b, t_bound t = Some b -> b = r_active s \/ t_bound (r_th s i) = Some b) -> (forall p e, In (p, e) (t_q t) -> r_retired s p = Some e) ->
  (t_pc t = RIn -> forall q p e, In q (t_refs t) -> reach (r_succ s) q p -> r_retired s p = Some e -> guarded (set_th s i t) i p e /\ r_freed s p = false) ->
  RInv (set_th s i t).
Proof.
  intros I A1 A2 A3 A4 A5. pose proof I as [B1 B2 B3 B4 B5 B6 B7 B8 B9 B10]. constructor; auto.
  - intros j. destruct (Nat.eq_dec j i) as [->|N]; [rewrite th_own; auto|rewrite th_same by auto; apply B4].
  - intros j. destruct (Nat.eq_dec j i) as [->|N]; [rewrite th_own; auto|rewrite th_same by auto; apply B5].
  - intros j b. destruct (Nat.eq_dec j i) as [->|N]; [rewrite th_own|rewrite th_same by auto; apply B6]. intros H. destruct (A3 b H) as [->|X]; [exact B2|exact (B6 _ _ X)].
  - intros j. destruct (Nat.eq_dec j i) as [->|N]; [rewrite th_own; auto|rewrite th_same by auto; apply B9].
  - intros j q p e. destruct (Nat.eq_dec j i) as [->|N]; [rewrite th_own; intros; eapply A5; eauto|rewrite th_same by auto]. intros X1 X2 X3 X4.
    destruct (B10 j q p e X1 X2 X3 X4) as [(G1 & G2 & G3 & G4) F]. split; auto. split; [rewrite th_same; auto|]. split; auto. split; auto.
    intros k b. destruct (Nat.eq_dec k i) as [->|N']; [rewrite th_own|rewrite th_same; auto; apply G3]. intros H. destruct (A3 b H) as [->|X]; [exact G2|exact (G3 _ _ X)].
Qed.
Lemma guard_own s i t p e : (forall b, t_bound t = Some b -> b = r_active s \/ t_bound (r_th s i) = Some b) -> t_gc t = t_gc (r_th s i) -> guarded s i p e -> guarded (set_th s i t) i p e.
Proof.
  intros A B (G1 & G2 & G3 & G4). split; [rewrite th_own, B; auto|]. split; auto. split; auto.
  intros k b. destruct (Nat.eq_dec k i) as [->|N']; [rewrite th_own|rewrite th_same; auto; apply G3]. intros H. destruct (A b H) as [->|X]; [exact G2|exact (G3 _ _ X)].
Qed.

Lemma rstep_inv s a s' : RInv s -> unlinked_in_epoch s a -> rstep n s a = Some s' -> r_ge s + 2 < 2 ^ 63 -> RInv s' /\ r_ge s <= r_ge s' <= r_ge s + 2.
Proof.
  intros I [C U] E W. pose proof I as [B1 B2 B3 B4 B5 B6 B7 B8 B9 B10].
  assert (IN : forall i, is_in (r_th s i) = true -> t_pc (r_th s i) = RIn) by (intros i; unfold is_in; destruct (t_pc (r_th s i)); easy).
  destruct a as [i|i|i q p|i p|i q ps|i p|i|i|i| | | | |]; cbn [rstep careful] in *.
  - (* AStartLoad *)
    destruct ((i <? n)%nat && match t_pc (r_th s i) with RStart _ => false | _ => true end) eqn:Q; [|discriminate]. injection E as <-. apply andb_true_iff in Q. destruct Q as [Q _]. apply Nat.ltb_lt in Q.
    split; [|cbn; lia]. apply inv_th; cbn [t_pc t_gc t_bound t_q t_refs]; auto; try easy; try lia. apply B9.
  - (* AStartStore *)
    pose proof (B4 i) as Bi. destruct (t_pc (r_th s i)) as [|v|] eqn:Q; try discriminate. injection E as <-. split; [|cbn; lia].
    apply inv_th; auto; cbn [t_pc t_gc t_bound t_q t_refs]; try easy; try lia; try apply B9. intros _ q p e [<-|[]] R Re. destruct (B7 p e Re) as [_ X]. destruct (X R) as [-> F]. split; auto.
    split; [rewrite th_own; cbn; lia|]. split; [cbn; lia|]. split.
    { intros j b. destruct (Nat.eq_dec j i) as [->|N]; [rewrite th_own; discriminate|rewrite th_same by auto]. intros H. apply B6 in H. lia. }
    cbn [set_th r_tick]. destruct (r_tick s); auto. left. lia.
  - (* AFollow *)
    destruct (is_in (r_th s i)) eqn:Q1; [|discriminate]. destruct (memb q (t_refs (r_th s i))) eqn:Q2; [|discriminate]. destruct (memb p (r_succ s q)) eqn:Q3; [|discriminate]. cbn [andb] in E. injection E as <-.
    apply IN in Q1. pose proof (B4 i) as Bi. rewrite Q1 in Bi. apply memb_in in Q2. apply memb_in in Q3. split; [|cbn; lia].
    apply inv_th; auto; cbn [t_pc t_gc t_bound t_q t_refs]; auto; try apply B9. intros _ q' p' e Hq R Re.
    assert (G : guarded s i p' e /\ r_freed s p' = false). { destruct Hq as [<-|Hq]; [|eapply B10; eauto]. apply (B10 i q p' e); auto. econstructor; eauto. }
    destruct G as [G F]. split; auto. apply guard_own; auto.
  - (* ADrop *)
    destruct (is_in (r_th s i)) eqn:Q1; [|discriminate]. injection E as <-. apply IN in Q1. pose proof (B4 i) as Bi. rewrite Q1 in Bi. split; [|cbn; lia].
    apply inv_th; auto; cbn [t_pc t_gc t_bound t_q t_refs]; auto; try apply B9. intros _ q' p' e Hq R Re. apply in_remove in Hq. destruct Hq as [Hq _]. destruct (B10 i q' p' e Q1 Hq R Re) as [G F]. split; auto. apply guard_own; auto.
  - (* AWrite *)
    destruct (is_in (r_th s i)) eqn:Q1; [|discriminate]. injection E as <-. split; [|cbn; lia].
    assert (RW : forall x p e, r_retired s p = Some e -> reach (fun z => if Nat.eqb z q then ps else r_succ s z) x p -> reach (r_succ s) x p).
    { intros x p e Re R. eapply reach_write; [|exact R]. intros y Hy. destruct (C y Hy) as [X|X]; [now left|]. right. intros Y. specialize (X p Y). congruence. }
    constructor; cbn [r_ge r_active r_tick r_th r_succ r_retired r_freed]; auto.
    + intros p e Re. destruct (B7 p e Re) as [X Y]. split; auto. intros R. apply Y. eapply RW; eauto.
    + intros j q' p e X1 X2 X3 X4. apply (B10 j q' p e); auto. eapply RW; eauto.
  - (* ARetire *)
    destruct (is_in (r_th s i)) eqn:Q1; [|discriminate]. apply IN in Q1. injection E as <-. split; [|cbn; lia].
    assert (NF : r_freed s p = false) by (destruct (r_freed s p) eqn:F; auto; exfalso; exact (B8 p F C)).
    set (s1 := set_th s i (MkRt RIn (t_gc (r_th s i)) (t_refs (r_th s i)) (t_q (r_th s i) ++ [(p, r_ge s)]) (t_bound (r_th s i)))).
    assert (T1 : forall j, t_pc (r_th s1 j) = t_pc (r_th s j) /\ t_gc (r_th s1 j) = t_gc (r_th s j) /\ t_refs (r_th s1 j) = t_refs (r_th s j) /\ t_bound (r_th s1 j) = t_bound (r_th s j)).
    { intros j. unfold s1. destruct (Nat.eq_dec j i) as [->|N]; [rewrite th_own; cbn; auto|rewrite th_same; auto]. }
    assert (T2 : forall j, t_q (r_th s1 j) = t_q (r_th s j) \/ (j = i /\ t_q (r_th s1 j) = t_q (r_th s j) ++ [(p, r_ge s)])).
    { intros j. unfold s1. destruct (Nat.eq_dec j i) as [->|N]; [rewrite th_own; cbn; auto|rewrite th_same; auto]. }
    change (RInv (MkRcu (r_ge s) (r_active s) (r_tick s) (r_th s1) (r_succ s) (fun x => if Nat.eqb x p then Some (r_ge s) else r_retired s x) (r_freed s))). clearbody s1.
    constructor; cbn [r_ge r_active r_tick r_th r_succ r_retired r_freed]; auto.
    + intros j. destruct (T1 j) as (-> & -> & _). apply B4.
    + intros j. destruct (T1 j) as (_ & -> & _). apply B5.
    + intros j. destruct (T1 j) as (_ & _ & _ & ->). apply B6.
    + intros p' e. destruct (Nat.eqb_spec p' p) as [->|N]; [|apply B7]. intros [= <-]. split; [cbn; lia|]. auto.
    + intros p' F. destruct (Nat.eqb_spec p' p) as [->|N]; [discriminate|now apply B8].
    + intros j p' e H. destruct (Nat.eqb_spec p' p) as [->|N].
      * destruct (T2 j) as [X|(-> & X)]; rewrite X in H. { apply B9 in H. congruence. } apply in_app_iff in H. destruct H as [H|[[= <-]|[]]]; auto. apply B9 in H. congruence.
      * destruct (T2 j) as [X|(-> & X)]; rewrite X in H. { now apply B9 in H. } apply in_app_iff in H. destruct H as [H|[[= <-]|[]]]; [now apply B9 in H|easy].
    + intros j q p' e. destruct (T1 j) as (X1 & X2 & X3 & X4). rewrite X1, X3. intros H1 H2 H3 H4.
      assert (GG : t_gc (r_th s j) <= e /\ r_active s <= e /\ (forall j b, t_bound (r_th s j) = Some b -> b <= e) /\ match r_tick s with TScan ae rest => ae <= e \/ In j rest | _ => True end /\ r_freed s p' = false).
      { destruct (Nat.eqb_spec p' p) as [->|N].
        - injection H4 as <-. split; [apply B5|]. split; [lia|]. split; [intros k b Hb; apply B6 in Hb; lia|]. split; auto. destruct (r_tick s); auto. left. lia.
        - destruct (B10 j q p' e H1 H2 H3 H4) as [(G1 & G2 & G3 & G4) F]. auto 10. }
      destruct GG as (G1 & G2 & G3 & G4 & F). split; [|exact F]. split; cbn [r_th r_active r_tick]; [rewrite X2; auto|]. split; auto. split; auto. intros k b. destruct (T1 k) as (_ & _ & _ & ->). apply G3.
  - (* ALoadBound *)
    destruct (is_in (r_th s i)) eqn:Q1; [|discriminate]. injection E as <-. apply IN in Q1. pose proof (B4 i) as Bi. rewrite Q1 in Bi. split; [|cbn; lia].
    assert (X : forall b, Some (r_active s) = Some b -> b = r_active s \/ t_bound (r_th s i) = Some b) by (intros b [= <-]; now left).
    apply inv_th; auto; cbn [t_pc t_gc t_bound t_q t_refs]; auto; try apply B9. intros _ q' p' e Hq R Re. destruct (B10 i q' p' e Q1 Hq R Re) as [G F]. split; auto. apply guard_own; auto.
  - (* AFree *)
    destruct (t_bound (r_th s i)) as [b|] eqn:Qb; [|discriminate]. destruct (t_q (r_th s i)) as [|[p e] q] eqn:Qq; [discriminate|].
    destruct (is_in (r_th s i)) eqn:Q1; [|discriminate]. cbn [andb] in E. destruct (negb (ci_signed 64 (b - 1 - e) <? 0)) eqn:Q2; [|discriminate]. injection E as <-.
    apply IN in Q1. pose proof (B4 i) as Bi. rewrite Q1 in Bi. split; [|cbn; lia].
    assert (Re : r_retired s p = Some e) by (apply (B9 i); rewrite Qq; now left).
    destruct (B7 p e Re) as [E1 E2]. pose proof (B6 i b Qb) as E3. rewrite signed_epoch in Q2 by lia. apply negb_true_iff, Z.leb_gt in Q2.
    set (s1 := set_th s i (MkRt RIn (t_gc (r_th s i)) (t_refs (r_th s i)) q (Some b))).
    assert (I1 : RInv s1).
    { apply inv_th; auto; cbn [t_pc t_gc t_bound t_q t_refs]; auto.
      - intros b0 [= <-]. now right.
      - intros p' e' H. apply (B9 i). rewrite Qq. now right.
      - intros _ q' p' e' Hq R Re'. destruct (B10 i q' p' e' Q1 Hq R Re') as [G F]. split; auto. apply guard_own; auto. cbn. intros b0 [= <-]. now right. }
    destruct I1 as [D1 D2 D3 D4 D5 D6 D7 D8 D9 D10]. constructor; cbn [r_ge r_active r_tick r_th r_succ r_retired r_freed]; auto.
    + intros p' e' Re'. destruct (B7 p' e' Re') as [X1 X2]. split; auto. intros R. destruct (X2 R) as [-> F]. split; auto. destruct (Nat.eqb_spec p' p) as [->|N]; auto. assert (e = r_ge s) by congruence. lia.
    + intros p'. destruct (Nat.eqb_spec p' p) as [->|N]; [|apply B8]. intros _. cbn. congruence.
    + intros j q' p' e' H1 H2 H3 H4. destruct (D10 j q' p' e' H1 H2 H3 H4) as [(G1 & G2 & G3 & G4) F]. split; [exact (conj G1 (conj G2 (conj G3 G4)))|].
      destruct (Nat.eqb_spec p' p) as [->|N]; auto. exfalso. cbn in H4. assert (e' = e) by congruence. subst e'.
      assert (b <= e). { apply (G3 i). unfold s1. rewrite th_own. reflexivity. } lia.
  - (* AStop *)
    destruct (is_in (r_th s i)) eqn:Q1; [|discriminate]. injection E as <-. split; [|cbn; lia]. apply inv_th; cbn [t_pc t_gc t_bound t_q t_refs]; auto; try easy; try lia. apply B9.
  - (* ATickLoad *)
    destruct (r_tick s) eqn:Q; try discriminate. injection E as <-. split; [|cbn; lia]. constructor; cbn [set_tick r_ge r_active r_tick r_th r_succ r_retired r_freed]; auto. intros i q p e X1 X2 X3 X4. destruct (B10 i q p e X1 X2 X3 X4) as [(G1 & G2 & G3 & _) F]. split; [repeat split; auto|auto].
  - (* ATickStore *)
    destruct (r_tick s) as [|v| |] eqn:Q; try discriminate. injection E as <-. subst v. unfold ci_wrap. rewrite Z.mod_small by lia. split; [|cbn; lia].
    constructor; cbn [set_tick r_ge r_active r_tick r_th r_succ r_retired r_freed]; auto; [lia|lia| | | | |].
    + intros i. pose proof (B4 i) as X. destruct (t_pc (r_th s i)); auto. lia.
    + intros i. pose proof (B5 i). lia.
    + intros i b H. apply B6 in H. lia.
    + intros p e Re. destruct (B7 p e Re) as [X Y]. split; [lia|]. intros R. specialize (U p R). congruence.
    + intros i q p e X1 X2 X3 X4. destruct (B10 i q p e X1 X2 X3 X4) as [(G1 & G2 & G3 & _) F]. split; [repeat split; auto|auto].
  - (* AScanLoad *)
    destruct (r_tick s) eqn:Q; try discriminate. injection E as <-. split; [|cbn; lia]. constructor; cbn [set_tick r_ge r_active r_tick r_th r_succ r_retired r_freed]; auto. { lia. } intros i q p e X1 X2 X3 X4. destruct (B10 i q p e X1 X2 X3 X4) as [(G1 & G2 & G3 & _) F]. split; auto. split; auto. split; auto. split; auto.
    cbn [set_tick r_tick]. right. apply in_seq. pose proof (B4 i) as Y. cbn in X1. rewrite X1 in Y. lia.
  - (* AScanOne *)
    destruct (r_tick s) as [| | |ae [|i rest]] eqn:Q; try discriminate. injection E as <-. split; [|cbn; lia].
    pose proof (B5 i) as Y. set (te := t_gc (r_th s i)) in *.
    assert (X : negb (te =? 0) && (ci_signed 64 (te - ae) <? 0) = negb (te =? 0) && (te <? ae)).
    { destruct (Z.eqb_spec te 0); [reflexivity|]. cbn [negb andb]. replace (te - ae) with ((te + 1) - 1 - ae) by lia. rewrite signed_epoch by lia. destruct (Z.ltb_spec te ae), (Z.leb_spec (te + 1) ae); lia. }
    rewrite X. constructor; auto. { cbn. destruct (negb (te =? 0) && (te <? ae)) eqn:Z1; lia. }
    intros j q p e X1 X2 X3 X4. destruct (B10 j q p e X1 X2 X3 X4) as [(G1 & G2 & G3 & G4) F]. split; auto. split; auto. split; auto. split; auto. cbn [set_tick r_tick]. rewrite Q in G4.
    destruct G4 as [G4|[->|G4]]; [left|left|now right].
    + destruct (negb (te =? 0) && (te <? ae)) eqn:Z1; lia.
    + pose proof (B4 j) as Y2. cbn in X1. rewrite X1 in Y2. fold te in G1, Y2. destruct (negb (te =? 0) && (te <? ae)) eqn:Z1; lia.
  - (* AScanEnd *)
    destruct (r_tick s) as [| | |ae [|i rest]] eqn:Q; try discriminate. injection E as <-. split; [|cbn; lia]. constructor; cbn [set_tick r_ge r_active r_tick r_th r_succ r_retired r_freed]; auto. intros j q p e X1 X2 X3 X4. destruct (B10 j q p e X1 X2 X3 X4) as [(G1 & G2 & G3 & G4) F]. rewrite Q in G4. cbn [In] in G4. split; [|auto]. split; [auto|]. split; [cbn; tauto|]. split; [auto|]. exact Logic.I.
Qed.

Lemma rexec_inv l : forall s s', RInv s -> obeys unlinked_in_epoch n s l -> rexec n s l = Some s' -> r_ge s + 2 * Z.of_nat (length l) < 2 ^ 63 -> RInv s'.
Proof.
  induction l as [|a l IH]; intros s s' I O E W; cbn [rexec obeys length] in *; [now injection E as <-|]. destruct O as [O1 O2]. destruct (rstep n s a) as [s1|] eqn:E1; [|discriminate].
  destruct (rstep_inv s a s1 I O1 E1) as [I1 W1]; [lia|]. apply (IH s1 s'); auto. lia.
Qed.
Lemma rcu_safe succ l s : rexec n (r_init succ) l = Some s -> obeys unlinked_in_epoch n (r_init succ) l -> 1 + 2 * Z.of_nat (length l) < 2 ^ 63 -> no_use_after_free s.
Proof. intros E O W. apply inv_safe. apply (rexec_inv l (r_init succ)); auto. apply inv_init. Qed.

(* Unlinking first. *)
Definition unlinked (s : rcu) : Prop := clean_of s root.
Lemma unlinked_step s a s' : unlinked s -> unlinked_first s a -> rstep n s a = Some s' -> unlinked s'.
Proof.
  intros U [C O] E. assert (K : r_succ s' = r_succ s -> r_retired s' = r_retired s -> unlinked s') by (unfold unlinked, clean_of; intros -> ->; auto).
  destruct a as [i|i|i q p|i p|i q ps|i p|i|i|i| | | | |]; cbn [rstep careful] in *;
    try (repeat match type of E with context [match ?x with _ => _ end] => destruct x; try discriminate end; injection E as <-; apply K; reflexivity).
  - destruct (is_in (r_th s i)); [|discriminate]. injection E as <-. unfold unlinked, clean_of in *. cbn [r_succ r_retired]. intros p R. destruct (r_retired s p) as [e|] eqn:Re; auto.
    assert (R' : reach (r_succ s) root p). { eapply reach_write; [|exact R]. intros y Hy. destruct (C y Hy) as [X|X]; [now left|]. right. intros Y. specialize (X p Y). congruence. } specialize (U p R'). congruence.
  - destruct (is_in (r_th s i)); [|discriminate]. injection E as <-. unfold unlinked, clean_of in *. cbn [r_succ r_retired set_th]. intros p' R. destruct (Nat.eqb_spec p' p) as [->|N]; [contradiction|auto].
Qed.
Lemma first_epoch_rule l : forall s, unlinked s -> obeys unlinked_first n s l -> obeys unlinked_in_epoch n s l.
Proof.
  induction l as [|a l IH]; intros s U O; cbn [obeys] in *; auto. destruct O as [O1 O2]. split; [split; [apply O1|destruct a; auto]|]. destruct (rstep n s a) as [s1|] eqn:E; auto. apply IH; auto. eapply unlinked_step; eauto.
Qed.
Lemma rcu_safe_first succ l s : rexec n (r_init succ) l = Some s -> obeys unlinked_first n (r_init succ) l -> 1 + 2 * Z.of_nat (length l) < 2 ^ 63 -> no_use_after_free s.
Proof. intros E O W. apply (rcu_safe succ l); auto. apply first_epoch_rule; auto. intros p _. reflexivity. Qed.
End Rcu.

(* Concrete runs. *)
Lemma unreach f (S : list nat) x p : forallb (fun y => forallb (fun z => memb z S) (f y)) S = true -> memb x S = true -> memb p S = false -> ~ reach f x p.
Proof.
  intros A B C R. rewrite forallb_forall in A. apply memb_in in B. revert B. induction R as [x|x y z Hy R IH]; intros B.
  - apply memb_in in B. congruence.
  - apply IH; auto. specialize (A x B). rewrite forallb_forall in A. apply memb_in. auto.
Qed.
Lemma clean_closed s (S : list nat) x : forallb (fun y => forallb (fun z => memb z S) (r_succ s y)) S = true -> memb x S = true -> forallb (fun y => match r_retired s y with None => true | _ => false end) S = true -> clean_of s x.
Proof.
  intros A B C p R. rewrite forallb_forall in A. apply memb_in in B. revert B. induction R as [x|x y z Hy R IH]; intros B.
  - rewrite forallb_forall in C. specialize (C x B). now destruct (r_retired s x).
  - apply IH; auto. specialize (A x B). rewrite forallb_forall in A. apply memb_in. auto.
Qed.
Definition one_row (x : nat) : list nat := match x with O => [1%nat] | _ => [] end.
(* Two threads; thread 0 replaces object 1 by object 2, thread 1 reads. *)
Definition tick2 : list rlabel := [ATickLoad; ATickStore; AScanLoad; AScanOne; AScanOne; AScanEnd].
Definition bad_run : list rlabel :=
  [AStartLoad 0; AStartStore 0; AFollow 0 0 1; ARetire 0 1] ++ tick2 ++ [AStartLoad 1; AStartStore 1; AFollow 1 0 1; AWrite 0 0 [2%nat]; AStop 0] ++ tick2 ++
  [AStartLoad 0; AStartStore 0; ALoadBound 0; AFree 0].
(* The same with the store before the retirement; the reader is slow to start. Thread 0 can release object 1 only after
   thread 1 has left. *)
Definition good_run : list rlabel :=
  [AStartLoad 1; AStartLoad 0; AStartStore 0; AFollow 0 0 1] ++ tick2 ++ [AStartStore 1; AFollow 1 0 1; AWrite 0 0 [2%nat]; ARetire 0 1; AStop 0] ++ tick2 ++
  [AStartLoad 0; AStartStore 0; ALoadBound 0].
Definition good_end : list rlabel := [AStop 1; AStop 0] ++ tick2 ++ [AStartLoad 0; AStartStore 0; ALoadBound 0; AFree 0].
(* Checking the rules by computation, for structures with few objects. *)
Fixpoint reached (f : nat -> list nat) (k : nat) (l : list nat) : list nat :=
  match k with O => l | S k' => reached f k' (nodup Nat.eq_dec (l ++ flat_map f l)) end.
Definition closedb (f : nat -> list nat) (l : list nat) : bool := forallb (fun y => forallb (fun z => memb z l) (f y)) l.
Definition unreachb (f : nat -> list nat) (x p : nat) : bool := let l := reached f 3 [x] in closedb f l && memb x l && negb (memb p l).
Definition cleanb (s : rcu) (x : nat) : bool :=
  let l := reached (r_succ s) 3 [x] in closedb (r_succ s) l && memb x l && forallb (fun y => match r_retired s y with None => true | _ => false end) l.
Lemma unreachb_ok f x p : unreachb f x p = true -> ~ reach f x p.
Proof. unfold unreachb. intros H. apply andb_true_iff in H as [H C]. apply andb_true_iff in H as [A B]. apply (unreach f (reached f 3 [x])); auto. now destruct (memb p _). Qed.
Lemma cleanb_ok s x : cleanb s x = true -> clean_of s x.
Proof. unfold cleanb. intros H. apply andb_true_iff in H as [H C]. apply andb_true_iff in H as [A B]. apply (clean_closed s (reached (r_succ s) 3 [x])); auto. Qed.
Definition carefulb (s : rcu) (a : rlabel) : bool :=
  match a with
  | AWrite _ q ps => forallb (fun x => memb x (r_succ s q) || cleanb s x) ps
  | ARetire _ p => match r_retired s p with None => true | _ => false end
  | _ => true
  end.
Lemma carefulb_ok s a : carefulb s a = true -> careful s a.
Proof.
  destruct a; cbn; auto.
  - intros H x X. rewrite forallb_forall in H. specialize (H x X). apply orb_true_iff in H as [H|H]; [left; now apply memb_in|right; now apply cleanb_ok].
  - now destruct (r_retired s p).
Qed.
Definition firstb (s : rcu) (a : rlabel) : bool := carefulb s a && match a with ARetire _ p => unreachb (r_succ s) root p | _ => true end.
Definition sectionb (s : rcu) (a : rlabel) : bool :=
  carefulb s a && match a with AStop i | AStartLoad i => forallb (fun x => unreachb (r_succ s) root (fst x)) (t_q (r_th s i)) | _ => true end.
Lemma firstb_ok s a : firstb s a = true -> unlinked_first s a.
Proof. intros H. apply andb_true_iff in H as [A B]. split; [now apply carefulb_ok|]. destruct a; auto. now apply unreachb_ok. Qed.
Lemma sectionb_ok s a : sectionb s a = true -> unlinked_in_section s a.
Proof.
  intros H. apply andb_true_iff in H as [A B]. split; [now apply carefulb_ok|].
  destruct a; auto; apply Forall_forall; intros x X; rewrite forallb_forall in B; apply unreachb_ok; now apply B.
Qed.
Fixpoint obeysb (rule : rcu -> rlabel -> bool) (n : nat) (s : rcu) (l : list rlabel) : bool :=
  match l with [] => true | a :: l' => rule s a && match rstep n s a with None => true | Some s1 => obeysb rule n s1 l' end end.
Lemma obeysb_ok rb (rule : rcu -> rlabel -> Prop) n l : (forall s a, rb s a = true -> rule s a) -> forall s, obeysb rb n s l = true -> obeys rule n s l.
Proof. intros R. induction l as [|a l IH]; intros s H; cbn in *; auto. apply andb_true_iff in H as [A B]. split; auto. destruct (rstep n s a); auto. Qed.
Lemma bad_witness : exists l s, rexec 2 (r_init one_row) l = Some s /\ obeys unlinked_in_section 2 (r_init one_row) l /\ ~ no_use_after_free s.
Proof.
  exists bad_run.
  assert (X : match rexec 2 (r_init one_row) bad_run with Some s => match t_pc (r_th s 1) with RIn => true | _ => false end && memb 1 (t_refs (r_th s 1)) && r_freed s 1 | None => false end = true) by (vm_compute; reflexivity).
  destruct (rexec 2 (r_init one_row) bad_run) as [s|]; [|discriminate]. exists s. split; [reflexivity|]. split.
  - apply (obeysb_ok sectionb _ _ _ sectionb_ok). vm_compute. reflexivity.
  - intros H. apply andb_true_iff in X as [X F]. apply andb_true_iff in X as [P M].
    specialize (H 1%nat 1%nat 1%nat). apply memb_in in M. destruct (t_pc (r_th s 1)); try discriminate. specialize (H eq_refl M (reach_refl _ _)). congruence.
Qed.
Lemma good_witness : exists s s', rexec 2 (r_init one_row) good_run = Some s /\ rstep 2 s (AFree 0) = None /\ rexec 2 s good_end = Some s' /\ r_freed s' 1 = true /\ obeys unlinked_first 2 (r_init one_row) (good_run ++ good_end).
Proof.
  assert (X : match rexec 2 (r_init one_row) good_run with Some s => match rstep 2 s (AFree 0) with None => true | _ => false end && match rexec 2 s good_end with Some s' => r_freed s' 1 | None => false end | None => false end = true) by (vm_compute; reflexivity).
  destruct (rexec 2 (r_init one_row) good_run) as [s|]; [|discriminate]. apply andb_true_iff in X as [F X].
  destruct (rexec 2 s good_end) as [s'|] eqn:E; [|discriminate]. exists s, s'. split; [reflexivity|]. split; [now destruct (rstep 2 s (AFree 0))|]. split; [exact E|]. split; [exact X|].
  apply (obeysb_ok firstb _ _ _ firstb_ok). vm_compute. reflexivity.
Qed.
