(* Operations on the list of leaves can always finish. *)
From Verif Require Import Lib M_Link Spec_Link P_Link1 P_Link2 P_Link3 P_Link4 P_Link5 P_Link6.

Lemma lexec_app l1 : forall s l2 s1 d1 s2 d2, lexec s l1 = Some (s1, d1) -> lexec s1 l2 = Some (s2, d2) -> lexec s (l1 ++ l2) = Some (s2, d1 ++ d2).
Proof.
  induction l1 as [|a l1 IH]; intros s l2 s1 d1 s2 d2; cbn [lexec app].
  - intros H; injection H as <- <-. auto.
  - destruct (lstep s a) as [[sa da]|]; [|discriminate]. destruct (lexec sa l1) as [[sb db]|] eqn:E; [|discriminate]. intros H; injection H as <- <-. intros K. rewrite (IH _ _ _ _ _ _ E K). now rewrite app_assoc.
Qed.
(* Thread i alone can finish. *)
Definition fin (s : lstate) (i : nat) : Prop :=
  exists l s' d, lexec s l = Some (s', d) /\ accesses l /\ l_pc s' i = LIdle /\ forall j, j <> i -> l_pc s' j = l_pc s j.
Lemma fin_step s i s1 d1 : access s i = Some (s1, d1) -> (forall j, j <> i -> l_pc s1 j = l_pc s j) -> fin s1 i -> fin s i.
Proof.
  intros A P (l & s' & d & B & C & D & E). exists (Access i :: l), s', (d1 ++ d). split; [cbn [lexec lstep]; now rewrite A, B|]. split; [intros a [<-|X]; eauto|]. split; auto. intros j J. rewrite E, P; auto.
Qed.
Lemma fin_end s i s1 d1 : access s i = Some (s1, d1) -> (forall j, j <> i -> l_pc s1 j = l_pc s j) -> l_pc s1 i = LIdle -> fin s i.
Proof. intros A P I. apply (fin_step _ _ _ _ A P). exists [], s1, []. split; [reflexivity|]. split; [intros a []|]. auto. Qed.
Lemma link_refl x m : link_eqb (Some x, m) (Some x, m) = true.
Proof. cbn. now rewrite Nat.eqb_refl, Bool.eqb_reflx. Qed.
Lemma set_other s i c j : j <> i -> l_pc (set_pc s i c) j = l_pc s j.
Proof. intros. cbn. now apply lset_neq. Qed.
Lemma set_this s i c : l_pc (set_pc s i c) i = c.
Proof. cbn. apply lset_eq. Qed.
Lemma fin_L5 s i n nr : l_pc s i = L5 n nr -> fin s i.
Proof. intros C. eapply fin_end; [unfold access; rewrite C; reflexivity| |apply set_this]. intros j J. rewrite set_other by auto. reflexivity. Qed.
Lemma fin_L4 s i n nr next : l_pc s i = L4 n nr next -> fin s i.
Proof. intros C. eapply fin_step; [unfold access; rewrite C; reflexivity| |eapply fin_L5; apply set_this]. intros j J. rewrite set_other by auto. destruct next; reflexivity. Qed.
Lemma fin_L3 s i n nr next : l_pc s i = L3 n nr next -> fin s i.
Proof. intros C. eapply fin_step; [unfold access; rewrite C; reflexivity| |eapply fin_L4; apply set_this]. intros j J. rewrite set_other by auto. reflexivity. Qed.
Lemma fin_L1 s i n nr o : l_pc s i = L1 n nr -> l_nx s n = (o, false) -> fin s i.
Proof.
  intros C N. destruct o as [v|].
  - eapply fin_step; [unfold access; rewrite C, N; reflexivity|intros j J; now apply set_other|].
    eapply fin_step; [unfold access; rewrite set_this; cbn [l_nx set_pc]; rewrite N, link_refl; reflexivity|intros j J; rewrite set_other by auto; reflexivity|]. eapply fin_L3. apply set_this.
  - eapply fin_step; [unfold access; rewrite C, N; reflexivity|intros j J; now apply set_other|]. eapply fin_L3. apply set_this.
Qed.
Lemma fin_L2 s i n nr v o : l_pc s i = L2 n nr v -> l_nx s n = (o, false) -> fin s i.
Proof.
  intros C N. destruct (link_eqb (l_nx s n) (Some v, false)) eqn:E.
  - eapply fin_step; [unfold access; rewrite C, E; reflexivity|intros j J; rewrite set_other by auto; reflexivity|]. eapply fin_L3. apply set_this.
  - eapply fin_step; [unfold access; rewrite C, E; reflexivity|intros j J; rewrite set_other by auto; reflexivity|]. eapply fin_L1; [apply set_this|exact N].
Qed.
Lemma fin_L0 s i n nr o : l_pc s i = L0 n nr -> l_nx s n = (o, false) -> fin s i.
Proof. intros C N. eapply fin_step; [unfold access; rewrite C; reflexivity|intros j J; rewrite set_other by auto; reflexivity|]. eapply fin_L1; [apply set_this|exact N]. Qed.
Lemma fin_U6 s i n next p : l_pc s i = U6 n next p -> fin s i.
Proof. intros C. eapply fin_end; [unfold access; rewrite C; reflexivity| |apply set_this]. intros j J. rewrite set_other by auto. reflexivity. Qed.
Lemma fin_U5 s i n next p : l_pc s i = U5 n next p -> fin s i.
Proof. intros C. eapply fin_step; [unfold access; rewrite C; reflexivity| |eapply fin_U6; apply set_this]. intros j J. rewrite set_other by auto. destruct next; reflexivity. Qed.
Lemma fin_U3 s i n next a : l_pc s i = U3 n next -> l_pv s n = Some a -> l_nx s a = (Some n, false) -> fin s i.
Proof.
  intros C P N. eapply fin_step; [unfold access; rewrite C, P; reflexivity|intros j J; now apply set_other|].
  eapply fin_step; [unfold access; rewrite set_this; cbn [l_nx set_pc]; rewrite N, link_refl; reflexivity|intros j J; rewrite set_other by auto; reflexivity|]. eapply fin_U5. apply set_this.
Qed.
Lemma fin_U4 s i n next p a : l_pc s i = U4 n next p -> l_pv s n = Some a -> l_nx s a = (Some n, false) -> fin s i.
Proof.
  intros C P N. destruct (link_eqb (l_nx s p) (Some n, false)) eqn:E.
  - eapply fin_step; [unfold access; rewrite C, E; reflexivity|intros j J; rewrite set_other by auto; reflexivity|]. eapply fin_U5. apply set_this.
  - eapply fin_step; [unfold access; rewrite C, E; reflexivity|intros j J; rewrite set_other by auto; reflexivity|]. eapply fin_U3; [apply set_this|exact P|exact N].
Qed.
Lemma fin_U1 s i n o a : l_pc s i = U1 n -> l_nx s n = (o, false) -> a <> n -> l_pv s n = Some a -> l_nx s a = (Some n, false) -> fin s i.
Proof.
  intros C N A P X. destruct o as [v|].
  - eapply fin_step; [unfold access; rewrite C, N; reflexivity|intros j J; now apply set_other|].
    eapply fin_step; [unfold access; rewrite set_this; cbn [l_nx set_pc]; rewrite N, link_refl; reflexivity|intros j J; rewrite set_other by auto; reflexivity|].
    eapply fin_U3; [apply set_this|exact P|]. cbn. now rewrite lset_neq.
  - eapply fin_step; [unfold access; rewrite C, N; reflexivity|intros j J; now apply set_other|]. eapply fin_U3; [apply set_this|exact P|exact X].
Qed.
Lemma fin_U2 s i n v o a : l_pc s i = U2 n v -> l_nx s n = (o, false) -> a <> n -> l_pv s n = Some a -> l_nx s a = (Some n, false) -> fin s i.
Proof.
  intros C N A P X. destruct (link_eqb (l_nx s n) (Some v, false)) eqn:E.
  - eapply fin_step; [unfold access; rewrite C, E; reflexivity|intros j J; rewrite set_other by auto; reflexivity|]. eapply fin_U3; [apply set_this|exact P|]. cbn. now rewrite lset_neq.
  - eapply fin_step; [unfold access; rewrite C, E; reflexivity|intros j J; rewrite set_other by auto; reflexivity|]. eapply fin_U1; [apply set_this|exact N|exact A|exact P|exact X].
Qed.

(* Threads are finitely many. *)
Definition below (s : lstate) (N : nat) : Prop := forall i, (N <= i)%nat -> l_pc s i = LIdle.
Lemma access_pc s i s' d : access s i = Some (s', d) -> forall j, j <> i -> l_pc s' j = l_pc s j.
Proof.
  unfold access. intros H j J. destruct (l_pc s i); try discriminate;
    repeat match type of H with context [match ?x with _ => _ end] => destruct x end; injection H as <- <-; cbn; rewrite ?lset_neq by auto; auto.
Qed.
Lemma step_below s a s' d N : below s N -> lstep s a = Some (s', d) -> exists N', below s' N'.
Proof.
  intros B H. assert (X : exists i, forall j, j <> i -> l_pc s' j = l_pc s j).
  { destruct a as [i n nr|i n|i]; exists i; cbn [lstep] in H.
    - destruct (l_pc s i); try discriminate. destruct (_ && _); [|discriminate]. injection H as <- <-. intros j J. cbn. now apply lset_neq.
    - destruct (l_pc s i); try discriminate. destruct (_ && _); [|discriminate]. injection H as <- <-. intros j J. cbn. now apply lset_neq.
    - exact (access_pc _ _ _ _ H). }
  destruct X as (i & X). exists (Nat.max N (Datatypes.S i)). intros j J. rewrite X by lia. apply B. lia.
Qed.
Lemma exec_below l : forall s N s' d, below s N -> lexec s l = Some (s', d) -> exists N', below s' N'.
Proof.
  induction l as [|a l IH]; intros s N s' d B; cbn [lexec]; [intros H; injection H as <- <-; eauto|].
  destruct (lstep s a) as [[s1 d1]|] eqn:E; [|discriminate]. destruct (lexec s1 l) as [[s2 d2]|] eqn:E2; [|discriminate]. intros H; injection H as <- <-.
  destruct (step_below _ _ _ _ _ B E) as (N1 & B1). eauto.
Qed.
Lemma search (P : nat -> Prop) (D : forall i, P i \/ ~ P i) N : (exists i, (i < N)%nat /\ P i) \/ (forall i, (i < N)%nat -> ~ P i).
Proof.
  induction N as [|N [ (i & A & B)|IH]]; [right; intros; lia|left; exists i; split; [lia|auto]|]. destruct (D N) as [X|X]; [left; exists N; split; [lia|auto]|]. right. intros i I. destruct (Nat.eq_dec i N) as [->|]; auto. apply IH. lia.
Qed.
Lemma first_split (P : nat -> Prop) (D : forall x, P x \/ ~ P x) Q x : In x Q -> P x -> exists Q1 n Q2, Q = Q1 ++ n :: Q2 /\ P n /\ forall y, In y Q1 -> ~ P y.
Proof.
  induction Q as [|q Q IH]; intros [] X.
  - subst. exists [], x, Q. repeat split; auto.
  - destruct (D q) as [Y|Y]; [exists [], q, Q; repeat split; auto|]. destruct (IH H X) as (Q1 & n & Q2 & A & B & C). exists (q :: Q1), n, Q2. subst. repeat split; auto. intros y [<-|Z]; auto.
Qed.

Definition linking (c : lpc) : Prop := match c with L0 _ _ | L1 _ _ | L2 _ _ _ | L3 _ _ _ | L4 _ _ _ | L5 _ _ => True | _ => False end.
Lemma some_fin s Q R S N : Inv s Q R S -> below s N -> idle s \/ exists i, l_pc s i <> LIdle /\ fin s i.
Proof.
  intros V B.
  assert (OUT : forall i, (N <= i)%nat -> forall T : lpc -> Prop, ~ T LIdle -> ~ T (l_pc s i)) by (intros i I T NT; now rewrite (B i I)).
  destruct (search (fun i => exists p, grab (l_pc s i) p)) with (N := N) as [(i & I & p & G)|NG].
  { intros i. destruct (l_pc s i); cbn; try (right; intros (? & []); fail); left; eauto. }
  { right. exists i. destruct (l_pc s i) eqn:C; try contradiction; (split; [discriminate|]); [exact (fin_U5 _ _ _ _ _ C)|exact (fin_U6 _ _ _ _ _ C)]. }
  assert (NG' : forall i p, ~ grab (l_pc s i) p).
  { intros i p G. destruct (Nat.lt_ge_cases i N) as [L|L]; [exact (NG i L (ex_intro _ p G))|]. now rewrite (B i L) in G. }
  assert (FREE : forall i n, In n Q -> In n (holds (l_pc s i)) -> ~ unl (l_pc s i) n -> ~ link_on (l_pc s i) n -> ~ raw (l_pc s i) n -> exists o, l_nx s n = (o, false)).
  { intros i n IQ Hn U L W. destruct (iNext _ _ _ _ V n IQ) as [(A1 & A2 & _)|(j & [J|J])].
    - exists (fst (l_nx s n)). destruct (l_nx s n) as [o m]. cbn in *. destruct m; auto. destruct (A2 eq_refl) as (j & [J|J]); [|now destruct (NG' j n)].
      assert (j = i) by exact (held_uniq V _ _ _ (unl_held _ _ J) Hn). subst. contradiction.
    - assert (j = i) by exact (held_uniq V _ _ _ (link_held _ _ J) Hn). subst. contradiction.
    - assert (j = i) by exact (held_uniq V _ _ _ (early_held _ _ (raw_early _ _ J)) Hn). subst. contradiction. }
  destruct (search (fun i => linking (l_pc s i))) with (N := N) as [(i & I & K)|NL].
  { intros i. destruct (l_pc s i); cbn; auto. }
  { right. exists i. pose proof (iFact _ _ _ _ V i) as F. pose proof (FREE i) as FR. destruct (l_pc s i) eqn:C; try contradiction; (split; [discriminate|]); cbn [Fact] in F.
    - destruct (FR n) as [o O]; cbn; try tauto. exact (fin_L0 _ _ _ _ _ C O).
    - destruct (FR n) as [o O]; cbn; try tauto. exact (fin_L1 _ _ _ _ _ C O).
    - destruct (FR n) as [o O]; cbn; try tauto. exact (fin_L2 _ _ _ _ _ _ C O).
    - exact (fin_L3 _ _ _ _ _ C).
    - exact (fin_L4 _ _ _ _ _ C).
    - exact (fin_L5 _ _ _ _ C). }
  assert (NL' : forall i, ~ linking (l_pc s i)).
  { intros i G. destruct (Nat.lt_ge_cases i N) as [L|L]; [exact (NL i L G)|]. now rewrite (B i L) in G. }
  destruct (search (fun i => l_pc s i <> LIdle)) with (N := N) as [(i & I & K)|NA].
  { intros i. destruct (l_pc s i); try (left; discriminate). right. auto. }
  2: { left. intros i. destruct (Nat.lt_ge_cases i N) as [L|L]; [|auto]. specialize (NA i L). destruct (l_pc s i); auto; destruct NA; discriminate. }
  right. set (held := fun x => exists j, (j < N)%nat /\ In x (holds (l_pc s j))).
  assert (Hx : exists x, In x Q /\ held x).
  { pose proof (iFact _ _ _ _ V i) as F. pose proof (NL' i) as L. pose proof (NG' i) as G. destruct (l_pc s i) eqn:C; cbn in L; try tauto; cbn [Fact] in F; exists n; (split; [tauto|]); exists i; (split; [auto|]); rewrite C; now left. }
  destruct Hx as (x & Xq & Xh).
  destruct (first_split held) with (Q := Q) (x := x) as (Q1 & n & Q2 & E & (j & J1 & J2) & Y); auto.
  { intros y. unfold held. destruct (search (fun j => In y (holds (l_pc s j)))) with (N := N) as [A|A]; [intros k; destruct (in_dec Nat.eq_dec y (holds (l_pc s k))); auto|auto|]. right. intros (k & K1 & K2). exact (A k K1 K2). }
  assert (Fn : In n Q /\ n <> first).
  { pose proof (iFact _ _ _ _ V j) as F. pose proof (NL' j) as L. pose proof (NG' j) as G. destruct (l_pc s j) eqn:C; cbn in L, J2; try tauto; cbn [Fact] in F; destruct J2 as [<-|[]]; tauto. }
  destruct Fn as [Fn1 Fn2]. destruct (pred_exists' _ _ _ (iNd _ _ _ _ V) (iHd _ _ _ _ V) Fn1 Fn2) as (a & A).
  assert (Aq : ~ held a).
  { destruct Q1 as [|q Q1 _] using rev_ind.
    - rewrite E in A. exfalso. rewrite E in V. apply (after_first _ n a (iNd _ _ _ _ V)); auto.
    - assert (a = q); [|subst; apply Y; apply in_or_app; right; now left]. apply (after_uniq Q _ _ n (iNd _ _ _ _ V) A). pose proof (iNd _ _ _ _ V) as Nd. rewrite E in Nd |- *. rewrite <- app_assoc in *. cbn in *. now rewrite after_app. }
  assert (Aq' : forall k, ~ In a (holds (l_pc s k))) by (intros k K1; apply Aq; exists k; split; auto; destruct (Nat.lt_ge_cases k N) as [L|L]; auto; rewrite (B k L) in K1; destruct K1).
  assert (P1 : l_pv s n = Some a).
  { destruct (iPrev _ _ _ _ V a n A) as [(P & _)|(k & [K1|K1])]; auto; exfalso; apply (Aq' k); [now apply early_held|now apply unl_held, at6_unl]. }
  assert (P2 : l_nx s a = (Some n, false)).
  { destruct (iNext _ _ _ _ V a) as [(A1 & A2 & _)|(k & [K1|K1])]; [apply after_in in A; tauto| | |].
    - destruct (l_nx s a) as [o m]. cbn in *. destruct m; [|congruence]. destruct (A2 eq_refl) as (k & [K1|K1]); [destruct (Aq' k); now apply unl_held|now destruct (NG' k a)].
    - destruct (Aq' k). now apply link_held.
    - destruct (Aq' k). now apply early_held, raw_early. }
  assert (P3 : a <> n) by (intros ->; exact (after_self _ _ (iNd _ _ _ _ V) A)).
  exists j. pose proof (iFact _ _ _ _ V j) as F. pose proof (NL' j) as L. pose proof (NG' j) as G. pose proof (FREE j) as FR. destruct (l_pc s j) eqn:C; cbn in L, J2; try tauto; destruct J2 as [<-|[]]; (split; [discriminate|]).
  - destruct (FR n0) as [o O]; cbn; try tauto. exact (fin_U1 _ _ _ _ _ C O P3 P1 P2).
  - destruct (FR n0) as [o O]; cbn; try tauto. exact (fin_U2 _ _ _ _ _ _ C O P3 P1 P2).
  - exact (fin_U3 _ _ _ _ _ C P1 P2).
  - exact (fin_U4 _ _ _ _ _ _ C P1 P2).
  - exact (fin_U5 _ _ _ _ _ C).
  - exact (fin_U6 _ _ _ _ _ C).
Qed.
Definition busyb (c : lpc) : bool := match c with LIdle => false | _ => true end.
Fixpoint busy (f : nat -> lpc) (N : nat) : nat := match N with O => O | Datatypes.S n => ((if busyb (f n) then 1 else 0) + busy f n)%nat end.
Lemma busy_same f g N : (forall j, (j < N)%nat -> f j = g j) -> busy f N = busy g N.
Proof. induction N as [|N IH]; intros H; cbn; auto. rewrite H, IH by auto. reflexivity. Qed.
Lemma busy_less f g i N : (i < N)%nat -> f i <> LIdle -> g i = LIdle -> (forall j, j <> i -> g j = f j) -> (busy g N < busy f N)%nat.
Proof.
  intros I F G H. induction N as [|N IH]; [lia|]. cbn. destruct (Nat.eq_dec N i) as [->|X].
  - rewrite G. rewrite (busy_same g f i) by (intros j J; apply H; lia). destruct (f i); [congruence|cbn; lia..].
  - rewrite (H N) by auto. assert (busy g N < busy f N)%nat by (apply IH; lia). lia.
Qed.
Theorem can_finish g p l s ds : lexec (l_init g p) l = Some (s, ds) -> exists l' s' ds', accesses l' /\ lexec s l' = Some (s', ds') /\ idle s'.
Proof.
  intros H. destruct (exec_below l (l_init g p) 0 _ _ (fun i _ => eq_refl) H) as (N & B).
  remember (busy (l_pc s) N) as k eqn:Ek. revert l s ds H B Ek. induction k as [k IH] using (well_founded_induction Wf_nat.lt_wf). intros l s ds H B ->.
  destruct (run_inv _ _ _ _ _ H) as (Q & V). destruct (some_fin _ _ _ _ _ V B) as [I|(i & NI & l1 & s1 & d1 & A1 & A2 & A3 & A4)].
  - exists [], s, []. split; [intros a []|]. auto.
  - assert (I : (i < N)%nat) by (destruct (Nat.lt_ge_cases i N) as [L|L]; auto; rewrite (B i L) in NI; congruence).
    destruct (IH (busy (l_pc s1) N)) with (l := l ++ l1) (s := s1) (ds := ds ++ d1) as (l2 & s2 & d2 & B1 & B2 & B3); auto.
    + now apply (busy_less _ _ i).
    + now apply (lexec_app _ _ _ _ _ _ _ H).
    + intros j J. rewrite A4; [now apply B|lia].
    + exists (l1 ++ l2), s2, (d1 ++ d2). split; [intros a X; apply in_app_or in X as [X|X]; auto|]. split; auto. exact (lexec_app _ _ _ _ _ _ _ A1 B2).
Qed.
