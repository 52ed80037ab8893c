(* The invariant of the list of leaves holds throughout. *)
From Verif Require Import Lib M_Link Spec_Link P_Link1.

Lemma link_held c x : link_on c x -> In x (holds c). Proof. destruct c; cbn; tauto. Qed.
Lemma newly_held c x : newly c x -> In x (holds c). Proof. destruct c; cbn; tauto. Qed.
Lemma early_newly c x : early c x -> newly c x. Proof. destruct c; cbn; tauto. Qed.
Lemma early_held c x : early c x -> In x (holds c). Proof. destruct c; cbn; tauto. Qed.
Lemma raw_early c x : raw c x -> early c x. Proof. destruct c; cbn; tauto. Qed.
Lemma unl_held c x : unl c x -> In x (holds c). Proof. destruct c; cbn; tauto. Qed.
Lemma at6_unl c x : at6 c x -> unl c x. Proof. destruct c; cbn; tauto. Qed.
Lemma mem_held c x : mem c x -> In x (holds c). Proof. destruct c; cbn; auto. Qed.
Lemma absent_held c x : absent c x -> In x (holds c). Proof. destruct c; cbn; auto. Qed.

Lemma pred_exists' Q f y : NoDup Q -> hd_error Q = Some f -> In y Q -> y <> f -> exists a, after Q a = Some y.
Proof. destruct Q as [|x Q]; [discriminate|]. cbn [hd_error]. intros N E [I|I] F; [congruence|]. now apply pred_exists. Qed.

Section One.
Context {s : lstate} {Q R S : list nat} (V : Inv s Q R S).
Let pc := l_pc s.
Lemma fact_grab i p : grab (pc i) p -> exists n, after Q p = Some n /\ In n (holds (pc i)) /\ l_nx s p = (Some n, true).
Proof. intros G. pose proof (iFact _ _ _ _ V i) as F. unfold pc in *. destruct (l_pc s i); cbn in *; try contradiction; subst; exists n; intuition. Qed.
Lemma fact_link i n : link_on (pc i) n -> exists nr, after Q n = Some nr /\ In nr (holds (pc i)) /\ snd (l_nx s n) = isS (fst (l_nx s n)).
Proof.
  intros G. pose proof (iFact _ _ _ _ V i) as F. unfold pc in *. destruct (l_pc s i); cbn in *; try contradiction; subst; exists nr; intuition.
  - now rewrite H3.
  - now rewrite H3.
Qed.
Lemma held_uniq i j x : In x (holds (pc i)) -> In x (holds (pc j)) -> i = j.
Proof. intros A B. destruct (Nat.eq_dec i j); auto. exfalso. exact (iDisj _ _ _ _ V _ _ _ n A B). Qed.
Lemma own_nx_uniq i j x : own_nx (pc i) x -> own_nx (pc j) x -> i = j.
Proof.
  intros A B. unfold own_nx in *.
  assert (H : forall k, link_on (pc k) x \/ early (pc k) x \/ unl (pc k) x \/ grab (pc k) x -> In x (holds (pc k)) \/ grab (pc k) x).
  { intros k [K|[K|[K|K]]]; auto using link_held, early_held, unl_held. }
  assert (G : forall k l, grab (pc k) x -> link_on (pc l) x \/ early (pc l) x \/ unl (pc l) x \/ grab (pc l) x -> k = l).
  { intros k l K L. destruct (fact_grab _ _ K) as (n & A1 & A2 & A3). destruct L as [L|[L|[L|L]]].
    - destruct (fact_link _ _ L) as (nr & B1 & B2 & B3). assert (n = nr) by congruence. subst. exact (held_uniq _ _ _ A2 B2).
    - now destruct (proj1 (iExcl _ _ _ _ V k l x K)).
    - now destruct (proj2 (iExcl _ _ _ _ V k l x K)).
    - destruct (fact_grab _ _ L) as (n' & B1 & B2 & B3). assert (n = n') by congruence. subst. exact (held_uniq _ _ _ A2 B2). }
  destruct (H _ A) as [A'|A']; [|exact (G _ _ A' B)]. destruct (H _ B) as [B'|B']; [exact (held_uniq _ _ _ A' B')|]. symmetry. exact (G _ _ B' A).
Qed.
(* whoever owns a previous field of a node in the list holds its predecessor *)
Lemma own_pv_pred j x : own_pv (pc j) x -> (In x (holds (pc j)) /\ ~ In x Q) \/ exists a, In a (holds (pc j)) /\ after Q a = Some x.
Proof.
  intros O. pose proof (iFact _ _ _ _ V j) as F. unfold pc in *. destruct (l_pc s j); cbn in *; try contradiction; subst.
  - left. intuition.
  - left. intuition.
  - right. destruct O as [->|O]; [exists n; intuition|]. exists nr. intuition congruence.
  - right. destruct O as [->|O]; [exists n; intuition|]. exists nr. intuition congruence.
  - right. exists n. intuition.
  - right. exists n. intuition congruence.
Qed.
Lemma own_pv_held i j a x : In a (holds (pc i)) -> after Q a = Some x -> own_pv (pc j) x -> i = j.
Proof.
  intros A X O. destruct (own_pv_pred _ _ O) as [[O1 O2]|(b & B1 & B2)].
  - apply after_in in X. tauto.
  - pose proof (after_uniq _ _ _ _ (iNd _ _ _ _ V) X B2). subst. exact (held_uniq _ _ _ A B1).
Qed.
(* a free next field of a node of the list *)
Lemma next_free a v : In a Q -> (forall i, ~ early (pc i) a) -> (l_nx s a = (v, false) \/ v = None) -> fst (l_nx s a) = v -> (forall i, ~ In a (holds (pc i)) \/ ~ link_on (pc i) a) ->
  v <> None \/ (forall i, ~ unl (pc i) a) ->
  after Q a = v /\ l_nx s a = (v, false).
Proof.
  intros I E N F H U. destruct (iNext _ _ _ _ V a I) as [(A & B & C & D)|(i & [L|L])].
  - split; [congruence|]. destruct (l_nx s a) as [o m] eqn:Ea. cbn in *. subst o. f_equal. destruct m; auto. destruct N as [N|N]; [congruence|].
    destruct (B eq_refl) as (i & [K|K]).
    + destruct U as [U|U]; [congruence|]. now destruct (U i).
    + destruct (fact_grab _ _ K) as (n & A1 & A2 & A3). congruence.
  - exfalso. destruct (H i) as [X|X]; [|contradiction]. apply X. now apply link_held.
  - exfalso. now apply (E i), raw_early.
Qed.
(* the node that n points back to *)
Lemma prev_known i n : In n (holds (pc i)) -> In n Q -> n <> first -> exists p, l_pv s n = Some p /\ In p Q /\ forall j, ~ early (pc j) p.
Proof.
  intros Hn I N. pose proof (iNd _ _ _ _ V) as Nd. destruct (pred_exists' _ _ _ Nd (iHd _ _ _ _ V) I N) as (a & A). destruct (iPrev _ _ _ _ V a n A) as [(B & C & D)|(j & [L|L])].
  - exists a. split; auto. split; auto. apply after_in in A. tauto.
  - assert (X : exists a' nxt, (pc j = L3 a' a nxt \/ pc j = L4 a' a nxt)) by (unfold pc; destruct (l_pc s j); cbn in L; try contradiction; subst; eauto).
    destruct X as (a' & nxt & X). pose proof (iFact _ _ _ _ V j) as F. fold pc in F.
    assert (Y : In a' Q /\ after Q a' = Some a /\ after Q a = nxt /\ (forall b, nxt = Some b -> l_pv s b = Some a') /\ In a' (holds (pc j)))
      by (destruct X as [X|X]; rewrite X in *; cbn [Fact holds In] in *; intuition).
    destruct Y as (Y1 & Y2 & Y3 & Y4 & Y5). exists a'. split; [apply Y4; congruence|]. split; auto. intros k K.
    assert (k = j) by (exact (held_uniq _ _ _ (early_held _ _ K) Y5)). subst k.
    assert (a' = a) by (destruct X as [X|X]; rewrite X in K; cbn in K; congruence). subst. now apply (after_self _ a Nd).
  - assert (X : exists nxt p, pc j = U6 a nxt p) by (unfold pc; destruct (l_pc s j); cbn in L; try contradiction; subst; eauto).
    destruct X as (nxt & p & X). pose proof (iFact _ _ _ _ V j) as F. fold pc in F. rewrite X in F. cbn [Fact] in F. destruct F as (F1 & F2 & F3 & F4 & F5 & F6 & F7).
    exists p. split; [apply F7; congruence|]. split; [apply after_in in F5; tauto|]. intros k. apply (iExcl _ _ _ _ V j k p). fold pc. rewrite X. reflexivity.
Qed.
End One.

(* Steps that leave the sequence alone. *)
Lemma step_same s Q R S i c' nx' pv' : Inv s Q R S -> holds c' = holds (l_pc s i) -> (forall a, newly c' a <-> newly (l_pc s i) a) ->
  let s' := MkLs nx' pv' (lset (l_pc s) i c') (l_lk s) (l_used s) (l_bad s) in
  Fact nx' pv' Q R c' -> (forall j x, j <> i -> own_nx (l_pc s j) x -> nx' x = l_nx s x) -> (forall j x, j <> i -> own_pv (l_pc s j) x -> pv' x = l_pv s x) ->
  (forall x, In x R -> nx' x = l_nx s x) ->
  (forall a, In a Q -> (fst (nx' a) = after Q a /\ (snd (nx' a) = true -> marked (l_pc s') a) /\ (forall j, ~ link_on (l_pc s' j) a) /\ (forall j, ~ raw (l_pc s' j) a)) \/ (exists j, link_on (l_pc s' j) a \/ raw (l_pc s' j) a)) ->
  (forall a b, after Q a = Some b -> (pv' b = Some a /\ (forall j, ~ early (l_pc s' j) a) /\ (forall j, ~ at6 (l_pc s' j) a)) \/ (exists j, early (l_pc s' j) a \/ at6 (l_pc s' j) a)) ->
  pv' first = None ->
  (forall j p, j <> i -> grab (l_pc s j) p -> ~ early c' p /\ ~ unl c' p) -> (forall j p, j <> i -> grab c' p -> ~ early (l_pc s j) p /\ ~ unl (l_pc s j) p) -> (forall p, grab c' p -> ~ early c' p /\ ~ unl c' p) ->
  (forall p, early c' p -> early (l_pc s i) p) -> (forall n nxt p, c' = U4 n nxt p -> (In p Q \/ In p R) /\ forall j, j <> i -> ~ early (l_pc s j) p) ->
  Inv s' Q R S.
Proof.
  intros V Hh Hn s' F NX PV RX N P F0 E1 E2 E3 Ea K.
  assert (HO : forall j, holds (lset (l_pc s) i c' j) = holds (l_pc s j)) by (intros j; destruct (Nat.eq_dec j i) as [->|D]; [rewrite lset_eq; auto|now rewrite lset_neq]).
  destruct V as [vNd vHd vBad vRem vDisj vLock vUsed vFree vFact vNext vPrev vFirst vExcl vKnown vDrops]. constructor; cbn [l_nx l_pv l_pc l_lk l_used l_bad s']; auto.
  - intros x X. destruct (vRem _ X) as (A & B & C). split; auto. split; [now rewrite RX|]. intros j. rewrite HO. apply C.
  - intros a b x. rewrite !HO. apply vDisj.
  - intros x [(j & J)|X]; apply vLock; auto. left. exists j. now rewrite HO in J.
  - intros x [(j & J)|X]; apply vUsed; auto. left. exists j. now rewrite HO in J.
  - intros j. destruct (Nat.eq_dec j i) as [->|D]; [now rewrite lset_eq|]. rewrite lset_neq by auto. apply (Fact_frame _ _ _ _ _ _ _ _ _ (vFact j)); auto.
    + intros x. now apply NX.
    + intros x. now apply PV.
    + intros n nr _. now apply leads_nx.
  - intros a b p G. destruct (Nat.eq_dec a i) as [->|D]; destruct (Nat.eq_dec b i) as [->|D']; rewrite ?lset_eq in *; rewrite ?lset_neq in * by auto; eauto.
  - intros j n nxt p H. destruct (Nat.eq_dec j i) as [->|D].
    + rewrite lset_eq in H. destruct (K _ _ _ H) as [K1 K2]. split; auto. intros j. destruct (Nat.eq_dec j i) as [->|D]; [rewrite lset_eq; subst c'; cbn; tauto|rewrite lset_neq by auto; auto].
    + rewrite lset_neq in H by auto. destruct (vKnown _ _ _ _ H) as [K1 K2]. split; auto. intros k. destruct (Nat.eq_dec k i) as [->|D']; [rewrite lset_eq; intros X; apply (K2 i); auto|rewrite lset_neq by auto; auto].
  - assert (X : forall A B : nat -> Prop, (forall x, A x <-> B x) -> forall Q S, drops A Q S -> drops B Q S).
    { intros A B AB q r D. induction D; [constructor|apply drop_keep|apply drop_skip]; auto; rewrite <- AB; auto. }
    eapply X; [|exact vDrops]. intros x. split; intros (j & J); exists j.
    + destruct (Nat.eq_dec j i) as [->|D]; [rewrite lset_eq; now apply Hn|now rewrite lset_neq].
    + destruct (Nat.eq_dec j i) as [->|D]; [rewrite lset_eq in J; now apply Hn|now rewrite lset_neq in J].
Qed.
