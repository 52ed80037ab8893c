(* The invariant of the list of leaves. *)
From Verif Require Import Lib M_Link Spec_Link.

(* the element after a in a list *)
Fixpoint after (Q : list nat) (a : nat) : option nat :=
  match Q with x :: Q' => if Nat.eqb x a then hd_error Q' else after Q' a | [] => None end.
Definition isS {A} (o : option A) : bool := match o with Some _ => true | None => false end.
Lemma after_in Q a b : after Q a = Some b -> In a Q /\ In b Q.
Proof.
  induction Q as [|x Q IH]; cbn; [discriminate|]. destruct (Nat.eqb_spec x a) as [->|N]; intros H.
  - destruct Q; cbn in H; [discriminate|]. injection H as ->. split; auto. right. now left.
  - destruct (IH H). auto.
Qed.
Lemma after_uniq Q a a' b : NoDup Q -> after Q a = Some b -> after Q a' = Some b -> a = a'.
Proof.
  induction Q as [|x Q IH]; cbn; [discriminate|]. intros N. inversion N; subst. destruct (Nat.eqb_spec x a) as [Xa|X]; destruct (Nat.eqb_spec x a') as [Xb|X']; try subst x; auto.
  - intros A B. destruct Q as [|y Q]; cbn in A; [discriminate|]. injection A as ->. cbn in B. destruct (Nat.eqb_spec b a') as [->|Y].
    + destruct Q; cbn in B; [discriminate|]. injection B as ->. inversion H2; subst. exfalso. apply H3. now left.
    + apply after_in in B as [_ B]. inversion H2; subst. contradiction.
  - intros A B. destruct Q as [|y Q]; cbn in B; [discriminate|]. injection B as ->. cbn in A. destruct (Nat.eqb_spec b a) as [->|Y].
    + destruct Q; cbn in A; [discriminate|]. injection A as ->. inversion H2; subst. exfalso. apply H3. now left.
    + apply after_in in A as [_ A]. inversion H2; subst. contradiction.
Qed.
Lemma after_none_out Q a : ~ In a Q -> after Q a = None.
Proof. induction Q as [|x Q IH]; cbn; auto. intros H. destruct (Nat.eqb_spec x a); [tauto|]. apply IH. tauto. Qed.
Lemma after_self Q a : NoDup Q -> after Q a <> Some a.
Proof.
  induction Q as [|x Q IH]; cbn; [discriminate|]. intros N. inversion N; subst. destruct (Nat.eqb_spec x a) as [->|X]; auto.
  destruct Q; cbn; [discriminate|]. intros E. injection E as ->. apply H1. now left.
Qed.
Lemma in_insert n nr Q x : In x (insert_after n nr Q) <-> In x Q \/ (x = nr /\ In n Q).
Proof.
  induction Q as [|y Q IH]; cbn; [tauto|]. destruct (Nat.eqb_spec y n) as [->|N]; cbn; rewrite ?IH; intuition congruence.
Qed.
Lemma nodup_insert n nr Q : NoDup Q -> ~ In nr Q -> NoDup (insert_after n nr Q).
Proof.
  induction 1 as [|y Q H N IH]; cbn; intros X; [constructor|]. destruct (Nat.eqb_spec y n) as [->|M].
  - constructor; [cbn; intuition congruence|]. constructor; auto.
  - constructor; [rewrite in_insert; intuition congruence|]. apply IH. tauto.
Qed.
Lemma insert_hd n nr x Q : exists Q', insert_after n nr (x :: Q) = x :: Q'.
Proof. cbn. destruct (Nat.eqb x n); eauto. Qed.
Lemma hd_insert n nr Q : Q <> [] -> hd_error (insert_after n nr Q) = hd_error Q.
Proof. destruct Q; [congruence|]. cbn. destruct (Nat.eqb n0 n); auto. Qed.
Lemma after_insert n nr Q a : NoDup Q -> ~ In nr Q -> In n Q ->
  after (insert_after n nr Q) a = if Nat.eqb a n then Some nr else if Nat.eqb a nr then after Q n else after Q a.
Proof.
  induction 1 as [|y Q H N IH]; cbn [insert_after In after]; [tauto|]. intros X I. destruct (Nat.eqb_spec y n) as [->|M].
  - cbn [after]. destruct (Nat.eqb_spec n a) as [->|A]; [now rewrite Nat.eqb_refl|]. destruct (Nat.eqb_spec a n); [congruence|].
    rewrite (Nat.eqb_sym nr a). destruct (Nat.eqb_spec a nr) as [->|B]; auto.
  - cbn [after]. destruct I as [I|I]; [congruence|]. destruct (Nat.eqb_spec y a) as [->|A].
    + destruct (Nat.eqb_spec a n); [congruence|]. destruct (Nat.eqb_spec a nr) as [->|B]; [exfalso; apply X; now left|]. apply hd_insert. intros ->. contradiction.
    + apply IH; tauto.
Qed.
Lemma in_rem n Q x : In x (remove Nat.eq_dec n Q) <-> In x Q /\ x <> n.
Proof. split; [intros H; split; [|intros ->; now apply remove_In in H]; now apply in_remove in H|]. intros [A B]. apply in_in_remove; auto. Qed.
Lemma nodup_rem n Q : NoDup Q -> NoDup (remove Nat.eq_dec n Q).
Proof. induction 1 as [|y Q H N IH]; cbn; [constructor|]. destruct (Nat.eq_dec n y); auto. constructor; auto. rewrite in_rem. tauto. Qed.
Lemma rem_out n Q : ~ In n Q -> remove Nat.eq_dec n Q = Q.
Proof. induction Q; cbn; auto. intros H. destruct (Nat.eq_dec n a); [subst; tauto|]. rewrite IHQ; tauto. Qed.
Lemma after_rem p n Q a : NoDup Q -> after Q p = Some n -> a <> n ->
  after (remove Nat.eq_dec n Q) a = if Nat.eqb a p then after Q n else after Q a.
Proof.
  induction 1 as [|y Q H N IH]; cbn [remove after]; [discriminate|]. intros P A. destruct (Nat.eqb_spec y p) as [->|M].
  - destruct Q as [|z Q]; cbn in P; [discriminate|]. injection P as ->. inversion N; subst.
    destruct (Nat.eq_dec n p) as [->|NP]; [exfalso; apply H; now left|]. cbn [remove]. destruct (Nat.eq_dec n n); [|congruence]. rewrite rem_out by auto.
    cbn [after]. rewrite (Nat.eqb_sym p a). destruct (Nat.eqb_spec a p) as [->|B].
    + destruct (Nat.eqb_spec p n); [congruence|]. rewrite Nat.eqb_refl. destruct Q; auto.
    + destruct (Nat.eqb_spec n a); [congruence|]. auto.
  - destruct (after_in _ _ _ P) as [IP IN]. destruct (Nat.eq_dec n y) as [->|Y]; [contradiction|]. cbn [after]. destruct (Nat.eqb_spec y n); [congruence|]. destruct (Nat.eqb_spec y a) as [->|B].
    + destruct (Nat.eqb_spec a p); [congruence|]. destruct Q as [|z Q]; auto. cbn [remove]. destruct (Nat.eq_dec n z) as [->|]; auto.
      (* z = n: then n follows a in Q, and p is another predecessor *)
      exfalso. cbn [after] in P. destruct (Nat.eqb_spec z p) as [->|ZP].
      * destruct Q; cbn in P; [discriminate|]. injection P as ->. inversion N; subst. apply H2. now left.
      * apply after_in in P as [_ P]. inversion N; subst. contradiction.
    + now apply IH.
Qed.
Lemma pred_exists Q x y : NoDup (x :: Q) -> In y Q -> exists a, after (x :: Q) a = Some y.
Proof.
  revert x. induction Q as [|z Q IH]; intros x N [].
  - subst. exists x. cbn. now rewrite Nat.eqb_refl.
  - inversion N; subst. destruct (IH z H3 H) as (a & A). exists a. cbn [after]. destruct (Nat.eqb_spec x a) as [->|]; auto.
    apply after_in in A as [A _]. contradiction.
Qed.

(* Where a thread is, by groups of positions. *)
Definition holds (c : lpc) : list nat :=
  match c with LIdle => [] | L0 n nr | L1 n nr | L2 n nr _ | L3 n nr _ | L4 n nr _ | L5 n nr => [n; nr] | U1 n | U2 n _ | U3 n _ | U4 n _ _ | U5 n _ _ | U6 n _ _ => [n] end.
Definition link_on (c : lpc) (a : nat) : Prop := match c with L3 n _ _ | L4 n _ _ | L5 n _ => n = a | _ => False end.
Definition newly (c : lpc) (a : nat) : Prop := match c with L3 _ nr _ | L4 _ nr _ | L5 _ nr => nr = a | _ => False end.
Definition early (c : lpc) (a : nat) : Prop := match c with L3 _ nr _ | L4 _ nr _ => nr = a | _ => False end.
Definition raw (c : lpc) (a : nat) : Prop := match c with L3 _ nr _ => nr = a | _ => False end.
Definition unl (c : lpc) (a : nat) : Prop := match c with U3 n _ | U4 n _ _ | U5 n _ _ | U6 n _ _ => n = a | _ => False end.
Definition at6 (c : lpc) (a : nat) : Prop := match c with U6 n _ _ => n = a | _ => False end.
Definition grab (c : lpc) (p : nat) : Prop := match c with U5 _ _ p' | U6 _ _ p' => p' = p | _ => False end.
Definition marked (pc : nat -> lpc) (a : nat) : Prop := exists i, unl (pc i) a \/ grab (pc i) a.

(* Following next pointers of unlinked nodes from o one gets to t. *)
Inductive leads (nx : nat -> link) (R : list nat) : option nat -> option nat -> Prop :=
| leads_refl t : leads nx R t t
| leads_step x t : In x R -> leads nx R (fst (nx x)) t -> leads nx R (Some x) t.
Definition Fact (nx : nat -> link) (pv : nat -> option nat) (Q R : list nat) (c : lpc) : Prop :=
  match c with
  | LIdle => True
  | L0 n nr => In n Q /\ ~ In nr Q
  | L1 n nr | L2 n nr _ => In n Q /\ ~ In nr Q /\ pv nr = Some n
  | L3 n nr next => In n Q /\ In nr Q /\ after Q n = Some nr /\ after Q nr = next /\ nx n = (next, isS next) /\ pv nr = Some n /\ (forall b, next = Some b -> pv b = Some n)
  | L4 n nr next => In n Q /\ In nr Q /\ after Q n = Some nr /\ after Q nr = next /\ nx n = (next, isS next) /\ pv nr = Some n /\ (forall b, next = Some b -> pv b = Some n) /\ nx nr = (next, false)
  | L5 n nr => In n Q /\ In nr Q /\ after Q n = Some nr /\ pv nr = Some n /\ snd (nx n) = isS (fst (nx n)) /\ leads nx R (fst (nx n)) (after Q nr)
  | U1 n | U2 n _ => In n Q /\ n <> first
  | U3 n next | U4 n next _ => In n Q /\ n <> first /\ after Q n = next /\ nx n = (next, isS next)
  | U5 n next p => In n Q /\ n <> first /\ after Q n = next /\ nx n = (next, isS next) /\ after Q p = Some n /\ nx p = (Some n, true)
  | U6 n next p => In n Q /\ n <> first /\ after Q n = next /\ nx n = (next, isS next) /\ after Q p = Some n /\ nx p = (Some n, true) /\ (forall b, next = Some b -> pv b = Some p)
  end.
(* S is Q without the elements of pend *)
Inductive drops (pend : nat -> Prop) : list nat -> list nat -> Prop :=
| drop_nil : drops pend [] []
| drop_keep x Q S : ~ pend x -> drops pend Q S -> drops pend (x :: Q) (x :: S)
| drop_skip x Q S : pend x -> drops pend Q S -> drops pend (x :: Q) S.

Record Inv (s : lstate) (Q R S : list nat) : Prop := MkInv {
  iNd : NoDup Q; iHd : hd_error Q = Some first; iBad : l_bad s = false;
  iRem : forall x, In x R -> ~ In x Q /\ (snd (l_nx s x) = true \/ fst (l_nx s x) = None) /\ (forall i, ~ In x (holds (l_pc s i)));
  iDisj : forall i j x, i <> j -> In x (holds (l_pc s i)) -> In x (holds (l_pc s j)) -> False;
  iLock : forall x, (exists i, In x (holds (l_pc s i))) \/ In x R -> l_lk s x = true;
  iUsed : forall x, (exists i, In x (holds (l_pc s i))) \/ In x R \/ In x Q -> l_used s x = true;
  iFree : forall x, l_used s x = true -> l_lk s x = false -> In x Q;
  iFact : forall i, Fact (l_nx s) (l_pv s) Q R (l_pc s i);
  iNext : forall a, In a Q ->
    (fst (l_nx s a) = after Q a /\ (snd (l_nx s a) = true -> marked (l_pc s) a) /\ (forall i, ~ link_on (l_pc s i) a) /\ (forall i, ~ raw (l_pc s i) a)) \/ (exists i, link_on (l_pc s i) a \/ raw (l_pc s i) a);
  iPrev : forall a b, after Q a = Some b ->
    (l_pv s b = Some a /\ (forall i, ~ early (l_pc s i) a) /\ (forall i, ~ at6 (l_pc s i) a)) \/ (exists i, early (l_pc s i) a \/ at6 (l_pc s i) a);
  iFirst : l_pv s first = None;
  iExcl : forall i j p, grab (l_pc s i) p -> ~ early (l_pc s j) p /\ ~ unl (l_pc s j) p;
  iKnown : forall i n nxt p, l_pc s i = U4 n nxt p -> (In p Q \/ In p R) /\ forall j, ~ early (l_pc s j) p;
  iDrops : drops (fun x => exists i, newly (l_pc s i) x) Q S }.

(* nodes whose next field, previous field, successor and membership the facts about a thread speak of *)
Definition own_nx (c : lpc) (x : nat) : Prop := link_on c x \/ early c x \/ unl c x \/ grab c x.
Definition own_pv (c : lpc) (x : nat) : Prop :=
  match c with L1 _ nr | L2 _ nr _ | L5 _ nr => x = nr | L3 _ nr next | L4 _ nr next => x = nr \/ next = Some x | U6 _ next _ => next = Some x | _ => False end.
Definition mem (c : lpc) (x : nat) : Prop :=
  match c with L0 n _ | L1 n _ | L2 n _ _ => x = n | _ => In x (holds c) end.
Definition absent (c : lpc) (x : nat) : Prop := match c with L0 _ nr | L1 _ nr | L2 _ nr _ => x = nr | _ => False end.
Lemma Fact_frame nx pv Q R nx' pv' Q' R' c : Fact nx pv Q R c ->
  (forall x, own_nx c x -> nx' x = nx x) -> (forall x, own_pv c x -> pv' x = pv x) -> (forall x, mem c x -> In x Q -> In x Q') -> (forall x, absent c x -> ~ In x Q -> ~ In x Q') ->
  (forall x, own_nx c x -> after Q' x = after Q x) ->
  (forall n nr, c = L5 n nr -> leads nx R (fst (nx n)) (after Q nr) -> leads nx' R' (fst (nx n)) (after Q' nr)) -> Fact nx' pv' Q' R' c.
Proof.
  intros F N P M A F2 L. unfold own_nx in *. destruct c; cbn in *; auto.
  - destruct F; split; auto.
  - destruct F as (F & F1 & F3); repeat split; auto. rewrite P; auto.
  - destruct F as (F & F1 & F3); repeat split; auto. rewrite P; auto.
  - destruct F as (B1 & B2 & B3 & B4 & B5 & B6 & B7). rewrite !F2, N, P by auto. repeat split; auto. intros b ->. rewrite P; auto.
  - destruct F as (B1 & B2 & B3 & B4 & B5 & B6 & B7 & B8). rewrite !F2, !N, P by auto. repeat split; auto. intros b ->. rewrite P; auto.
  - destruct F as (B1 & B2 & B3 & B4 & B5 & B6). rewrite F2, !N, P by auto. repeat split; auto.
  - destruct F; split; auto.
  - destruct F; split; auto.
  - destruct F as (B1 & B2 & B3 & B4). rewrite F2, N by auto. auto.
  - destruct F as (B1 & B2 & B3 & B4). rewrite F2, N by auto. auto.
  - destruct F as (B1 & B2 & B3 & B4 & B5 & B6). rewrite !F2, !N by auto. repeat split; auto.
  - destruct F as (B1 & B2 & B3 & B4 & B5 & B6 & B7). rewrite !F2, !N by auto. repeat split; auto. intros b ->. rewrite P; auto.
Qed.
Lemma lset_eq {A} (f : nat -> A) k v : lset f k v k = v.
Proof. unfold lset. now rewrite Nat.eqb_refl. Qed.
Lemma lset_neq {A} (f : nat -> A) k v x : x <> k -> lset f k v x = f x.
Proof. unfold lset. intros. now destruct (Nat.eqb_spec x k). Qed.
Lemma leads_nx nx nx' R o t : (forall x, In x R -> nx' x = nx x) -> leads nx R o t -> leads nx' R o t.
Proof. intros E. induction 1; [constructor|]. apply leads_step; auto. now rewrite E. Qed.
Lemma leads_more nx R x o t : leads nx R o t -> leads nx (x :: R) o t.
Proof. induction 1; [constructor|]. apply leads_step; auto. now right. Qed.
Lemma leads_trans nx R o t u : leads nx R o t -> leads nx R t u -> leads nx R o u.
Proof. induction 1; auto. intros. apply leads_step; auto. Qed.
