(* The invariant of the concurrent timestamp model. *)
From Verif Require Import Lib Spec_Stamp M_Circular M_Tree M_Stamp M_Stampc P_Tree1 P_Stamp1 P_Stamp2 P_Stampc1.
From Coq Require Import Sorting.Sorted.

Definition has (p : cpc) (n : nat) : Prop :=
  match p with
  | CIdle => False
  | CHave _ _ m | CStore m _ _ _ | CRem m _ _ _ | CPrev m | CRead m _ | CCas m _ _ | CCheck m _ | CUnlink m => n = m
  | CSplit m c _ | CLinked m c _ => n = m \/ n = c
  end.
Definition target (p : cpc) : option nat := match p with CRead _ q | CCas _ q _ | CCheck _ q => Some q | _ => None end.

Section Pok.
Context (rest : list nat) (lo ph : nat -> Z) (rw : nat -> rows) (fr : nat).
Definition empty_leaf (n : nat) : Prop := In n rest /\ rw n = [].
Definition pok (b : Z) (p : cpc) : Prop :=
  match p with
  | CIdle => True
  | CHave _ k n => walk lo 0 rest k = n
  | CStore n k ts x => walk lo 0 rest k = n /\ row_get k (rw n) = Some x /\ x < ts <= b /\ ph n <= ts
  | CRem n k ts x => walk lo 0 rest k = n /\ row_get k (rw n) = Some x /\ x < ts <= b /\ ts < ph n
  | CSplit n c k => walk lo 0 rest k = n /\ row_get k (rw n) = None /\ ph c = ph n /\ ~ In c (0%nat :: rest) /\ (c < fr)%nat
  | CLinked n c k => (walk lo 0 rest k = n \/ walk lo 0 rest k = c) /\ row_get k (rw (walk lo 0 rest k)) = None
  | CPrev n => empty_leaf n
  | CRead n q => empty_leaf n /\ (q < fr)%nat
  | CCas n q v => empty_leaf n /\ (q < fr)%nat /\ v < ph n
  | CCheck n q => empty_leaf n /\ (q < fr)%nat /\ ph n <= ph q
  | CUnlink n => empty_leaf n /\ forall q, pred_of n 0 rest = Some q -> ph n <= ph q
  end.
End Pok.

Lemma pok_frame rest lo ph rw fr b rest' lo' ph' rw' fr' b' p : pok rest lo ph rw fr b p ->
  (forall m, In m (0%nat :: rest) -> (m < fr)%nat) -> (fr <= fr')%nat -> b <= b' -> (forall m, (m < fr)%nat -> ph m <= ph' m) ->
  (forall n, has p n -> (forall k, walk lo 0 rest k = n -> walk lo' 0 rest' k = n) /\ rw' n = rw n /\ (In n rest -> In n rest') /\ (~ In n (0%nat :: rest) -> ~ In n (0%nat :: rest'))) ->
  (forall n, between p n -> ph' n = ph n) -> (forall n c k, p = CSplit n c k -> ph' c = ph c) ->
  (forall n q', p = CUnlink n -> pred_of n 0 rest' = Some q' -> exists q, pred_of n 0 rest = Some q /\ ph q <= ph' q') ->
  pok rest' lo' ph' rw' fr' b' p.
Proof.
  intros P LT FR B M H BT SC PR. destruct p as [|pt k n|n k ts x|n k ts x|n c k|n c k|n|n q|n q v|n q|n]; cbn [pok has between] in *.
  - auto.
  - destruct (H n eq_refl) as (A & _). auto.
  - destruct (H n eq_refl) as (A1 & A2 & _). destruct P as (P1 & P2 & P3 & P4). rewrite A2, (BT n eq_refl). split; auto. split; auto. lia.
  - destruct (H n eq_refl) as (A1 & A2 & _). destruct P as (P1 & P2 & P3 & P4). rewrite A2. split; auto. split; auto. assert (n < fr)%nat by (apply LT; rewrite <- P1; apply walk_in). specialize (M n). lia.
  - destruct (H n (or_introl eq_refl)) as (A1 & A2 & _). destruct (H c (or_intror eq_refl)) as (_ & _ & _ & A4). destruct P as (P1 & P2 & P3 & P4 & P5). rewrite A2, (BT n eq_refl), (SC n c k eq_refl). split; auto. split; auto. split; auto. split; [auto|lia].
  - destruct (H n (or_introl eq_refl)) as (A1 & A2 & _). destruct (H c (or_intror eq_refl)) as (B1 & B2 & _). destruct P as (P1 & P2).
    destruct P1 as [P1|P1]; rewrite P1 in P2; [rewrite (A1 k P1), A2|rewrite (B1 k P1), B2]; auto.
  - destruct (H n eq_refl) as (A1 & A2 & A3 & _). destruct P as (P1 & P2). split; auto. now rewrite A2.
  - destruct (H n eq_refl) as (A1 & A2 & A3 & _). destruct P as ((P1 & P2) & P3). split; [split; auto; now rewrite A2|lia].
  - destruct (H n eq_refl) as (A1 & A2 & A3 & _). destruct P as ((P1 & P2) & P3 & P4). split; [split; auto; now rewrite A2|]. split; [lia|]. assert (n < fr)%nat by (apply LT; right; auto). specialize (M n). lia.
  - destruct (H n eq_refl) as (A1 & A2 & A3 & _). destruct P as ((P1 & P2) & P3 & P4). split; [split; auto; now rewrite A2|]. split; [lia|]. rewrite (BT n eq_refl). specialize (M q P3). lia.
  - destruct (H n eq_refl) as (A1 & A2 & A3 & _). destruct P as ((P1 & P2) & P3). split; [split; auto; now rewrite A2|]. intros q' Hq'. destruct (PR n q' eq_refl Hq') as (q & Q1 & Q2). specialize (P3 q Q1). rewrite (BT n eq_refl). lia.
Qed.

(* What the state knows about the latest update of each key. *)
Definition ckn (rest : list nat) (lo ph : nat -> Z) (rw : nat -> rows) (l : list upd_rec) : Prop :=
  forall k, let n := walk lo 0 rest k in match latest [k] l with
    | None => row_get k (rw n) = None
    | Some a => if u_rem a then row_get k (rw n) = None /\ u_ts a < ph n else row_get k (rw n) = Some (u_ts a)
    end.

Record cinv (s : cstate) (l : list upd_rec) (b : Z) : Prop := {
  ci_nodup : NoDup (0%nat :: c_rest s);
  ci_lt : forall m, In m (0%nat :: c_rest s) -> (m < c_fresh s)%nat;
  ci_sorted : StronglySorted (fun a c => c_lo s a <= c_lo s c) (c_rest s);
  ci_rows : forall n k x, In n (0%nat :: c_rest s) -> row_get k (c_rows s n) = Some x -> walk (c_lo s) 0 (c_rest s) k = n /\ 0 <= x <= b;
  ci_pok : forall i, pok (c_rest s) (c_lo s) (c_ph s) (c_rows s) (c_fresh s) b (c_pc s i);
  ci_excl : forall i j n, i <> j -> has (c_pc s i) n -> has (c_pc s j) n -> False;
  ci_held : forall i n, has (c_pc s i) n -> c_lock s n = true /\ (n < c_fresh s)%nat;
  ci_hq : forall j q i n c k, target (c_pc s j) = Some q -> c_pc s i = CSplit n c k -> q <> c;
  ci_clock : forall i, 0 <= c_clock s i <= b;
  ci_ph : forall a, 0 <= c_ph s a <= b;
  ci_tops : tops l;
  ci_know : ckn (c_rest s) (c_lo s) (c_ph s) (c_rows s) l;
  ci_inc : ts_increase l;
  ci_prev : prev_names l
}.

(* A step of thread i that logs nothing. *)
Section Quiet.
Context (rest : list nat) (lo ph : nat -> Z) (rw : nat -> rows) (lk : nat -> bool) (fr : nat) (cl : nat -> Z) (pc : nat -> cpc) (l : list upd_rec) (b : Z).
Context (CI : cinv (MkC rest lo ph rw lk fr cl pc) l b) (i : nat).
Context (rest' : list nat) (lo' ph' : nat -> Z) (rw' : nat -> rows) (lk' : nat -> bool) (fr' : nat) (cl' : nat -> Z) (p' : cpc) (b' : Z).

Definition struct : Prop := NoDup (0%nat :: rest') /\ (forall m, In m (0%nat :: rest') -> (m < fr')%nat) /\ StronglySorted (fun a c => lo' a <= lo' c) rest' /\
  (forall n k x, In n (0%nat :: rest') -> row_get k (rw' n) = Some x -> walk lo' 0 rest' k = n /\ 0 <= x <= b').
Definition others : Prop := forall j, j <> i -> pok rest' lo' ph' rw' fr' b' (pc j).
Definition locks : Prop := (fr <= fr')%nat /\ (forall n, has p' n -> lk' n = true /\ (n < fr')%nat /\ (has (pc i) n \/ lk n = false \/ (fr <= n)%nat)) /\ (forall j n, j <> i -> has (pc j) n -> lk' n = true).
Definition targets : Prop := (forall q, target p' = Some q -> target (pc i) = Some q \/ In q (0%nat :: rest)) /\ (forall n c k, p' = CSplit n c k -> (fr <= c)%nat).
Definition bounds : Prop := b <= b' /\ (forall j, 0 <= cl' j <= b') /\ (forall a, 0 <= ph' a <= b').

Lemma step_excl : locks -> forall j1 j2 n, j1 <> j2 -> has (setf pc i p' j1) n -> has (setf pc i p' j2) n -> False.
Proof.
  intros (A & B & C) j1 j2 n N H1 H2. unfold setf in *. destruct (Nat.eqb_spec j1 i) as [E1|E1]; destruct (Nat.eqb_spec j2 i) as [E2|E2]; [congruence| | |].
  - destruct (B n H1) as (_ & _ & [Q|[Q|Q]]).
    + apply (ci_excl _ _ _ CI i j2 n); auto.
    + destruct (ci_held _ _ _ CI j2 n H2) as [W _]. cbn in W. congruence.
    + destruct (ci_held _ _ _ CI j2 n H2) as [_ W]. cbn in W. lia.
  - destruct (B n H2) as (_ & _ & [Q|[Q|Q]]).
    + apply (ci_excl _ _ _ CI i j1 n); auto.
    + destruct (ci_held _ _ _ CI j1 n H1) as [W _]. cbn in W. congruence.
    + destruct (ci_held _ _ _ CI j1 n H1) as [_ W]. cbn in W. lia.
  - exact (ci_excl _ _ _ CI j1 j2 n N H1 H2).
Qed.
Lemma pok_target rest0 lo0 ph0 rw0 fr0 b0 p q : pok rest0 lo0 ph0 rw0 fr0 b0 p -> target p = Some q -> (q < fr0)%nat.
Proof. destruct p; cbn; try discriminate; intros H [= <-]; tauto. Qed.
Lemma step_hq : targets -> forall j q k n c k0, target (setf pc i p' j) = Some q -> setf pc i p' k = CSplit n c k0 -> q <> c.
Proof.
  intros (A & B) j q j2 n c k0 H1 H2. unfold setf in *. destruct (Nat.eqb_spec j i) as [E1|E1]; destruct (Nat.eqb_spec j2 i) as [E2|E2].
  - rewrite H2 in H1. discriminate.
  - destruct (A q H1) as [Q|Q]; [exact (ci_hq _ _ _ CI i q j2 n c k0 Q H2)|]. intros ->. pose proof (ci_pok _ _ _ CI j2) as P. cbn in P. rewrite H2 in P. cbn in P. destruct P as (_ & _ & _ & P & _). apply P, Q.
  - specialize (B n c k0 H2). pose proof (pok_target _ _ _ _ _ _ _ q (ci_pok _ _ _ CI j) H1) as P. cbn in P. lia.
  - exact (ci_hq _ _ _ CI j q j2 n c k0 H1 H2).
Qed.
Lemma step_ok e : struct -> others -> pok rest' lo' ph' rw' fr' b' p' -> locks -> targets -> bounds ->
  ckn rest' lo' ph' rw' (l ++ e) -> tops (l ++ e) -> ts_increase (l ++ e) -> prev_names (l ++ e) ->
  cinv (MkC rest' lo' ph' rw' lk' fr' cl' (setf pc i p')) (l ++ e) b'.
Proof.
  intros (S1 & S2 & S3 & S4) O P L T (B1 & B2 & B3) K E1 E2 E3. constructor; cbn [c_rest c_lo c_ph c_rows c_lock c_fresh c_clock c_pc]; auto.
  - intros j. destruct (Nat.eq_dec j i) as [->|N]; [rewrite setf_same; auto|rewrite setf_other by auto; apply O; auto].
  - exact (step_excl L).
  - intros j n H. destruct L as (L0 & L1 & L2). destruct (Nat.eq_dec j i) as [->|N]; [rewrite setf_same in H; split; apply L1; auto|rewrite setf_other in H by auto]. split; [eauto|]. pose proof (proj2 (ci_held _ _ _ CI j n H)) as Q. cbn in Q. lia.
  - exact (step_hq T).
Qed.

(* Without an event: rows stay and epochs follow the keys. *)
Definition follows : Prop := forall k, row_get k (rw' (walk lo' 0 rest' k)) = row_get k (rw (walk lo 0 rest k)) /\ ph (walk lo 0 rest k) <= ph' (walk lo' 0 rest' k).
Lemma quiet_ok : struct -> others -> pok rest' lo' ph' rw' fr' b' p' -> locks -> targets -> bounds -> follows ->
  cinv (MkC rest' lo' ph' rw' lk' fr' cl' (setf pc i p')) l b'.
Proof.
  intros S O P L T B F. rewrite <- (app_nil_r l). apply step_ok; auto; rewrite ?app_nil_r; try apply CI.
  intros k. cbv zeta. destruct (F k) as [F1 F2]. pose proof (ci_know _ _ _ CI k) as K. cbv zeta in K. cbn in K. rewrite F1. destruct (latest [k] l) as [a|]; auto. destruct (u_rem a); auto. destruct K. split; auto. lia.
Qed.
(* With an event for key k. *)
Lemma event_ok k e : u_key e = [k] -> struct -> others -> pok rest' lo' ph' rw' fr' b' p' -> locks -> targets -> bounds ->
  (forall k', k' <> k -> row_get k' (rw' (walk lo' 0 rest' k')) = row_get k' (rw (walk lo 0 rest k')) /\ ph (walk lo 0 rest k') <= ph' (walk lo' 0 rest' k')) ->
  (if u_rem e then row_get k (rw' (walk lo' 0 rest' k)) = None /\ u_ts e < ph' (walk lo' 0 rest' k) else row_get k (rw' (walk lo' 0 rest' k)) = Some (u_ts e)) ->
  (forall a, latest [k] l = Some a -> u_ts a < u_ts e) ->
  u_prev e = match latest [k] l with Some a => if u_rem a then 0 else u_ts a | None => 0 end ->
  cinv (MkC rest' lo' ph' rw' lk' fr' cl' (setf pc i p')) (l ++ [e]) b'.
Proof.
  intros KE S O P L T B F F2 N1 N2. rewrite <- KE in N1, N2. destruct (event_lists l e (ci_inc _ _ _ CI) (ci_prev _ _ _ CI) (ci_tops _ _ _ CI) N1 N2) as (X1 & X2 & X3). apply step_ok; auto.
  intros k'. cbv zeta. rewrite latest_snoc. destruct (list_eq_dec Z.eq_dec (u_key e) [k']) as [E|E].
  - assert (k' = k) by congruence. subst k'. exact F2.
  - destruct (F k') as [G1 G2]; [congruence|]. pose proof (ci_know _ _ _ CI k') as K. cbv zeta in K. cbn in K. rewrite G1. destruct (latest [k'] l) as [a|]; auto. destruct (u_rem a); auto. destruct K. split; auto. lia.
Qed.

(* Steps that leave the list, the bounds and the rows of others alone. *)
Lemma others_local : rest' = rest -> lo' = lo -> (fr <= fr')%nat -> b <= b' -> (forall m, (m < fr)%nat -> ph m <= ph' m) -> (forall n, rw' n = rw n \/ has (pc i) n \/ (fr <= n)%nat) ->
  (forall j n, j <> i -> between (pc j) n -> ph' n = ph n) -> (forall j n c k, j <> i -> pc j = CSplit n c k -> ph' c = ph c) -> others.
Proof.
  intros E1 E2 FR B M R BT SC. unfold others. rewrite E1, E2. intros j N. apply (pok_frame rest lo ph rw fr b rest lo ph' rw' fr' b' (pc j) (ci_pok _ _ _ CI j)); [exact (ci_lt _ _ _ CI)|exact FR|exact B|exact M| | | |].
  - intros n Hn. split; auto. split; [|auto]. destruct (R n) as [Q|[Q|Q]]; auto; exfalso.
    + exact (ci_excl _ _ _ CI i j n (not_eq_sym N) Q Hn).
    + pose proof (proj2 (ci_held _ _ _ CI j n Hn)) as W. cbn in W. lia.
  - intros n Hn. exact (BT j n N Hn).
  - intros n c k E. exact (SC j n c k N E).
  - intros n q' E Hq. exists q'. split; auto. apply M. apply (ci_lt _ _ _ CI). apply (pred_in _ _ _ _ Hq).
Qed.
Lemma struct_local : rest' = rest -> lo' = lo -> (fr <= fr')%nat -> b <= b' ->
  (forall n k x, In n (0%nat :: rest) -> row_get k (rw' n) = Some x -> walk lo 0 rest k = n /\ 0 <= x <= b') -> struct.
Proof.
  intros E1 E2 FR B R. unfold struct. rewrite E1, E2. split; [exact (ci_nodup _ _ _ CI)|]. split; [|split; [exact (ci_sorted _ _ _ CI)|auto]]. intros m Hm. pose proof (ci_lt _ _ _ CI m Hm) as Q. cbn in Q. lia.
Qed.
End Quiet.
