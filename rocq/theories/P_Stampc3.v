(* Every step keeps the invariant of the concurrent timestamp model. *)
From Verif Require Import Lib Spec_Stamp M_Circular M_Tree M_Stamp M_Stampc P_Tree1 P_Stamp1 P_Stamp2 P_Stampc1 P_Stampc2.
From Coq Require Import Sorting.Sorted.

Section Step.
Context (rest : list nat) (lo ph : nat -> Z) (rw : nat -> rows) (lk : nat -> bool) (fr : nat) (cl : nat -> Z) (pc : nat -> cpc) (l : list upd_rec) (b : Z).
Context (CI : cinv (MkC rest lo ph rw lk fr cl pc) l b) (HBb : b + 8 < HB) (i : nat).
Notation next := (b + 4).

Lemma rows_in n k x : In n (0%nat :: rest) -> row_get k (rw n) = Some x -> walk lo 0 rest k = n /\ 0 <= x <= next.
Proof. intros H E. destruct (ci_rows _ _ _ CI n k x H E). split; auto. lia. Qed.
Lemma walk_lt k : (walk lo 0 rest k < fr)%nat.
Proof. apply (ci_lt _ _ _ CI). cbn [c_rest]. apply walk_in. Qed.
Lemma has_lt j n : has (pc j) n -> (n < fr)%nat.
Proof. apply (ci_held _ _ _ CI). Qed.
Lemma idle_locks lk' : (forall n, lk' n = lk n \/ has (pc i) n) -> locks lk fr pc i lk' fr CIdle.
Proof.
  intros H. split; [lia|]. split; [intros n []|]. intros j n N Hn. destruct (H n) as [E|E].
  - rewrite E. apply (ci_held _ _ _ CI j n Hn).
  - destruct (ci_excl _ _ _ CI i j n (not_eq_sym N) E Hn).
Qed.
Lemma same_locks p' : (forall n, has p' n -> has (pc i) n) -> locks lk fr pc i lk fr p'.
Proof.
  intros H. split; [lia|]. split; [|intros j n _ Hn; apply (ci_held _ _ _ CI j n Hn)]. intros n Hn. specialize (H n Hn). destruct (ci_held _ _ _ CI i n H). auto.
Qed.
Lemma no_targets p' : target p' = None -> (forall n c k, p' <> CSplit n c k) -> targets rest fr pc i p'.
Proof. intros A B. split; [rewrite A; discriminate|]. intros n c k E. destruct (B n c k E). Qed.
Lemma bounds_clock x : 0 <= x <= next -> bounds b ph (setf cl i x) next.
Proof.
  intros H. split; [lia|]. split.
  - intros j. unfold setf. destruct (j =? i)%nat; auto. pose proof (ci_clock _ _ _ CI j) as Q. cbn in Q. lia.
  - intros a. pose proof (ci_ph _ _ _ CI a) as Q. cbn in Q. lia.
Qed.
Lemma bounds_same : bounds b ph cl next.
Proof.
  split; [lia|]. split.
  - intros j. pose proof (ci_clock _ _ _ CI j) as Q. cbn in Q. lia.
  - intros a. pose proof (ci_ph _ _ _ CI a) as Q. cbn in Q. lia.
Qed.
(* Only the thread's place, its clock and locks change. *)
Lemma only_pc p' lk' cl' : pok rest lo ph rw fr next p' -> locks lk fr pc i lk' fr p' -> targets rest fr pc i p' -> bounds b ph cl' next ->
  cinv (MkC rest lo ph rw lk' fr cl' (setf pc i p')) l next.
Proof.
  intros P L T B. apply (quiet_ok rest lo ph rw lk fr cl pc l b CI i); auto.
  - apply (struct_local rest lo ph rw lk fr cl pc l b CI); auto; [lia|]. exact rows_in.
  - apply (others_local rest lo ph rw lk fr cl pc l b CI i); auto; [lia|intros; lia].
  - intros k. split; auto. lia.
Qed.
(* One row of the leaf responsible for it changes. *)
Lemma put_row k n ts prev lk' : walk lo 0 rest k = n -> has (pc i) n -> (forall m, lk' m = lk m \/ has (pc i) m) -> 0 <= ts <= next ->
  (forall a, latest [k] l = Some a -> u_ts a < ts) -> prev = match latest [k] l with Some a => if u_rem a then 0 else u_ts a | None => 0 end ->
  cinv (MkC rest lo ph (setf rw n (row_set k ts (rw n))) lk' fr (setf cl i ts) (setf pc i CIdle)) (l ++ [MkUpd [k] false ts prev]) next.
Proof.
  intros W H LK B N1 N2. apply (event_ok rest lo ph rw lk fr cl pc l b CI i rest lo ph _ lk' fr _ CIdle next k); auto; cbn [u_rem u_ts].
  - apply (struct_local rest lo ph rw lk fr cl pc l b CI); auto; [lia|]. intros m k' x Hm E. destruct (Nat.eq_dec m n) as [->|N].
    + rewrite setf_same, row_get_set in E. destruct (Z.eqb_spec k k') as [<-|NK]; [inversion E; subst; auto|]. apply rows_in; auto.
    + rewrite setf_other in E by auto. apply rows_in; auto.
  - apply (others_local rest lo ph rw lk fr cl pc l b CI i); auto; [lia|intros; lia|]. intros m. destruct (Nat.eq_dec m n) as [->|N]; [auto|]. rewrite setf_other by auto. auto.
  - exact Logic.I.
  - apply idle_locks. auto.
  - apply no_targets; [reflexivity|discriminate].
  - apply bounds_clock. auto.
  - intros k' NK. split; [|lia]. destruct (Nat.eq_dec (walk lo 0 rest k') n) as [E|E].
    + rewrite E, setf_same, row_get_set. destruct (Z.eqb_spec k k'); [congruence|reflexivity].
    + now rewrite setf_other.
  - rewrite W, setf_same, row_get_set, Z.eqb_refl. reflexivity.
Qed.
Lemma know_some k x : row_get k (rw (walk lo 0 rest k)) = Some x -> exists a, latest [k] l = Some a /\ u_rem a = false /\ u_ts a = x.
Proof.
  intros E. pose proof (ci_know _ _ _ CI k) as K. cbv zeta in K. cbn in K. rewrite E in K. destruct (latest [k] l) as [a|]; [|discriminate]. exists a. destruct (u_rem a); [destruct K; discriminate|]. split; auto. split; auto. congruence.
Qed.
Lemma know_none k : row_get k (rw (walk lo 0 rest k)) = None -> forall a, latest [k] l = Some a -> u_rem a = true /\ u_ts a < ph (walk lo 0 rest k).
Proof.
  intros E a Ha. pose proof (ci_know _ _ _ CI k) as K. cbv zeta in K. cbn in K. rewrite Ha in K. destruct (u_rem a); [tauto|congruence].
Qed.
Lemma insert_row k n lk' : walk lo 0 rest k = n -> row_get k (rw n) = None -> has (pc i) n -> (forall m, lk' m = lk m \/ has (pc i) m) ->
  cinv (MkC rest lo ph (setf rw n (row_set k (observe (cl i) (ph n)) (rw n))) lk' fr (setf cl i (observe (cl i) (ph n))) (setf pc i CIdle)) (l ++ [MkUpd [k] false (observe (cl i) (ph n)) 0]) next.
Proof.
  intros W E H LK. pose proof (ci_clock _ _ _ CI i) as C1. pose proof (ci_ph _ _ _ CI n) as C2. cbn in C1, C2. destruct (observe_ok _ _ _ C1 C2 HBb) as [U1 U2]. rewrite <- W in E. apply put_row; auto; [lia| |].
  - intros a Ha. destruct (know_none k E a Ha) as [_ Q]. rewrite W in Q. lia.
  - destruct (latest [k] l) as [a|] eqn:Ha; auto. destruct (know_none k E a Ha) as [-> _]. reflexivity.
Qed.
Lemma update_row k n x lk' : walk lo 0 rest k = n -> row_get k (rw n) = Some x -> has (pc i) n -> (forall m, lk' m = lk m \/ has (pc i) m) ->
  cinv (MkC rest lo ph (setf rw n (row_set k (update_ts (cl i) x) (rw n))) lk' fr (setf cl i (update_ts (cl i) x)) (setf pc i CIdle)) (l ++ [MkUpd [k] false (update_ts (cl i) x) x]) next.
Proof.
  intros W E H LK. pose proof (ci_clock _ _ _ CI i) as C1. cbn in C1. destruct (ci_rows _ _ _ CI n k x) as [_ C2]; [cbn; rewrite <- W; apply walk_in|exact E|]. destruct (update_ts_ok _ _ _ C1 C2 HBb) as [U1 U2]. rewrite <- W in E. destruct (know_some k x E) as (a0 & K1 & K2 & K3). apply put_row; auto; [lia| |].
  - intros a Ha. assert (a = a0) by congruence. subst. lia.
  - rewrite K1, K2. auto.
Qed.

(* Phantom epochs. *)
Lemma set_ph n x p' : has (pc i) n \/ (forall j, ~ between (pc j) n) -> (forall j m c k, j <> i -> pc j = CSplit m c k -> c <> n) -> (n < fr)%nat -> ph n <= x <= next ->
  pok rest lo (setf ph n x) rw fr next p' -> (forall m, has p' m -> has (pc i) m) -> targets rest fr pc i p' ->
  cinv (MkC rest lo (setf ph n x) rw lk fr cl (setf pc i p')) l next.
Proof.
  intros H SC LT B P L T. apply (quiet_ok rest lo ph rw lk fr cl pc l b CI i); auto.
  - apply (struct_local rest lo ph rw lk fr cl pc l b CI); auto; [lia|]. exact rows_in.
  - apply (others_local rest lo ph rw lk fr cl pc l b CI i); auto; [lia| | |].
    + intros m _. unfold setf. destruct (Nat.eqb_spec m n) as [->|]; lia.
    + intros j m N Hm. destruct (Nat.eq_dec m n) as [->|NM]; [|now rewrite setf_other]. exfalso. destruct H as [H|H]; [|exact (H j Hm)]. apply (ci_excl _ _ _ CI i j n); auto. cbn. destruct (pc j); cbn in *; try contradiction; subst; auto.
    + intros j m c k N E. rewrite setf_other; auto. eapply SC; eauto.
  - apply same_locks. auto.
  - destruct bounds_same as (B1 & B2 & B3). split; auto. split; auto. intros a. pose proof (ci_ph _ _ _ CI n) as Q. cbn in Q. unfold setf. destruct (a =? n)%nat; [lia|auto].
  - intros k. split; auto. unfold setf. destruct (Nat.eqb_spec (walk lo 0 rest k) n) as [->|]; lia.
Qed.

(* A new leaf for a split. *)
Lemma make_child n k : walk lo 0 rest k = n -> row_get k (rw n) = None -> has (pc i) n ->
  cinv (MkC rest lo (setf ph fr (ph n)) (setf rw fr []) (setf lk fr true) (S fr) cl (setf pc i (CSplit n fr k))) l next.
Proof.
  intros W E H. assert (NF : forall m, In m (0%nat :: rest) -> m <> fr) by (intros m Hm; pose proof (ci_lt _ _ _ CI m Hm) as Q; cbn in Q; lia).
  pose proof (has_lt i n H) as Ln. apply (quiet_ok rest lo ph rw lk fr cl pc l b CI i).
  - apply (struct_local rest lo ph rw lk fr cl pc l b CI); auto; [lia|]. intros m k' x Hm Q. rewrite setf_other in Q by auto. apply rows_in; auto.
  - apply (others_local rest lo ph rw lk fr cl pc l b CI i); auto; [lia| | | |].
    + intros m Hm. rewrite setf_other by lia. lia.
    + intros m. destruct (Nat.eq_dec m fr) as [->|N]; [right; right; lia|]. rewrite setf_other by auto. auto.
    + intros j m N Hm. rewrite setf_other; auto. assert (has (pc j) m) as Q by (destruct (pc j); cbn in *; try contradiction; subst; auto). pose proof (has_lt j m Q). lia.
    + intros j m c k' N Ej. rewrite setf_other; auto. assert (has (pc j) c) as Q by (rewrite Ej; cbn; auto). pose proof (has_lt j c Q). lia.
  - cbn [pok]. split; auto. split; [rewrite setf_other by lia; auto|]. split; [rewrite setf_same, setf_other by lia; auto|]. split; [|lia]. intros Q. exact (NF fr Q eq_refl).
  - split; [lia|]. split.
    + intros m [->| ->]; [|rewrite setf_same; split; [auto|split; [lia|right; right; lia]]]. rewrite setf_other by lia. split; [apply (ci_held _ _ _ CI i n H)|]. split; [lia|auto].
    + intros j m N Hm. pose proof (has_lt j m Hm). rewrite setf_other by lia. apply (ci_held _ _ _ CI j m Hm).
  - split; [discriminate|]. intros m c k' [= <- <- <-]. lia.
  - destruct bounds_same as (B1 & B2 & B3). split; auto. split; auto. intros a. unfold setf. destruct (a =? fr)%nat; auto.
  - intros k'. rewrite !setf_other by (apply NF, walk_in). split; auto. lia.
Qed.
(* The new leaf is filled and linked. *)
Lemma link_child n c k sk : pc i = CSplit n c k -> (sk = k \/ row_get sk (rw n) <> None) ->
  cinv (MkC (ins_after n c 0 rest) (setf lo c sk) ph (setf (setf rw c (filter (fun r => sk <=? fst r) (rw n))) n (filter (fun r => fst r <? sk) (rw n))) lk fr cl (setf pc i (CLinked n c k))) l next.
Proof.
  intros E SK. pose proof (ci_pok _ _ _ CI i) as P. cbn in P. rewrite E in P. cbn [pok] in P. destruct P as (P1 & P2 & P3 & P4 & P5). set (lo' := setf lo c sk).
  assert (NIN : In n (0%nat :: rest)) by (rewrite <- P1; apply walk_in). assert (NC : n <> c) by (intros ->; contradiction).
  assert (WX : forall h k', walk lo' h rest k' = walk lo h rest k'). { intros h k'. apply walk_ext. intros m Hm. unfold lo'. apply setf_other. intros ->. apply P4. right. auto. }
  assert (WS : walk lo 0 rest sk = n). { destruct SK as [->|SK]; auto. destruct (row_get sk (rw n)) as [x|] eqn:Q; [|congruence]. apply (ci_rows _ _ _ CI n sk x NIN Q). }
  pose proof (ci_nodup _ _ _ CI) as ND. pose proof (ci_sorted _ _ _ CI) as SS. cbn in ND, SS.
  assert (LC : lo' c = sk) by apply setf_same.
  assert (WI : forall k', walk lo' 0 (ins_after n c 0 rest) k' = if (walk lo 0 rest k' =? n)%nat then (if sk <=? k' then c else n) else walk lo 0 rest k').
  { intros k'. rewrite (walk_ins lo' n c rest 0%nat k'); auto; rewrite ?LC, ?WX; auto. }
  assert (SS' : StronglySorted (fun a d => lo' a <= lo' d) rest).
  { clear -SS P4. assert (NC : ~ In c rest) by (intros Q; apply P4; right; auto). clear P4. unfold lo'. induction SS as [|a r S IH F]; [constructor|].
    constructor; [apply IH; intros Q; apply NC; right; auto|]. rewrite Forall_forall in *. intros x Hx. assert (A1 : a <> c) by (intros ->; apply NC; left; auto). assert (A2 : x <> c) by (intros ->; apply NC; right; auto). rewrite (setf_other lo c sk a), (setf_other lo c sk x) by auto. apply F; auto. }
  assert (RN : forall m, m <> n -> m <> c -> setf (setf rw c (filter (fun r => sk <=? fst r) (rw n))) n (filter (fun r => fst r <? sk) (rw n)) m = rw m) by (intros m A B; now rewrite !setf_other).
  assert (RC : setf (setf rw c (filter (fun r => sk <=? fst r) (rw n))) n (filter (fun r => fst r <? sk) (rw n)) c = filter (fun r => sk <=? fst r) (rw n)) by (rewrite setf_other by auto; apply setf_same).
  set (rw' := setf (setf rw c (filter (fun r => sk <=? fst r) (rw n))) n (filter (fun r => fst r <? sk) (rw n))) in *.
  assert (RN' : rw' n = filter (fun r => fst r <? sk) (rw n)) by apply setf_same. clearbody rw'.
  assert (GC : forall k', row_get k' (rw' c) = if sk <=? k' then row_get k' (rw n) else None) by (intros k'; rewrite RC; apply (row_get_filter (fun a => sk <=? a))).
  assert (GN : forall k', row_get k' (rw' n) = if k' <? sk then row_get k' (rw n) else None) by (intros k'; rewrite RN'; apply (row_get_filter (fun a => a <? sk))).
  assert (GET : forall k', row_get k' (rw' (walk lo' 0 (ins_after n c 0 rest) k')) = row_get k' (rw (walk lo 0 rest k'))).
  { intros k'. rewrite WI. destruct (Nat.eqb_spec (walk lo 0 rest k') n) as [Q|Q].
    - rewrite Q. destruct (Z.leb_spec sk k').
      + rewrite GC. destruct (Z.leb_spec sk k'); [auto|lia].
      + rewrite GN. destruct (Z.ltb_spec k' sk); [auto|lia].
    - rewrite RN; auto. intros Q2. apply P4. rewrite <- Q2. apply walk_in. }
  assert (II : forall x, In x (0%nat :: ins_after n c 0 rest) <-> x = c \/ In x (0%nat :: rest)). { intros x. cbn [In]. rewrite (ins_in n c x rest 0%nat NIN). intuition. }
  assert (HC : has (pc i) c /\ has (pc i) n) by (rewrite E; cbn; auto).
  apply (quiet_ok rest lo ph rw lk fr cl pc l b CI i).
  - split; [|split; [|split]].
    + apply ins_nodup; auto.
    + intros m Hm. apply II in Hm. destruct Hm as [->|Hm]; auto. apply (ci_lt _ _ _ CI m Hm).
    + apply ins_sorted; auto. now rewrite WX, LC.
    + intros m k' x Hm Q. apply II in Hm. rewrite WI. destruct (Nat.eq_dec m c) as [->|M1]; [|destruct Hm as [Hm|Hm]; [contradiction|]; destruct (Nat.eq_dec m n) as [->|M2]].
      * rewrite GC in Q. destruct (Z.leb_spec sk k'); [|discriminate]. destruct (rows_in n k' x NIN Q) as [-> B]. rewrite Nat.eqb_refl. auto.
      * rewrite GN in Q. destruct (Z.ltb_spec k' sk); [|discriminate]. destruct (rows_in n k' x NIN Q) as [-> B]. rewrite Nat.eqb_refl. destruct (Z.leb_spec sk k'); [lia|auto].
      * rewrite RN in Q by auto. destruct (rows_in m k' x Hm Q) as [-> B]. destruct (Nat.eqb_spec m n); [contradiction|auto].
  - intros j N. assert (NH : forall m, has (pc j) m -> m <> n /\ m <> c). { intros m Hm. split; intros ->; [exact (ci_excl _ _ _ CI i j n (not_eq_sym N) (proj2 HC) Hm)|exact (ci_excl _ _ _ CI i j c (not_eq_sym N) (proj1 HC) Hm)]. }
    apply (pok_frame rest lo ph rw fr b _ _ ph _ fr next (pc j) (ci_pok _ _ _ CI j)); [exact (ci_lt _ _ _ CI)|lia|lia|intros; lia| |auto|auto|].
    + intros m Hm. destruct (NH m Hm) as [M1 M2]. split; [|split; [auto|split]].
      * intros k' Q. rewrite WI, Q. destruct (Nat.eqb_spec m n); [contradiction|auto].
      * intros Q. apply (ins_in n c m rest 0%nat NIN). auto.
      * intros Q Q2. apply II in Q2. tauto.
    + intros m q' Em Hq. rewrite pred_ins in Hq; auto; [|apply (NH m); rewrite Em; reflexivity]. destruct (pred_of m 0 rest) as [q|]; [|discriminate]. exists q. split; auto. destruct (Nat.eqb_spec q n) as [EQ|EQ]; inversion Hq as [EQ2]; [rewrite EQ, <- P3, <- EQ2; lia|rewrite <- EQ2; lia].
  - cbn [pok]. rewrite GET, P1. split; auto. rewrite WI, P1, Nat.eqb_refl. destruct (sk <=? k); auto.
  - apply same_locks. intros m. rewrite E. cbn. auto.
  - apply no_targets; [reflexivity|discriminate].
  - exact bounds_same.
  - intros k'. split; auto. rewrite WI. destruct (Nat.eqb_spec (walk lo 0 rest k') n) as [Q|Q]; [|lia]. rewrite Q. destruct (sk <=? k'); lia.
Qed.

(* A removal. *)
Lemma remove_row n k ts x gone : pc i = CRem n k ts x -> (gone = true -> row_del k (rw n) = [] /\ n <> 0%nat) ->
  cinv (MkC rest lo ph (setf rw n (row_del k (rw n))) (if gone then lk else setf lk n false) fr cl (setf pc i (if gone then CPrev n else CIdle))) (l ++ [MkUpd [k] true ts x]) next.
Proof.
  intros E G. pose proof (ci_pok _ _ _ CI i) as P. cbn in P. rewrite E in P. cbn [pok] in P. destruct P as (P1 & P2 & P3 & P4).
  assert (NIN : In n (0%nat :: rest)) by (rewrite <- P1; apply walk_in). assert (HN : has (pc i) n) by (rewrite E; reflexivity).
  rewrite <- P1 in P2. destruct (know_some k x P2) as (a0 & K1 & K2 & K3). rewrite P1 in P2.
  apply (event_ok rest lo ph rw lk fr cl pc l b CI i rest lo ph _ _ fr cl _ next k); auto; cbn [u_rem u_ts u_prev].
  - apply (struct_local rest lo ph rw lk fr cl pc l b CI); auto; [lia|]. intros m k' y Hm Q. destruct (Nat.eq_dec m n) as [->|N].
    + rewrite setf_same, row_get_del in Q. destruct (k =? k'); [discriminate|]. apply rows_in; auto.
    + rewrite setf_other in Q by auto. apply rows_in; auto.
  - apply (others_local rest lo ph rw lk fr cl pc l b CI i); auto; [lia|intros; lia|]. intros m. destruct (Nat.eq_dec m n) as [->|N]; [auto|]. rewrite setf_other by auto. auto.
  - destruct gone; [|exact Logic.I]. destruct (G eq_refl) as [G1 G2]. cbn [pok]. split; [destruct NIN as [Q|Q]; [congruence|auto]|]. rewrite setf_same. exact G1.
  - destruct gone; [apply same_locks; intros m ->; auto|]. apply idle_locks. intros m. destruct (Nat.eq_dec m n) as [->|N]; [auto|]. rewrite setf_other by auto. auto.
  - destruct gone; apply no_targets; try reflexivity; discriminate.
  - exact bounds_same.
  - intros k' NK. split; [|lia]. destruct (Nat.eq_dec (walk lo 0 rest k') n) as [Q|Q].
    + rewrite Q, setf_same, row_get_del. destruct (Z.eqb_spec k k'); [congruence|reflexivity].
    + now rewrite setf_other.
  - rewrite P1, setf_same, row_get_del, Z.eqb_refl. auto.
  - intros a Ha. assert (a = a0) by congruence. subst. lia.
  - rewrite K1, K2. auto.
Qed.

(* An empty leaf leaves the list. *)
Lemma unlink_leaf n : pc i = CUnlink n ->
  cinv (MkC (unlinked n rest) lo ph rw (setf lk n false) fr cl (setf pc i CIdle)) l next.
Proof.
  intros E. pose proof (ci_pok _ _ _ CI i) as P. cbn in P. rewrite E in P. cbn [pok] in P. destruct P as ((P1 & P2) & P3). assert (HN : has (pc i) n) by (rewrite E; reflexivity).
  pose proof (ci_nodup _ _ _ CI) as ND. pose proof (ci_sorted _ _ _ CI) as SS. cbn in ND, SS. destruct (pred_some n rest 0%nat P1) as (q & Q). specialize (P3 q Q). destruct (pred_in _ _ _ _ Q) as [_ QI].
  assert (WD : forall k, walk lo 0 (unlinked n rest) k = if (walk lo 0 rest k =? n)%nat then q else walk lo 0 rest k) by (intros k; apply walk_del; auto).
  assert (N0 : n <> 0%nat) by (intros ->; inversion ND; contradiction).
  assert (QN : q <> n). { intros ->. clear -Q ND N0. assert (X : forall r h, NoDup (h :: r) -> pred_of n h r <> Some n).
    { induction r as [|m r IH]; intros h H; cbn; [discriminate|]. inversion H as [|? ? A B]; subst. destruct (Nat.eqb_spec m n) as [->|]; [|apply IH; auto]. intros [= ->]. apply A. left. auto. }
    exact (X rest 0%nat ND Q). }
  apply (quiet_ok rest lo ph rw lk fr cl pc l b CI i).
  - split; [|split; [|split]].
    + apply unlinked_nodup. auto.
    + intros m [<-|Hm]; [apply (ci_lt _ _ _ CI); left; auto|]. apply unlinked_in in Hm. apply (ci_lt _ _ _ CI). right. apply Hm.
    + apply unlinked_sorted. auto.
    + intros m k x Hm G. assert (HM : In m (0%nat :: rest) /\ m <> n) by (destruct Hm as [<-|Hm]; [split; [left; auto|auto]|apply unlinked_in in Hm; split; [right|]; apply Hm]). destruct HM as [HM HM2]. destruct (rows_in m k x HM G) as [W B]. rewrite WD, W. destruct (Nat.eqb_spec m n); [contradiction|auto].
  - intros j N. assert (NH : forall m, has (pc j) m -> m <> n) by (intros m Hm ->; exact (ci_excl _ _ _ CI i j n (not_eq_sym N) HN Hm)).
    apply (pok_frame rest lo ph rw fr b _ _ ph _ fr next (pc j) (ci_pok _ _ _ CI j)); [exact (ci_lt _ _ _ CI)|lia|lia|intros; lia| |auto|auto|].
    + intros m Hm. specialize (NH m Hm). split; [|split; [auto|split]].
      * intros k W. rewrite WD, W. destruct (Nat.eqb_spec m n); [contradiction|auto].
      * intros W. apply unlinked_in. auto.
      * intros W [W2|W2]; [apply W; left; auto|]. apply unlinked_in in W2. apply W. right. tauto.
    + intros m q' Em Hq. rewrite (pred_del n m q) in Hq; auto; [|apply NH; rewrite Em; reflexivity]. destruct (pred_of m 0 rest) as [q0|]; [|discriminate]. exists q0. split; auto. destruct (Nat.eqb_spec q0 n) as [EQ|EQ]; inversion Hq as [EQ2]; [rewrite EQ, <- EQ2; lia|rewrite <- EQ2; lia].
  - exact Logic.I.
  - apply idle_locks. intros m. destruct (Nat.eq_dec m n) as [->|N]; [auto|]. rewrite setf_other by auto. auto.
  - apply no_targets; [reflexivity|discriminate].
  - exact bounds_same.
  - intros k. rewrite WD. destruct (Nat.eqb_spec (walk lo 0 rest k) n) as [W|W]; [|split; auto; lia]. rewrite W, P2. split; [|lia]. cbn [row_get]. destruct (row_get k (rw q)) as [x|] eqn:G; auto. destruct (rows_in q k x QI G) as [W2 _]. congruence.
Qed.
End Step.

Theorem cstep_ok s l b a s' e : cinv s l b -> b + 8 < HB -> cas_apart s a -> cstep s a = Some (s', e) -> cinv s' (l ++ map to_upd e) (b + 4).
Proof.
  intros CI HBb AP H. destruct s as [rest lo ph rw lk fr cl pc]. destruct a as [i put k|i]; cbn [cstep] in H.
  - unfold resp in H. cbn [c_lo c_rest] in H. destruct (pc i) eqn:E; try discriminate. cbv zeta in H. set (n := walk lo 0 rest k) in *. destruct (lk n) eqn:L; [discriminate|]. injection H as <- <-. cbn [map]. rewrite app_nil_r.
    apply (only_pc rest lo ph rw lk fr cl pc l b CI).
    + reflexivity.
    + split; [lia|]. split.
      * intros m ->. rewrite setf_same. split; auto. split; [apply (walk_lt rest lo ph rw lk fr cl pc l b CI)|auto].
      * intros j m N Hm. pose proof (proj1 (ci_held _ _ _ CI j m Hm)) as Q. cbn in Q. rewrite setf_other; [auto|congruence].
    + apply no_targets; [reflexivity|discriminate].
    + exact (bounds_same rest lo ph rw lk fr cl pc l b CI).
  - assert (TOU : map to_upd [] = []) by reflexivity. assert (PK := ci_pok _ _ _ CI i). cbn in PK. destruct (pc i) as [|put k n|n k ts x|n k ts x|n c k|n c k|n|n q|n q v|n q|n] eqn:E; cbn [pok] in PK; try discriminate.
    + assert (HN : has (pc i) n) by (rewrite E; reflexivity). assert (UL : forall m, setf lk n false m = lk m \/ has (pc i) m) by (intros m; destruct (Nat.eq_dec m n) as [->|N]; [auto|rewrite setf_other by auto; auto]). destruct put.
      * destruct (row_get k (rw n)) as [x|] eqn:R; [|destruct (length (rw n) <? W)%nat]; injection H as <- <-; cbn [map to_upd e_key e_rem e_ts e_prev]; rewrite ?app_nil_r.
        -- apply (update_row rest lo ph rw lk fr cl pc l b CI HBb i k n x); auto.
        -- apply (insert_row rest lo ph rw lk fr cl pc l b CI HBb i k n); auto.
        -- apply (make_child rest lo ph rw lk fr cl pc l b CI); auto.
      * destruct (row_get k (rw n)) as [x|] eqn:R; cbv zeta in H; injection H as <- <-; cbn [map]; rewrite app_nil_r.
        -- assert (C1 := ci_clock _ _ _ CI i). cbn in C1. destruct (ci_rows _ _ _ CI n k x) as [_ C2]; [cbn; rewrite <- PK; apply walk_in|exact R|]. destruct (update_ts_ok _ _ _ C1 C2 HBb) as [U1 U2].
           assert (C3 := ci_ph _ _ _ CI n). cbn in C3. rewrite ci_less_equal_small by lia.
           apply (only_pc rest lo ph rw lk fr cl pc l b CI).
           ++ destruct (Z.leb_spec (ph n) (update_ts (cl i) x)); cbn [pok]; split; auto; split; auto; lia.
           ++ apply (same_locks rest lo ph rw lk fr cl pc l b CI). intros m. rewrite E. destruct (ph n <=? update_ts (cl i) x); cbn; auto.
           ++ destruct (ph n <=? update_ts (cl i) x); apply no_targets; try reflexivity; discriminate.
           ++ apply (bounds_clock rest lo ph rw lk fr cl pc l b CI). lia.
        -- apply (only_pc rest lo ph rw lk fr cl pc l b CI); [exact Logic.I|apply (idle_locks rest lo ph rw lk fr cl pc l b CI); auto|apply no_targets; [reflexivity|discriminate]|exact (bounds_same rest lo ph rw lk fr cl pc l b CI)].
    + injection H as <- <-. cbn [map]. rewrite app_nil_r. destruct PK as (P1 & P2 & P3 & P4). assert (HN : has (pc i) n) by (rewrite E; reflexivity). assert (C3 := ci_ph _ _ _ CI n). cbn in C3. rewrite wrap_small by lia.
      apply (set_ph rest lo ph rw lk fr cl pc l b CI); auto; try lia.
      * intros j m c k' N Ej ->. apply (ci_excl _ _ _ CI i j n); auto. cbn. rewrite Ej. cbn. auto.
      * apply (has_lt rest lo ph rw lk fr cl pc l b CI i n HN).
      * cbn [pok]. rewrite setf_same. split; auto. split; auto. lia.
      * rewrite E. auto.
      * apply no_targets; [reflexivity|discriminate].
    + cbv zeta in H. injection H as <- <-. cbn [map to_upd e_key e_rem e_ts e_prev]. apply (remove_row rest lo ph rw lk fr cl pc l b CI i n k ts x); auto.
      intros G. destruct (row_del k (rw n)); [|discriminate]. split; auto. destruct (Nat.eqb_spec n 0); [discriminate|auto].
    + cbv zeta in H. injection H as <- <-. cbn [map]. rewrite app_nil_r. apply (link_child rest lo ph rw lk fr cl pc l b CI i n c k); auto. apply split_key_in.
    + unfold resp in H. cbn [c_lo c_rest] in H. cbv zeta in H. injection H as <- <-. cbn [map to_upd e_key e_rem e_ts e_prev]. destruct PK as [P1 P2].
      apply (insert_row rest lo ph rw lk fr cl pc l b CI HBb i k); auto.
      * rewrite E. cbn. auto.
      * intros m. rewrite E. cbn. unfold unlock2, setf. destruct (Nat.eqb_spec m c); [auto|]. destruct (Nat.eqb_spec m n); auto.
    + destruct (pred_of n 0 rest) as [q|] eqn:Q; [|discriminate]. injection H as <- <-. cbn [map]. rewrite app_nil_r. destruct (pred_in _ _ _ _ Q) as [_ QI].
      apply (only_pc rest lo ph rw lk fr cl pc l b CI).
      * cbn [pok]. split; auto. apply (ci_lt _ _ _ CI q QI).
      * apply (same_locks rest lo ph rw lk fr cl pc l b CI). rewrite E. auto.
      * split; [|discriminate]. intros q0 [= <-]. auto.
      * exact (bounds_same rest lo ph rw lk fr cl pc l b CI).
    + injection H as <- <-. cbn [map]. rewrite app_nil_r. destruct PK as [P1 P2]. assert (C3 := ci_ph _ _ _ CI n). assert (C4 := ci_ph _ _ _ CI q). cbn in C3, C4. rewrite ci_less_small by lia.
      apply (only_pc rest lo ph rw lk fr cl pc l b CI).
      * destruct (Z.ltb_spec (ph q) (ph n)); cbn [pok]; split; auto.
      * apply (same_locks rest lo ph rw lk fr cl pc l b CI). rewrite E. destruct (ph q <? ph n); auto.
      * split; [|destruct (ph q <? ph n); discriminate]. intros q0. rewrite E. destruct (ph q <? ph n); cbn; auto.
      * exact (bounds_same rest lo ph rw lk fr cl pc l b CI).
    + destruct PK as (P1 & P2 & P3). destruct (Z.eqb_spec (ph q) v) as [Q|Q]; injection H as <- <-; cbn [map]; rewrite app_nil_r.
      * assert (C3 := ci_ph _ _ _ CI n). cbn in C3. apply (set_ph rest lo ph rw lk fr cl pc l b CI); auto; try lia.
        -- right. intros j. exact (AP i n q v eq_refl E Q j).
        -- intros j m c k N Ej EC. apply (ci_hq _ _ _ CI i q j m c k); auto. cbn. rewrite E. reflexivity.
        -- cbn [pok]. split; auto. split; auto. rewrite setf_same. unfold setf. destruct (Nat.eqb_spec n q); lia.
        -- rewrite E. auto.
        -- split; [|discriminate]. intros q0. rewrite E. cbn. auto.
      * apply (only_pc rest lo ph rw lk fr cl pc l b CI).
        -- cbn [pok]. auto.
        -- apply (same_locks rest lo ph rw lk fr cl pc l b CI). rewrite E. auto.
        -- split; [|discriminate]. intros q0. rewrite E. cbn. auto.
        -- exact (bounds_same rest lo ph rw lk fr cl pc l b CI).
    + injection H as <- <-. cbn [map]. rewrite app_nil_r. destruct PK as (P1 & P2 & P3). apply (only_pc rest lo ph rw lk fr cl pc l b CI).
      * destruct (pred_of n 0 rest) as [q'|] eqn:Q; [|exact P1]. destruct (Nat.eqb_spec q' q) as [->|N]; [|exact P1]. cbn [pok]. split; auto. rewrite Q. intros q0 [= <-]. auto.
      * apply (same_locks rest lo ph rw lk fr cl pc l b CI). rewrite E. destruct (pred_of n 0 rest) as [q'|]; [destruct (q' =? q)%nat|]; auto.
      * apply no_targets; destruct (pred_of n 0 rest) as [q'|]; [destruct (q' =? q)%nat| |destruct (q' =? q)%nat|]; try reflexivity; discriminate.
      * exact (bounds_same rest lo ph rw lk fr cl pc l b CI).
    + injection H as <- <-. cbn [map]. rewrite app_nil_r. apply (unlink_leaf rest lo ph rw lk fr cl pc l b CI i n E).
Qed.

Theorem cruns_ok : forall ops s l b s' es, cinv s l b -> b + 4 * Z.of_nat (length ops) + 8 < HB -> apart s ops -> cruns s ops = Some (s', es) -> cinv s' (l ++ map to_upd es) (b + 4 * Z.of_nat (length ops)).
Proof.
  induction ops as [|a ops IH]; intros s l b s' es CI HBb AP H; cbn [cruns apart length] in *.
  - injection H as <- <-. cbn [map]. rewrite app_nil_r. replace (b + 4 * Z.of_nat 0) with b by lia. auto.
  - destruct (cstep s a) as [[s1 e]|] eqn:E; [|discriminate]. destruct (cruns s1 ops) as [[s2 es2]|] eqn:E2; [|discriminate]. injection H as <- <-. destruct AP as [A1 A2].
    pose proof (cstep_ok s l b a s1 e CI ltac:(lia) A1 E) as C1. pose proof (IH s1 _ _ s2 es2 C1 ltac:(lia) A2 E2) as C2. rewrite map_app, app_assoc. replace (b + 4 * Z.of_nat (S (length ops))) with (b + 4 + 4 * Z.of_nat (length ops)) by lia. exact C2.
Qed.
Lemma c_init_ok clock b : (forall i, 0 <= clock i <= b) -> cinv (c_init clock) [] b.
Proof.
  intros H. constructor; cbn.
  - constructor; [intros []|constructor].
  - intros m [<-|[]]. lia.
  - constructor.
  - discriminate.
  - intros i. exact Logic.I.
  - intros i j n _ [].
  - intros i n [].
  - discriminate.
  - exact H.
  - intros a. specialize (H 0%nat). lia.
  - intros e [].
  - intros k. reflexivity.
  - intros [|? ?] ? ? ? ? E; discriminate.
  - intros [|? ?] ? ? E; discriminate.
Qed.
Theorem concurrent clock ops s es : (forall i, 0 <= clock i < 2 ^ 62) -> 4 * Z.of_nat (length ops) + 8 < 2 ^ 62 -> apart (c_init clock) ops -> cruns (c_init clock) ops = Some (s, es) ->
  ts_increase (map to_upd es) /\ prev_names (map to_upd es) /\ forall k, row_get k (c_rows s (resp s k)) = newest [k] (map to_upd es).
Proof.
  intros A B C D. pose proof (cruns_ok ops (c_init clock) [] (2 ^ 62) s es) as R. assert (CI : cinv s ([] ++ map to_upd es) (2 ^ 62 + 4 * Z.of_nat (length ops))).
  { apply R; auto. - apply c_init_ok. intros i. specialize (A i). lia. - unfold HB. change (2 ^ 63) with (2 ^ 62 + 2 ^ 62). lia. }
  change ([] ++ map to_upd es) with (map to_upd es) in CI. split; [apply CI|]. split; [apply CI|]. intros k. rewrite (newest_latest [k] _ (ci_inc _ _ _ CI)). pose proof (ci_know _ _ _ CI k) as K. cbv zeta in K. unfold resp. cbn [app] in K. destruct (latest [k] (map to_upd es)) as [a|]; auto. destruct (u_rem a); [tauto|auto].
Qed.
