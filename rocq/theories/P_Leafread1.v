(* Shared leaf: live slots, well-formedness, what a lookup finds, and the version log. *)
From Verif Require Import Lib M_Key M_Permuter P_Permuter P_Permuter2 M_Search P_Search M_Version P_Version P_Version2 M_Tree M_Leafread Spec_Leafread.
From Coq Require Import Permutation.

Definition livex (x : Z) (p : nat) : Prop := exists j, (j < perm_size x)%nat /\ perm_get x j = p.
Lemma W_range : (1 <= W <= 15)%nat. Proof. unfold W. lia. Qed.
Local Opaque perm_get perm_size.
Lemma size_le x : perm_ok W x -> (perm_size x <= W)%nat. Proof. intros (_ & H & _). exact H. Qed.
Lemma is_live_spec x p : is_live x p = true <-> livex x p.
Proof.
  unfold is_live, livex. rewrite existsb_exists. split.
  - intros (j & I & E). apply in_seq in I. apply Nat.eqb_eq in E. exists j. split; [lia|auto].
  - intros (j & L & E). exists j. split; [apply in_seq; lia|now apply Nat.eqb_eq].
Qed.
Lemma live_dec x p : livex x p \/ ~ livex x p.
Proof. rewrite <- is_live_spec. destruct (is_live x p); [left|right]; auto. Qed.
Lemma firstn_seq' n : forall k a, (n <= k)%nat -> firstn n (seq a k) = seq a n.
Proof. induction n; intros k a H; [reflexivity|]. destruct k; [lia|]. cbn. f_equal. apply IHn. lia. Qed.
Lemma live_slots_eq m : (perm_size (m_perm m) <= W)%nat -> live_slots m = map (perm_get (m_perm m)) (seq 0 (perm_size (m_perm m))).
Proof. intros H. unfold live_slots, perm_list. rewrite firstn_map, firstn_seq' by exact H. reflexivity. Qed.
Lemma in_live m p : (perm_size (m_perm m) <= W)%nat -> In p (live_slots m) <-> livex (m_perm m) p.
Proof.
  intros H. rewrite live_slots_eq by exact H. rewrite in_map_iff. unfold livex. split.
  - intros (j & E & I). apply in_seq in I. exists j. split; [lia|auto].
  - intros (j & L & E). exists j. split; [auto|apply in_seq; lia].
Qed.
Lemma get_inj x i j : perm_ok W x -> (i < perm_size x)%nat -> (j < perm_size x)%nat -> perm_get x i = perm_get x j -> i = j.
Proof.
  intros (Pw & S & P) Hi Hj E. pose proof (proj1 (pinj_iff W W_range x) P) as [_ Q]. apply Q; auto; lia.
Qed.

Record WFm (m : lmem) : Prop := {
  wf_perm : perm_ok W (m_perm m);
  wf_sorted : leaf_sorted (m_perm m) (m_ikey m) (m_klx m);
  wf_klx : forall p, livex (m_perm m) p -> 0 <= m_klx m p <= 8 \/ m_klx m p = 64 \/ m_klx m p = 128;
  wf_bag : (m_bag m < m_nbag m)%nat }.

Definition cmpk (m : lmem) (k : mkey) (p : nat) : Z := key_compare (k_ikey k) (k_len k) (m_ikey m p) (m_klx m p).

Lemma same_bytes_iff a : forall b, same_bytes a b = true <-> a = b.
Proof.
  induction a as [|x a IH]; destruct b as [|y b]; cbn; split; try discriminate; auto.
  - intros H. apply andb_true_iff in H. destruct H as [H1 H2]. f_equal; [lia|now apply IH].
  - intros H. injection H as -> ->. apply andb_true_iff. split; [lia|now apply IH].
Qed.

Lemma for_key_cmp m k p : 0 <= m_klx m p <= 8 \/ m_klx m p = 64 \/ m_klx m p = 128 -> for_key k (frag_of m p) = true -> cmpk m k p = 0.
Proof.
  unfold for_key, frag_of, cmpk. intros L H. rewrite key_compare_eq. unfold lenclass.
  destruct (Z.eqb_spec (m_klx m p) 128); [|destruct (Z.eqb_spec (m_klx m p) 64)];
    repeat (apply andb_true_iff in H; destruct H as [H ?]); lia.
Qed.

(* What matching slot [p] against [k] yields, when slice and length class agree. *)
Definition matchval (k : mkey) (f : frag) : Z :=
  match f with Short _ _ => 1 | Sub _ => -8 | Long _ s => if same_bytes s (key_suffix k) then 1 else 0 end.
Lemma for_key_val m k p : 0 <= m_klx m p <= 8 \/ m_klx m p = 64 \/ m_klx m p = 128 -> cmpk m k p = 0 -> 0 <= k_len k ->
  for_key k (frag_of m p) = negb (matchval k (frag_of m p) =? 0).
Proof.
  unfold cmpk, frag_of. intros L H K. apply key_compare_eq in H. unfold lenclass in H. unfold for_key, matchval.
  destruct (Z.eqb_spec (m_klx m p) 128); [|destruct (Z.eqb_spec (m_klx m p) 64)].
  - cbn. lia.
  - destruct (same_bytes _ _); cbn; lia.
  - cbn. lia.
Qed.

Lemma cmp_unique m k i j : WFm m -> (i < perm_size (m_perm m))%nat -> (j < perm_size (m_perm m))%nat ->
  cmpk m k (perm_get (m_perm m) i) = 0 -> cmpk m k (perm_get (m_perm m) j) = 0 -> i = j.
Proof.
  intros [P S L B] Hi Hj E1 E2. unfold cmpk in *. apply key_compare_eq in E1. apply key_compare_eq in E2.
  destruct (Nat.lt_total i j) as [H|[H|H]]; [|exact H|];
    [specialize (S i j ltac:(lia))|specialize (S j i ltac:(lia))]; unfold entry_lt in S; cbn [fst snd] in S; lia.
Qed.

Definition ans_of (f : frag) (v : Z) : answer := match f with Sub _ => Layer v | _ => Found v end.
Lemma lookup_absent m k : WFm m -> (forall p, livex (m_perm m) p -> for_key k (frag_of m p) = false) -> lookup (entries m) k = Absent.
Proof.
  intros V H. unfold lookup. destruct (find _ _) as [[f v]|] eqn:E; [|reflexivity]. exfalso.
  apply find_some in E. destruct E as [I E]. unfold entries in I. apply in_map_iff in I. destruct I as (p & E1 & I).
  injection E1 as <- <-. apply in_live in I; [|exact (size_le _ (wf_perm _ V))]. cbn in E. rewrite (H p I) in E. discriminate.
Qed.
Lemma lookup_found m k p : WFm m -> livex (m_perm m) p -> for_key k (frag_of m p) = true -> lookup (entries m) k = ans_of (frag_of m p) (m_lv m p).
Proof.
  intros V (i & Hi & Ei) H. unfold lookup. destruct (find _ _) as [[f v]|] eqn:E.
  - apply find_some in E. destruct E as [I E]. unfold entries in I. apply in_map_iff in I. destruct I as (q & E1 & I).
    injection E1 as <- <-. apply in_live in I; [|exact (size_le _ (wf_perm _ V))]. cbn in E. destruct I as (j & Hj & Ej).
    assert (C1 : cmpk m k p = 0) by (apply for_key_cmp; auto; apply (wf_klx _ V); exists i; auto).
    assert (C2 : cmpk m k q = 0) by (apply for_key_cmp; auto; apply (wf_klx _ V); exists j; auto).
    rewrite <- Ei in C1. rewrite <- Ej in C2. pose proof (cmp_unique _ _ _ _ V Hi Hj C1 C2) as ->.
    rewrite <- Ei, <- Ej. unfold ans_of. destruct (frag_of m _); reflexivity.
  - exfalso. pose proof (find_none _ _ E (frag_of m p, m_lv m p)) as N. cbn in N. rewrite N in H; [discriminate|].
    unfold entries. apply in_map_iff. exists p. split; [reflexivity|]. apply in_live; [exact (size_le _ (wf_perm _ V))|]. exists i; auto.
Qed.

(* Two sorted live lists with the same slots are the same list. *)
Lemma sorted_pos x ik kl i j : leaf_sorted x ik kl -> (i < perm_size x)%nat -> (j < perm_size x)%nat ->
  entry_lt (ik (perm_get x i), kl (perm_get x i)) (ik (perm_get x j), kl (perm_get x j)) -> (i < j)%nat.
Proof.
  intros S Hi Hj L. destruct (Nat.lt_total i j) as [H|[H|H]]; [exact H| |].
  - subst. unfold entry_lt in L. cbn in L. lia.
  - specialize (S j i ltac:(lia)). unfold entry_lt in *. cbn [fst snd] in *. lia.
Qed.
Lemma sorted_same x y ik kl : perm_ok W x -> perm_ok W y -> leaf_sorted x ik kl -> leaf_sorted y ik kl ->
  (forall p, livex x p <-> livex y p) -> perm_size x = perm_size y /\ forall j, (j < perm_size x)%nat -> perm_get x j = perm_get y j.
Proof.
  intros Px Py Sx Sy H.
  assert (NX : forall z, perm_ok W z -> NoDup (map (perm_get z) (seq 0 (perm_size z)))).
  { intros z Pz. apply NoDup_nth with (d := perm_get z 0). intros i j. rewrite map_length, seq_length. intros Hi Hj E.
    rewrite !map_nth in E. rewrite !seq_nth in E by auto. cbn in E. now apply (get_inj z). }
  assert (IN : forall z p, In p (map (perm_get z) (seq 0 (perm_size z))) <-> livex z p).
  { intros z p. rewrite in_map_iff. unfold livex. split.
    - intros (j & E & I). apply in_seq in I. exists j. split; [lia|auto].
    - intros (j & L & E). exists j. split; [auto|apply in_seq; lia]. }
  assert (SZ : perm_size x = perm_size y).
  { pose proof (NoDup_Permutation (NX x Px) (NX y Py) ltac:(intros; rewrite !IN; apply H)) as P.
    apply Permutation_length in P. rewrite !map_length, !seq_length in P. exact P. }
  split; [exact SZ|].
  assert (Q : forall n, forall j, (j < n)%nat -> (j < perm_size x)%nat -> perm_get x j = perm_get y j).
  { induction n; [lia|]. intros j Hj Lj.
    assert (forall i, (i < j)%nat -> perm_get x i = perm_get y i) as IH by (intros; apply IHn; lia).
    assert (A : livex y (perm_get x j)) by (apply H; exists j; auto). destruct A as (b & Hb & Eb).
    assert (B : livex x (perm_get y j)) by (apply H; exists j; split; [lia|auto]). destruct B as (a & Ha & Ea).
    assert (b >= j)%nat. { destruct (Nat.lt_ge_cases b j) as [C|C]; [|lia]. rewrite <- (IH b C) in Eb. pose proof (get_inj x b j Px ltac:(lia) Lj Eb). lia. }
    assert (a >= j)%nat. { destruct (Nat.lt_ge_cases a j) as [C|C]; [|lia]. rewrite (IH a C) in Ea. pose proof (get_inj y a j Py ltac:(lia) ltac:(lia) Ea). lia. }
    destruct (Nat.eq_dec b j) as [->|N1]; [congruence|].
    assert (E1 := Sy j b ltac:(lia)). rewrite Eb, <- Ea in E1.
    pose proof (sorted_pos x ik kl a j Sx Ha Lj E1). lia. }
  intros j Hj. apply (Q (S j)); lia.
Qed.

(* ---- the log of version changes ---- *)
Definition calm (es : list nv_event) : bool := forallb (fun e => match e with EvMark mk => negb (nv_mark_dirties mk) | _ => true end) es.
Lemma calm_app a b : calm (a ++ b) = calm a && calm b. Proof. apply forallb_app. Qed.
Lemma nv_run_app a : forall w b, nv_run w (a ++ b) = match nv_run w a with Some w' => nv_run w' b | None => None end.
Proof. induction a as [|e a IH]; intros; cbn; [reflexivity|]. destruct (nv_event_ok w e); auto. Qed.

Lemma tally_completed es : forall i s k n, let '(pi, ps, k', n') := fold_left tally_step es (i, s, k, n) in
  k' = k + completed (i || s) es /\ k <= k' /\ ((i || s = true -> (pi || ps = true \/ k < k')) /\ (i || s = false -> calm es = false -> (pi || ps = true \/ k < k')))%bool.
Proof.
  induction es as [|e es IH]; intros i s k n.
  - cbn. repeat split; try lia; auto; try discriminate.
  - cbn [fold_left].
    destruct e as [|mk|].
    + cbn [tally_step completed calm forallb]. specialize (IH i s k n). exact IH.
    + cbn [completed calm forallb].
      assert (E : exists i' s', tally_step (i, s, k, n) (EvMark mk) = (i', s', k, n) /\ i' || s' = i || s || nv_mark_dirties mk).
      { destruct mk as [ | |[|]| | | | ]; cbn; eexists _, _; (split; [reflexivity|]); rewrite ?orb_true_r, ?orb_false_r; reflexivity. }
      destruct E as (i' & s' & -> & E). specialize (IH i' s' k n). destruct (fold_left _ _ _) as [[[pi ps] k'] n'].
      rewrite E in IH. destruct IH as (I1 & I2 & I3 & I4). split; [exact I1|]. split; [exact I2|]. split.
      * intros H. apply I3. rewrite H. reflexivity.
      * intros H C. rewrite H in *. cbn [orb] in *. destruct (nv_mark_dirties mk); [apply I3; reflexivity|].
        apply I4; [reflexivity|exact C].
    + cbn [tally_step completed calm forallb]. specialize (IH false false (if i || s then k + 1 else k) (if s then n + 1 else n)).
      destruct (fold_left _ _ _) as [[[pi ps] k'] n']. cbn [orb] in IH. destruct IH as (I1 & I2 & I3 & I4).
      destruct (i || s); split; try lia; (split; [lia|]); split; intros; try discriminate; try (right; lia).
      apply I4; auto.
Qed.

Lemma unchanged_calm w0 es w1 : nv_wf w0 -> nv_dirty w0 = false -> nv_run w0 es = Some w1 -> completed false es < 2 ^ 19 ->
  nv_has_changed w1 w0 = false -> calm es = true.
Proof.
  intros V D R K H. pose proof (tally_completed es false false 0 0) as T. fold (tally es) in T.
  destruct (tally es) as [[[pi ps] k] n] eqn:E. cbn [orb] in T. destruct T as (T1 & T2 & _ & T3).
  destruct (nv_change_detected w0 es w1 pi ps k n V D R E ltac:(lia)) as (_ & C & _).
  destruct (calm es) eqn:Q; [reflexivity|]. exfalso. rewrite C in H; [discriminate|].
  destruct (T3 eq_refl eq_refl) as [T|T]; [|left; lia]. apply orb_true_iff in T. tauto.
Qed.
Lemma calm_clean w0 es w1 : nv_wf w0 -> nv_dirty w0 = false -> nv_run w0 es = Some w1 -> calm es = true -> nv_dirty w1 = false.
Proof.
  intros V D R Q.
  assert (T : forall es k n, calm es = true -> fold_left tally_step es (false, false, k, n) = (false, false, k, n)).
  { clear. induction es as [|e es IH]; intros k n Q; [reflexivity|]. cbn [calm forallb] in Q. apply andb_true_iff in Q. destruct Q as [Q1 Q2].
    cbn [fold_left]. destruct e as [|mk|]; [apply IH; exact Q2| |apply IH; exact Q2].
    destruct mk as [ | |[|]| | | | ]; cbn in Q1; try discriminate; apply IH; exact Q2. }
  destruct (nv_change_detected w0 es w1 false false 0 0 V D R (T es 0 0 Q) ltac:(lia)) as (_ & _ & _ & C & _). exact C.
Qed.
