(* Shared leaf: what a search knows, and that the lock holder's stores do not falsify it. *)
From Verif Require Import Lib M_Key M_Permuter P_Permuter P_Permuter2 M_Search P_Search M_Version P_Version P_Version2 M_Tree M_Leafread Spec_Leafread P_Leafread1.
From Coq Require Import Permutation.

Local Opaque perm_get perm_size.
Definition clean (m : lmem) : Prop := nv_dirty (m_v m) = false.
Definition same_slot (m m' : lmem) (p : nat) : Prop := m_ikey m p = m_ikey m' p /\ m_klx m p = m_klx m' p /\ frag_of m p = frag_of m' p.
Lemma same_slot_refl m p : same_slot m m p. Proof. repeat split. Qed.
Lemma same_slot_trans a b c p : same_slot a b p -> same_slot b c p -> same_slot a c p.
Proof. unfold same_slot. intros (A & B & C) (D & E & F). repeat split; congruence. Qed.
Lemma same_slot_cmp m m' k p : same_slot m m' p -> cmpk m k p = cmpk m' k p.
Proof. intros (A & B & _). unfold cmpk. now rewrite A, B. Qed.

(* One step's effect on the leaf as searches see it; only steps outside modifications are constrained. *)
Record relyc (m m' : lmem) : Prop := {
  rl_slot : forall p, livex (m_perm m) p \/ m_mod m <> MsInsert ->
    same_slot m m' p /\ forall b, (b < m_nbag m)%nat -> m_slen m' b p = m_slen m b p /\ m_sbyte m' b p = m_sbyte m b p;
  rl_ins : m_mod m' = MsInsert -> m_mod m = MsInsert /\ forall p, livex (m_perm m) p -> livex (m_perm m') p;
  rl_rem : m_mod m' <> MsInsert -> (forall p, livex (m_perm m') p -> livex (m_perm m) p) /\ (m_mod m = MsInsert -> forall p, ~ livex (m_perm m) p);
  rl_lv : forall p, m_lv m' p = m_lv m p \/ livex (m_perm m') p \/ (m_mod m = MsInsert /\ ~ livex (m_perm m) p);
  rl_nbag : (m_nbag m <= m_nbag m')%nat }.
Definition rely (m m' : lmem) : Prop := clean m -> clean m' -> relyc m m'.
Lemma rely_refl m : relyc m m.
Proof.
  constructor.
  - intros p _. split; [apply same_slot_refl|]. auto.
  - auto.
  - intros H. split; [auto|]. intros H1. congruence.
  - auto.
  - auto.
Qed.

(* A step seen by a search: the histories grow. *)
Definition grows (s s' : lst) : Prop :=
  exists ev, s_hist s' = s_m s' :: s_hist s /\ s_log s' = s_log s ++ ev /\ nv_run (m_v (s_m s)) ev = Some (m_v (s_m s')) /\
    rely (s_m s) (s_m s') /\ WFm (s_m s').

Lemma during_mono s s' t0 m : grows s s' -> during s t0 m -> during s' t0 m.
Proof.
  intros (ev & E & _) (j & L & N). exists j. split; [exact L|]. rewrite E. cbn [rev].
  rewrite nth_error_app1; [exact N|]. apply nth_error_Some. congruence.
Qed.
Lemma during_now s s' t0 : grows s s' -> (t0 <= length (s_hist s))%nat -> during s' t0 (s_m s').
Proof.
  intros (ev & E & _) L. exists (length (s_hist s)). split; [exact L|]. rewrite E. cbn [rev].
  rewrite nth_error_app2 by (rewrite rev_length; lia). rewrite rev_length, Nat.sub_diag. reflexivity.
Qed.

Definition calmf (f : fnd) (s : lst) : Prop := calm (skipn (f_n0 f) (s_log s)) = true.
Record base (f : fnd) (s : lst) : Prop := {
  b_len : 0 <= k_len (f_k f);
  b_t0 : (f_t0 f < length (s_hist s))%nat;
  b_n0 : (f_n0 f <= length (s_log s))%nat;
  b_wf : nv_wf (f_r f);
  b_clean : nv_dirty (f_r f) = false;
  b_run : nv_run (f_r f) (skipn (f_n0 f) (s_log s)) = Some (m_v (s_m s)) }.
Lemma skipn_app_le {A} n (a b : list A) : (n <= length a)%nat -> skipn n (a ++ b) = skipn n a ++ b.
Proof. intros H. rewrite skipn_app. replace (n - length a)%nat with 0%nat by lia. reflexivity. Qed.
Lemma base_grows f s s' : grows s s' -> base f s -> base f s'.
Proof.
  intros (ev & Eh & El & R & _) [B1 B2 B3 B4 B5 B6]. constructor; auto.
  - rewrite Eh. cbn. lia.
  - rewrite El, app_length. lia.
  - rewrite El, skipn_app_le by exact B3. rewrite nv_run_app, B6. exact R.
Qed.
Lemma calm_back f s s' : grows s s' -> base f s -> calmf f s' -> calmf f s /\ clean (s_m s) /\ clean (s_m s') /\ relyc (s_m s) (s_m s').
Proof.
  intros G B Q. pose proof (base_grows _ _ _ G B) as B'. destruct G as (ev & Eh & El & R & RL & V).
  unfold calmf in *. pose proof Q as Q0. rewrite El, skipn_app_le in Q by apply (b_n0 _ _ B). rewrite calm_app in Q. apply andb_true_iff in Q.
  destruct Q as [Q1 Q2].
  assert (C : clean (s_m s)) by exact (calm_clean _ _ _ (b_wf _ _ B) (b_clean _ _ B) (b_run _ _ B) Q1).
  assert (C' : clean (s_m s')) by exact (calm_clean _ _ _ (b_wf _ _ B') (b_clean _ _ B') (b_run _ _ B') Q0).
  split; [exact Q1|]. split; [exact C|]. split; [exact C'|]. exact (RL C C').
Qed.

(* After the permutation was loaded as [x2]. *)
Definition good_now (s : lst) (f : fnd) (m : lmem) : Prop := during s (f_t0 f) m /\ WFm m /\ clean m.
Record snap (f : fnd) (x2 : Z) (s : lst) : Prop := {
  sn_m0 : exists m0, good_now s f m0 /\ m_perm m0 = x2 /\ forall p, livex x2 p -> same_slot m0 (s_m s) p;
  sn_ins : m_mod (s_m s) = MsInsert -> forall p, livex x2 p -> livex (m_perm (s_m s)) p;
  sn_rem : m_mod (s_m s) <> MsInsert -> forall p, livex (m_perm (s_m s)) p -> livex x2 p;
  sn_lv : forall p, livex x2 p -> exists m1, good_now s f m1 /\ livex (m_perm m1) p /\ same_slot m1 (s_m s) p /\ m_lv m1 p = m_lv (s_m s) p }.
Lemma good_mono s s' f m : grows s s' -> good_now s f m -> good_now s' f m.
Proof. intros G (A & B & C). split; [exact (during_mono _ _ _ _ G A)|auto]. Qed.

Lemma snap_slot f x2 s s' p : base f s -> snap f x2 s -> relyc (s_m s) (s_m s') -> livex x2 p ->
  same_slot (s_m s) (s_m s') p /\ forall b, (b < m_nbag (s_m s))%nat -> m_slen (s_m s') b p = m_slen (s_m s) b p /\ m_sbyte (s_m s') b p = m_sbyte (s_m s) b p.
Proof.
  intros B [_ S1 S2 _] R L. apply (rl_slot _ _ R). destruct (m_mod (s_m s)) eqn:E; [left; apply S1; auto| |]; right; discriminate.
Qed.
Lemma snap_grows f x2 s s' : grows s s' -> base f s -> (calmf f s -> snap f x2 s) -> calmf f s' -> snap f x2 s'.
Proof.
  intros G B H Q. destruct (calm_back _ _ _ G B Q) as (Q0 & C & C' & R). specialize (H Q0).
  pose proof (fun p => snap_slot f x2 s s' p B H R) as FS. destruct H as [(m0 & A1 & A2 & A3) S1 S2 S3]. constructor.
  - exists m0. split; [exact (good_mono _ _ _ _ G A1)|]. split; [exact A2|]. intros p L. exact (same_slot_trans _ _ _ _ (A3 p L) (proj1 (FS p L))).
  - intros E p L. destruct (rl_ins _ _ R E) as [E1 I]. apply I, S1; auto.
  - intros E p L. destruct (rl_rem _ _ R E) as [I N]. apply I in L. destruct (m_mod (s_m s)) eqn:M.
    + exfalso. exact (N eq_refl p L).
    + apply S2; [discriminate|exact L].
    + apply S2; [discriminate|exact L].
  - intros p L. destruct (rl_lv _ _ R p) as [E|[E|[E N]]].
    + destruct (S3 p L) as (m1 & D1 & D2 & D3 & D4). exists m1. split; [exact (good_mono _ _ _ _ G D1)|]. split; [exact D2|].
      split; [exact (same_slot_trans _ _ _ _ D3 (proj1 (FS p L)))|congruence].
    + exists (s_m s'). split; [|split; [exact E|split; [apply same_slot_refl|reflexivity]]].
      pose proof G as G0. destruct G0 as (ev & _ & _ & _ & _ & V). split; [|auto]. apply (during_now s s'); auto. pose proof (b_t0 _ _ B). lia.
    + exfalso. apply N. apply S1; auto.
Qed.
(* The first and the second load of the permutation. *)
Definition between (x x2 : Z) (m : lmem) : Prop :=
  (m_mod m = MsInsert -> forall p, livex x p -> livex x2 p) /\ (m_mod m <> MsInsert -> forall p, livex x2 p -> livex x p).
Lemma between_grows f x x2 s s' : grows s s' -> base f s -> (calmf f s -> snap f x2 s /\ between x x2 (s_m s)) -> calmf f s' -> between x x2 (s_m s').
Proof.
  intros G B H Q. destruct (calm_back _ _ _ G B Q) as (Q0 & C & C' & R). destruct (H Q0) as [S [B1 B2]]. split.
  - intros E p L. destruct (rl_ins _ _ R E) as [E1 I]. auto.
  - intros E p L. destruct (rl_rem _ _ R E) as [I N]. destruct (m_mod (s_m s)) eqn:M.
    + exfalso. apply (N eq_refl p). apply (sn_ins _ _ _ S M p L).
    + apply B2; [discriminate|auto].
    + apply B2; [discriminate|auto].
Qed.

(* What the binary search has established. *)
Definition below (m : lmem) (k : mkey) (x2 : Z) (l : nat) : Prop := forall j, (j < l)%nat -> cmpk m k (perm_get x2 j) > 0.
Definition above (m : lmem) (k : mkey) (x2 : Z) (h : nat) : Prop := forall j, (h <= j < perm_size x2)%nat -> cmpk m k (perm_get x2 j) < 0.
Definition hit (m : lmem) (k : mkey) (x2 : Z) (i p : nat) : Prop :=
  (i < perm_size x2)%nat /\ p = perm_get x2 i /\ cmpk m k p = 0 /\ below m k x2 i.
Definition lvok (s : lst) (f : fnd) (p : nat) (lv : Z) : Prop :=
  exists m1, good_now s f m1 /\ livex (m_perm m1) p /\ same_slot m1 (s_m s) p /\ m_lv m1 p = lv.
Definition found (m : lmem) (k : mkey) (x2 : Z) (i : nat) (p : option nat) (mt : Z) : Prop :=
  match p with
  | None => (i <= perm_size x2)%nat /\ below m k x2 i /\ above m k x2 i /\ mt = 0
  | Some p => hit m k x2 i p /\ mt = matchval k (frag_of m p)
  end.
Definition fin (c : cand) (s : lst) : Prop :=
  found (s_m s) (f_k (c_f c)) (c_x2 c) (c_i c) (c_p c) (c_m c) /\ forall p, c_p c = Some p -> lvok s (c_f c) p (c_lv c).
Definition sufok (m : lmem) (b p : nat) : Prop :=
  m_klx m p = 64 /\ (b < m_nbag m)%nat /\ suffix_of m b p = suffix_of m (m_bag m) p.

(* Persistence under "same slots". *)
Definition keeps (x2 : Z) (m m' : lmem) : Prop := forall p, livex x2 p ->
  same_slot m m' p /\ forall b, (b < m_nbag m)%nat -> m_slen m' b p = m_slen m b p /\ m_sbyte m' b p = m_sbyte m b p.
Lemma below_keeps m m' k x2 l : (l <= perm_size x2)%nat -> keeps x2 m m' -> below m k x2 l -> below m' k x2 l.
Proof. intros L K H j Hj. rewrite <- (same_slot_cmp m m' k _ (proj1 (K _ (ex_intro _ j (conj (Nat.lt_le_trans _ _ _ Hj L) eq_refl))))). apply H, Hj. Qed.
Lemma above_keeps m m' k x2 h : keeps x2 m m' -> above m k x2 h -> above m' k x2 h.
Proof. intros K H j Hj. rewrite <- (same_slot_cmp m m' k _ (proj1 (K _ (ex_intro _ j (conj (proj2 Hj) eq_refl))))). apply H, Hj. Qed.
Lemma hit_live m k x2 i p : hit m k x2 i p -> livex x2 p.
Proof. intros (A & B & _). exists i. auto. Qed.
Lemma hit_keeps m m' k x2 i p : keeps x2 m m' -> hit m k x2 i p -> hit m' k x2 i p.
Proof.
  intros K H. pose proof (hit_live _ _ _ _ _ H) as L. destruct H as (A & B & C & D). repeat split; auto.
  - rewrite <- (same_slot_cmp m m' k p (proj1 (K p L))). exact C.
  - apply (below_keeps m); auto. lia.
Qed.
Lemma found_keeps m m' k x2 i p mt : keeps x2 m m' -> found m k x2 i p mt -> found m' k x2 i p mt.
Proof.
  intros K. destruct p as [p|]; cbn.
  - intros [H ->]. split; [exact (hit_keeps _ _ _ _ _ _ K H)|]. destruct (K p (hit_live _ _ _ _ _ H)) as [(_ & _ & E) _]. now rewrite E.
  - intros (A & B & C & D). split; [exact A|]. split; [apply (below_keeps m); auto|]. split; [apply (above_keeps m); auto|exact D].
Qed.
Lemma suffix_ext m m' b p : m_slen m' b p = m_slen m b p -> m_sbyte m' b p = m_sbyte m b p -> suffix_of m' b p = suffix_of m b p.
Proof. unfold suffix_of. intros -> ->. reflexivity. Qed.
Lemma frag_suffix m p : m_klx m p = 64 -> frag_of m p = Long (m_ikey m p) (suffix_of m (m_bag m) p).
Proof. intros E. unfold frag_of. rewrite E. reflexivity. Qed.
Lemma sufok_keeps m m' x2 b p : livex x2 p -> keeps x2 m m' -> (m_nbag m <= m_nbag m')%nat -> sufok m b p -> sufok m' b p.
Proof.
  intros L K N (A & B & C). destruct (K p L) as [(E1 & E2 & E3) E4]. destruct (E4 b B) as [E5 E6]. split; [congruence|]. split; [lia|].
  rewrite (suffix_ext m m' b p E5 E6), C. rewrite (frag_suffix m p A) in E3. rewrite (frag_suffix m' p) in E3 by congruence. congruence.
Qed.
Lemma lvok_grows f x2 s s' p lv : grows s s' -> base f s -> livex x2 p -> keeps x2 (s_m s) (s_m s') -> lvok s f p lv -> lvok s' f p lv.
Proof.
  intros G B L K (m1 & A & D & E & F). exists m1. split; [exact (good_mono _ _ _ _ G A)|]. split; [exact D|]. split; [|exact F].
  exact (same_slot_trans _ _ _ _ E (proj1 (K p L))).
Qed.
