(* Shared leaf: the invariant's per-thread facts; they survive other threads' steps; searching. *)
From Verif Require Import Lib M_Key M_Permuter P_Permuter P_Permuter2 M_Search P_Search M_Version P_Version P_Version2 M_Tree M_Leafread Spec_Leafread P_Leafread1 P_Leafread2 P_Leafread3 P_Leafread4 P_Leafread5.
From Coq Require Import Permutation.

Local Opaque perm_get perm_size perm_insert_from_back perm_remove perm_exchange perm_set_size perm_back.
Definition srch (f : fnd) (x x2 : Z) (s : lst) (P : Prop) : Prop :=
  base f s /\ (calmf f s -> snap f x2 s /\ between x x2 (s_m s) /\ P).
Definition rng (m : lmem) (k : mkey) (x2 : Z) (l h : nat) : Prop := (l <= h <= perm_size x2)%nat /\ below m k x2 l /\ above m k x2 h.
Definition first (x : Z) (m : lmem) : Prop :=
  (m_mod m = MsInsert -> forall p, livex x p -> livex (m_perm m) p) /\ (m_mod m <> MsInsert -> forall p, livex (m_perm m) p -> livex x p).
Definition same_to (m : lmem) (k : mkey) (b p j : nat) : Prop :=
  m_slen m b p = length (key_suffix k) /\ (j <= length (key_suffix k))%nat /\ forall i, (i < j)%nat -> m_sbyte m b p i = nth i (key_suffix k) 0.
Definition pcok (s : lst) (p : lpc) : Prop :=
  let m := s_m s in
  match p with
  | PIdle => True
  | PStable k _ => 0 <= k_len k
  | PPerm f => base f s
  | PPerm2 f x => base f s /\ (calmf f s -> first x m)
  | PIkey f x x2 l h => srch f x x2 s (rng m (f_k f) x2 l h /\ (l < h)%nat)
  | PKlx f x x2 l h ik => srch f x x2 s ((rng m (f_k f) x2 l h /\ (l < h)%nat) /\ ik = m_ikey m (perm_get x2 (Nat.div2 (l + h))))
  | PLv f x x2 i p => srch f x x2 s (hit m (f_k f) x2 i p)
  | PMatch f x x2 i p lv => srch f x x2 s (hit m (f_k f) x2 i p /\ lvok s f p lv)
  | PKsuf f x x2 i p lv => srch f x x2 s ((hit m (f_k f) x2 i p /\ lvok s f p lv) /\ m_klx m p = 64)
  | PSlen f x x2 i p lv b => srch f x x2 s ((hit m (f_k f) x2 i p /\ lvok s f p lv) /\ sufok m b p)
  | PSbyte f x x2 i p lv b j => srch f x x2 s ((hit m (f_k f) x2 i p /\ lvok s f p lv) /\ sufok m b p /\ same_to m (f_k f) b p j /\ (j < length (key_suffix (f_k f)))%nat)
  | PChk c | PTry c _ | PSpin c | PVerify1 c => srch (c_f c) (c_x c) (c_x2 c) s (fin c s)
  | PDone k t0 a => exists m0, during s t0 m0 /\ WFm m0 /\ clean m0 /\ lookup (entries m0) k = a
  | PVerify2 c => srch (c_f c) (c_x c) (c_x2 c) s (fin c s) /\ calmf (c_f c) s
  | PVerify3 c => held m (f_k (c_f c)) (c_i c) (c_p c) (c_m c)
  | PHeld k i p mt => held m k i p mt
  | PDirect _ | PDspin | PFree => True
  | PRun l => ok m l
  | PMarkS mk r l => r = m_v m /\ ok m (WMark mk :: l)
  | PUnlockS r => r = m_v m
  end.
Definition holds (p : lpc) : bool :=
  match p with PVerify1 _ | PVerify2 _ | PVerify3 _ | PHeld _ _ _ _ | PFree | PRun _ | PMarkS _ _ _ | PUnlockS _ => true | _ => false end.

Lemma srch_grows f x x2 s s' (P P' : Prop) : grows s s' -> srch f x x2 s P ->
  (keeps x2 (s_m s) (s_m s') -> (m_nbag (s_m s) <= m_nbag (s_m s'))%nat -> snap f x2 s -> base f s -> P -> P') -> srch f x x2 s' P'.
Proof.
  intros G [B H] K. split; [exact (base_grows _ _ _ G B)|]. intros Q.
  destruct (calm_back _ _ _ G B Q) as (Q0 & C & C' & R). destruct (H Q0) as (H1 & H2 & H3).
  split; [exact (snap_grows _ _ _ _ G B (fun q => proj1 (H q)) Q)|].
  split; [exact (between_grows _ _ _ _ _ G B (fun q => conj (proj1 (H q)) (proj1 (proj2 (H q)))) Q)|].
  apply K; auto; [|exact (rl_nbag _ _ R)]. intros p L. exact (snap_slot f x2 s s' p B H1 R L).
Qed.
Lemma first_grows f x s s' : grows s s' -> base f s -> (calmf f s -> first x (s_m s)) -> calmf f s' -> first x (s_m s').
Proof.
  intros G B H Q. destruct (calm_back _ _ _ G B Q) as (Q0 & C & C' & R). destruct (H Q0) as [H1 H2]. split.
  - intros E p L. destruct (rl_ins _ _ R E) as [E1 I]. auto.
  - intros E p L. destruct (rl_rem _ _ R E) as [I N]. apply I in L. destruct (m_mod (s_m s)) eqn:M.
    + exfalso. exact (N eq_refl p L).
    + apply H2; [discriminate|exact L].
    + apply H2; [discriminate|exact L].
Qed.
Lemma rng_keeps m m' k x2 l h : keeps x2 m m' -> rng m k x2 l h -> rng m' k x2 l h.
Proof. intros K (A & B & C). split; [exact A|]. split; [apply (below_keeps m); auto; lia|apply (above_keeps m); auto]. Qed.
Lemma fin_grows c s s' : grows s s' -> base (c_f c) s -> keeps (c_x2 c) (s_m s) (s_m s') -> fin c s -> fin c s'.
Proof.
  intros G B K [F L]. split; [exact (found_keeps _ _ _ _ _ _ _ K F)|]. intros p E. specialize (L p E). rewrite E in F. destruct F as [F _].
  exact (lvok_grows _ (c_x2 c) _ _ _ _ G B (hit_live _ _ _ _ _ F) K L).
Qed.
Lemma pcok_grows s s' p : grows s s' -> (holds p = true -> s_m s' = s_m s /\ s_log s' = s_log s) -> pcok s p -> pcok s' p.
Proof.
  intros G E. destruct p; cbn [pcok]; try (intros; exact I); try (now auto).
  - apply base_grows, G.
  - intros [B H]. split; [exact (base_grows _ _ _ G B)|exact (first_grows _ _ _ _ G B H)].
  - intros H. apply (srch_grows _ _ _ _ _ _ _ G H). intros K N S B [P Q]. split; [exact (rng_keeps _ _ _ _ _ _ K P)|exact Q].
  - intros H. apply (srch_grows _ _ _ _ _ _ _ G H). intros K N S B [[P Q] R]. split; [split; [exact (rng_keeps _ _ _ _ _ _ K P)|exact Q]|].
    rewrite R. apply K. exists (Nat.div2 (l + h)). split; [|reflexivity].
    destruct P as [P _]. assert (Nat.div2 (l + h) < h)%nat by (rewrite Nat.div2_div; apply Nat.div_lt_upper_bound; lia). lia.
  - intros H. apply (srch_grows _ _ _ _ _ _ _ G H). intros K N S B P. exact (hit_keeps _ _ _ _ _ _ K P).
  - intros H. apply (srch_grows _ _ _ _ _ _ _ G H). intros K N S B [P Q]. pose proof (hit_live _ _ _ _ _ P) as L.
    split; [exact (hit_keeps _ _ _ _ _ _ K P)|exact (lvok_grows _ _ _ _ _ _ G B L K Q)].
  - intros H. apply (srch_grows _ _ _ _ _ _ _ G H). intros K N S B [[P Q] R]. pose proof (hit_live _ _ _ _ _ P) as L.
    split; [split; [exact (hit_keeps _ _ _ _ _ _ K P)|exact (lvok_grows _ _ _ _ _ _ G B L K Q)]|].
    destruct (K _ L) as [(_ & E2 & _) _]. congruence.
  - intros H. apply (srch_grows _ _ _ _ _ _ _ G H). intros K N S B [[P Q] R]. pose proof (hit_live _ _ _ _ _ P) as L.
    split; [split; [exact (hit_keeps _ _ _ _ _ _ K P)|exact (lvok_grows _ _ _ _ _ _ G B L K Q)]|]. exact (sufok_keeps _ _ _ _ _ L K N R).
  - intros H. apply (srch_grows _ _ _ _ _ _ _ G H). intros K N S B [[P Q] (R & (T1 & T2 & T3) & U)]. pose proof (hit_live _ _ _ _ _ P) as L.
    split; [split; [exact (hit_keeps _ _ _ _ _ _ K P)|exact (lvok_grows _ _ _ _ _ _ G B L K Q)]|].
    split; [exact (sufok_keeps _ _ _ _ _ L K N R)|]. split; [|exact U]. destruct R as (_ & R & _). destruct (K _ L) as [_ E2]. destruct (E2 b R) as [E3 E4].
    split; [congruence|]. split; [exact T2|]. intros q Hq. rewrite E4. auto.
  - intros H. apply (srch_grows _ _ _ _ _ _ _ G H). intros K N S B P. exact (fin_grows _ _ _ G B K P).
  - intros (m0 & D & H). exists m0. split; [exact (during_mono _ _ _ _ G D)|exact H].
  - intros H. apply (srch_grows _ _ _ _ _ _ _ G H). intros K N S B P. exact (fin_grows _ _ _ G B K P).
  - intros H. apply (srch_grows _ _ _ _ _ _ _ G H). intros K N S B P. exact (fin_grows _ _ _ G B K P).
  - intros H. apply (srch_grows _ _ _ _ _ _ _ G H). intros K N S B P. exact (fin_grows _ _ _ G B K P).
  - destruct (E eq_refl) as [E1 E2]. intros [H Q]. split; [|unfold calmf; rewrite E2; exact Q].
    apply (srch_grows _ _ _ _ _ _ _ G H). intros K N S B P. exact (fin_grows _ _ _ G B K P).
  - destruct (E eq_refl) as [-> _]. auto.
  - destruct (E eq_refl) as [-> _]. auto.
  - destruct (E eq_refl) as [-> _]. auto.
  - destruct (E eq_refl) as [-> _]. auto.
  - destruct (E eq_refl) as [-> _]. auto.
Qed.

(* ---- the search, with the loads taken from the current leaf ---- *)
Lemma srch_imp f x x2 s (P Q : Prop) : srch f x x2 s P -> (calmf f s -> snap f x2 s -> between x x2 (s_m s) -> P -> Q) -> srch f x x2 s Q.
Proof. intros [B H] K. split; [exact B|]. intros C. destruct (H C) as (H1 & H2 & H3). auto. Qed.
Lemma snap_sorted f x2 s : snap f x2 s -> leaf_sorted x2 (m_ikey (s_m s)) (m_klx (s_m s)).
Proof.
  intros [(m0 & (_ & V & _) & E & K) _ _ _]. pose proof (wf_sorted _ V) as S. rewrite E in S. intros a b H. specialize (S a b H).
  assert (A : same_slot m0 (s_m s) (perm_get x2 a)) by (apply K; exists a; split; [lia|reflexivity]).
  assert (B : same_slot m0 (s_m s) (perm_get x2 b)) by (apply K; exists b; split; [lia|reflexivity]).
  destruct A as (A1 & A2 & _), B as (B1 & B2 & _). rewrite <- A1, <- A2, <- B1, <- B2. exact S.
Qed.
Lemma snap_ok f x2 s : snap f x2 s -> perm_ok W x2.
Proof. intros [(m0 & (_ & V & _) & E & K) _ _ _]. rewrite <- E. exact (wf_perm _ V). Qed.
Lemma snap_klx f x2 s p : snap f x2 s -> livex x2 p -> 0 <= m_klx (s_m s) p <= 8 \/ m_klx (s_m s) p = 64 \/ m_klx (s_m s) p = 128.
Proof.
  intros [(m0 & (_ & V & _) & E & K) _ _ _] L. destruct (K p L) as (_ & <- & _). apply (wf_klx _ V). rewrite E. exact L.
Qed.
Lemma lt_cmp m k p : entry_lt (m_ikey m p, m_klx m p) (k_ikey k, k_len k) -> cmpk m k p > 0.
Proof.
  intros H. unfold cmpk. destruct (Z.lt_trichotomy (key_compare (k_ikey k) (k_len k) (m_ikey m p) (m_klx m p)) 0) as [C|[C|C]]; [| |lia].
  - apply key_compare_lt in C. unfold entry_lt in *. cbn [fst snd] in *. lia.
  - apply key_compare_eq in C. unfold entry_lt in *. cbn [fst snd] in *. lia.
Qed.
Lemma pc_conclude s c : srch (c_f c) (c_x c) (c_x2 c) s (fin c s) -> pcok s (conclude c).
Proof. intros H. unfold conclude. destruct (f_g (c_f c)); [exact H|]. destruct (c_m c <? 0); exact H. Qed.
Lemma pc_search s f x x2 l h : srch f x x2 s (rng (s_m s) (f_k f) x2 l h) -> pcok s (search f x x2 l h).
Proof.
  intros H. unfold search. destruct (Nat.ltb_spec l h).
  - apply (srch_imp _ _ _ _ _ _ H). auto.
  - apply pc_conclude. apply (srch_imp _ _ _ _ _ _ H). intros _ _ _ (A & B & C). assert (l = h) by lia. subst h. split; [|discriminate].
    cbn. repeat split; auto. lia.
Qed.
Lemma pc_compared s f x x2 l h ik : pcok s (PKlx f x x2 l h ik) -> pcok s (compared f x x2 l h ik (m_klx (s_m s) (perm_get x2 (Nat.div2 (l + h))))).
Proof.
  cbn [pcok]. intros H. unfold compared. cbv zeta. set (mid := Nat.div2 (l + h)) in *.
  assert (M : (l < h -> l <= mid < h)%nat).
  { intros. unfold mid. rewrite Nat.div2_div. split; [apply Nat.div_le_lower_bound; lia|apply Nat.div_lt_upper_bound; lia]. }
  remember (key_compare (k_ikey (f_k f)) (k_len (f_k f)) ik (m_klx (s_m s) (perm_get x2 mid))) as c eqn:Ec.
  assert (CE : ik = m_ikey (s_m s) (perm_get x2 mid) -> c = cmpk (s_m s) (f_k f) (perm_get x2 mid)) by (intros ->; exact Ec). clear Ec.
  destruct (Z.ltb_spec c 0) as [C|C]; [|destruct (Z.eqb_spec c 0) as [C0|C0]].
  - apply pc_search. apply (srch_imp _ _ _ _ _ _ H). intros _ SN _ [[(A & B & D) E] IK]. specialize (M E). rewrite (CE IK) in C. split; [lia|]. split; [exact B|].
    intros j Hj. apply key_compare_lt. destruct (Nat.eq_dec j mid) as [->|].
    + now apply key_compare_lt.
    + apply (entry_lt_trans _ (m_ikey (s_m s) (perm_get x2 mid), m_klx (s_m s) (perm_get x2 mid))); [now apply key_compare_lt|].
      apply (snap_sorted _ _ _ SN). lia.
  - apply (srch_imp _ _ _ _ _ _ H). intros _ SN _ [[(A & B & D) E] IK]. specialize (M E). rewrite (CE IK) in C0. split; [lia|]. split; [reflexivity|]. split; [exact C0|].
    intros j Hj. apply lt_cmp. pose proof (snap_sorted _ _ _ SN j mid ltac:(lia)) as S.
    unfold cmpk in C0. apply key_compare_eq in C0. unfold entry_lt in *. cbn [fst snd] in *. lia.
  - apply pc_search. apply (srch_imp _ _ _ _ _ _ H). intros _ SN _ [[(A & B & D) E] IK]. specialize (M E). rewrite (CE IK) in C, C0. split; [lia|]. split; [|exact D].
    intros j Hj. destruct (Nat.eq_dec j mid) as [->|]; [lia|]. apply lt_cmp.
    apply (entry_lt_trans _ (m_ikey (s_m s) (perm_get x2 mid), m_klx (s_m s) (perm_get x2 mid))); [apply (snap_sorted _ _ _ SN); lia|].
    apply cmp_pos. lia.
Qed.
Lemma fin_some s f x x2 i p lv mt : hit (s_m s) (f_k f) x2 i p -> lvok s f p lv -> mt = matchval (f_k f) (frag_of (s_m s) p) ->
  fin (MkCand f x x2 i (Some p) lv mt) s.
Proof. intros A B C. split; [split; auto|]. cbn. intros q E. injection E as <-. exact B. Qed.
Lemma pc_matched s f x x2 i p lv : pcok s (PMatch f x x2 i p lv) -> pcok s (matched f x x2 i p lv (m_klx (s_m s) p)).
Proof.
  cbn [pcok]. intros H. unfold matched. destruct (Z.ltb_spec (m_klx (s_m s) p) 64); [|destruct (Z.eqb_spec (m_klx (s_m s) p) 128)].
  - apply pc_conclude. apply (srch_imp _ _ _ _ _ _ H). intros _ SN _ [A B]. apply fin_some; auto.
    unfold frag_of. destruct (Z.eqb_spec (m_klx (s_m s) p) 128); [lia|]. destruct (Z.eqb_spec (m_klx (s_m s) p) 64); [lia|]. reflexivity.
  - apply pc_conclude. apply (srch_imp _ _ _ _ _ _ H). intros _ SN _ [A B]. apply fin_some; auto.
    unfold frag_of. destruct (Z.eqb_spec (m_klx (s_m s) p) 128); [|lia]. reflexivity.
  - apply (srch_imp _ _ _ _ _ _ H). intros _ SN _ [A B]. split; [auto|]. pose proof (snap_klx _ _ _ _ SN (hit_live _ _ _ _ _ A)). lia.
Qed.
Lemma suf_frag m b p : sufok m b p -> frag_of m p = Long (m_ikey m p) (suffix_of m b p).
Proof. intros (A & B & C). rewrite C. now apply frag_suffix. Qed.
Lemma bytes_eq m k b p : same_to m k b p (length (key_suffix k)) -> suffix_of m b p = key_suffix k.
Proof.
  intros (A & _ & C). unfold suffix_of. rewrite A. apply nth_ext with (d := m_sbyte m b p 0%nat) (d' := 0).
  - now rewrite map_length, seq_length.
  - intros j Hj. rewrite map_length, seq_length in Hj. rewrite map_nth, seq_nth by exact Hj. apply C, Hj.
Qed.
Lemma pc_suffix s f x x2 i p lv b j : srch f x x2 s ((hit (s_m s) (f_k f) x2 i p /\ lvok s f p lv) /\ sufok (s_m s) b p /\ same_to (s_m s) (f_k f) b p j) ->
  pcok s (suffix_at f x x2 i p lv b j).
Proof.
  intros H. unfold suffix_at. destruct (Nat.ltb_spec j (length (key_suffix (f_k f)))).
  - apply (srch_imp _ _ _ _ _ _ H). intros _ _ _ (A & B & C). auto.
  - apply pc_conclude. apply (srch_imp _ _ _ _ _ _ H). intros _ _ _ ([A1 A2] & B & C). apply fin_some; auto.
    rewrite (suf_frag _ _ _ B). cbn. assert (j = length (key_suffix (f_k f))) by (destruct C as (_ & C & _); lia). subst j.
    rewrite (bytes_eq _ _ _ _ C). rewrite (proj2 (same_bytes_iff _ _) eq_refl). reflexivity.
Qed.
Lemma differ_zero m k b p : sufok m b p -> suffix_of m b p <> key_suffix k -> 0 = matchval k (frag_of m p).
Proof. intros A N. rewrite (suf_frag _ _ _ A). cbn. destruct (same_bytes _ _) eqn:E; [|reflexivity]. apply same_bytes_iff in E. contradiction. Qed.
