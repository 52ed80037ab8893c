(* Shared leaf: the invariant of every reachable state. *)
From Verif Require Import Lib M_Key M_Permuter P_Permuter P_Permuter2 M_Search P_Search M_Version P_Version P_Version2 M_Tree M_Leafread Spec_Leafread P_Leafread1 P_Leafread2 P_Leafread3 P_Leafread4 P_Leafread5 P_Leafread6.
From Coq Require Import Permutation.

Local Opaque perm_get perm_size perm_insert_from_back perm_remove perm_exchange perm_set_size perm_back.
Lemma lookup_hit m k p : WFm m -> 0 <= k_len k -> livex (m_perm m) p -> cmpk m k p = 0 ->
  lookup (entries m) k = (if matchval k (frag_of m p) <? 0 then Layer (m_lv m p) else if matchval k (frag_of m p) =? 0 then Absent else Found (m_lv m p)).
Proof.
  intros V K L C. pose proof (wf_klx _ V p L) as KL. pose proof (for_key_val m k p KL C K) as FV.
  destruct (Z.eqb_spec (matchval k (frag_of m p)) 0) as [E|E]; cbn [negb] in FV.
  - rewrite E. cbn. apply lookup_absent; [exact V|]. intros q Lq. destruct (for_key k (frag_of m q)) eqn:F; [|reflexivity]. exfalso.
    pose proof (for_key_cmp m k q (wf_klx _ V q Lq) F) as C2. destruct L as (a & La & Ea). destruct Lq as (b & Lb & Eb).
    rewrite <- Ea in C. rewrite <- Eb in C2. pose proof (cmp_unique m k a b V La Lb C C2) as ->. congruence.
  - rewrite (lookup_found m k p V L FV). unfold ans_of, matchval in *. destruct (frag_of m p); cbn in *; auto.
    destruct (same_bytes _ _); cbn in *; auto.
Qed.
Lemma answer_ok c s : base (c_f c) s -> snap (c_f c) (c_x2 c) s -> fin c s ->
  exists m0, during s (f_t0 (c_f c)) m0 /\ WFm m0 /\ clean m0 /\ lookup (entries m0) (f_k (c_f c)) = answer_of c.
Proof.
  intros B SN [F L]. destruct (c_p c) as [p|] eqn:P.
  - destruct F as [F M]. destruct (L p eq_refl) as (m1 & (D & V & C) & L1 & SS & LV). exists m1.
    split; [exact D|]. split; [exact V|]. split; [exact C|]. destruct F as (_ & _ & F & _).
    rewrite <- (same_slot_cmp _ _ _ _ SS) in F. rewrite (lookup_hit m1 (f_k (c_f c)) p V (b_len _ _ B) L1 F).
    destruct SS as (_ & _ & SS). rewrite SS, <- M. unfold answer_of. rewrite LV. reflexivity.
  - destruct F as (F1 & F2 & F3 & F4). destruct (sn_m0 _ _ _ SN) as (m0 & (D & V & C) & E & SS). exists m0.
    split; [exact D|]. split; [exact V|]. split; [exact C|]. unfold answer_of. rewrite F4. cbn. apply lookup_absent; [exact V|].
    intros q Lq. destruct (for_key (f_k (c_f c)) (frag_of m0 q)) eqn:K; [|reflexivity]. exfalso.
    pose proof (for_key_cmp m0 _ q (wf_klx _ V q Lq) K) as C2. rewrite E in Lq. rewrite (same_slot_cmp _ _ _ _ (SS q Lq)) in C2.
    destruct Lq as (j & Hj & <-). destruct (Nat.lt_ge_cases j (c_i c)) as [H|H].
    + specialize (F2 j H). lia.
    + specialize (F3 j (conj H Hj)). lia.
Qed.
Lemma cursor_ok c s : WFm (s_m s) -> base (c_f c) s -> snap (c_f c) (c_x2 c) s -> between (c_x c) (c_x2 c) (s_m s) -> fin c s -> m_perm (s_m s) = c_x c ->
  held (s_m s) (f_k (c_f c)) (c_i c) (c_p c) (c_m c).
Proof.
  intros V B SN [B1 B2] [F _] E. split; [exact (b_len _ _ B)|].
  assert (LV : forall p, livex (c_x2 c) p <-> livex (m_perm (s_m s)) p).
  { intros p. destruct (m_mod (s_m s)) eqn:M.
    - split; [apply (sn_ins _ _ _ SN M)|rewrite E; auto].
    - split; [rewrite E; apply B2; discriminate|apply (sn_rem _ _ _ SN); congruence].
    - split; [rewrite E; apply B2; discriminate|apply (sn_rem _ _ _ SN); congruence]. }
  destruct (sorted_same _ _ _ _ (snap_ok _ _ _ SN) (wf_perm _ V) (snap_sorted _ _ _ SN) (wf_sorted _ V) LV) as [S1 S2].
  assert (BE : forall i, (i <= perm_size (c_x2 c))%nat -> below (s_m s) (f_k (c_f c)) (c_x2 c) i -> below (s_m s) (f_k (c_f c)) (m_perm (s_m s)) i).
  { intros i Hi H j Hj. rewrite <- S2 by lia. apply H, Hj. }
  destruct (c_p c) as [p|].
  - destruct F as [(F1 & F2 & F3 & F4) F5]. split; [|exact F5]. split; [lia|]. split; [rewrite <- S2 by exact F1; exact F2|]. split; [exact F3|]. apply BE; auto. lia.
  - destruct F as (F1 & F2 & F3 & F4). split; [lia|]. split; [apply BE; auto|]. split; [|exact F4]. intros j Hj. rewrite <- S1 in Hj. rewrite <- S2 by lia. apply F3, Hj.
Qed.

Record inv (s : lst) : Prop := {
  iv_wf : WFm (s_m s);
  iv_nv : nv_wf (m_v (s_m s));
  iv_one : forall t u, holds (s_pc s t) = true -> holds (s_pc s u) = true -> t = u;
  iv_lock : forall t, holds (s_pc s t) = true -> nv_locked (m_v (s_m s)) = true;
  iv_free : nv_locked (m_v (s_m s)) = false -> clean (s_m s);
  iv_pc : forall t, pcok s (s_pc s t) }.

Lemma upd_pc (f : nat -> lpc) t p u : upd f t p u = if (u =? t)%nat then p else f u. Proof. reflexivity. Qed.
(* A step that leaves the leaf alone. *)
Lemma go_grows s s' : WFm (s_m s) -> s_m s' = s_m s -> s_hist s' = s_m s :: s_hist s -> s_log s' = s_log s -> grows s s'.
Proof.
  intros V E1 E2 E3. exists []. rewrite E1, E2, E3, app_nil_r. split; [reflexivity|]. split; [reflexivity|]. split; [reflexivity|].
  split; [intros _ _; apply rely_refl|exact V].
Qed.
Lemma go_inv s s' t p : inv s -> s_m s' = s_m s -> s_hist s' = s_m s :: s_hist s -> s_log s' = s_log s -> s_pc s' = upd (s_pc s) t p ->
  (holds p = true -> holds (s_pc s t) = true) -> (grows s s' -> pcok s' (s_pc s t) -> pcok s' p) -> inv s'.
Proof.
  intros V E1 E2 E3 E4 H K. pose proof (go_grows s s' (iv_wf _ V) E1 E2 E3) as G.
  assert (F : forall u, pcok s' (s_pc s u)) by (intros u; apply (pcok_grows s); auto; apply (iv_pc _ V)).
  constructor; rewrite ?E1, ?E4; try apply V.
  - intros a b. rewrite !upd_pc. destruct (Nat.eqb_spec a t), (Nat.eqb_spec b t); subst; intros A B; auto; apply (iv_one _ V); auto.
  - intros a. rewrite upd_pc. destruct (Nat.eqb_spec a t); subst; intros A; [apply (iv_lock _ V t); auto|apply (iv_lock _ V a); auto].
  - intros a. rewrite upd_pc. destruct (Nat.eqb_spec a t); [apply K; auto|apply F].
Qed.
(* A store by the lock holder. *)
Lemma store_inv s t m ev p : inv s -> holds (s_pc s t) = true -> nv_run (m_v (s_m s)) ev = Some (m_v m) -> rely (s_m s) m -> WFm m ->
  nv_wf (m_v m) -> (nv_locked (m_v m) = false -> clean m /\ holds p = false) ->
  (grows s (store s t m ev p) -> pcok (store s t m ev p) p) -> inv (store s t m ev p).
Proof.
  intros V H R RL VM N L K.
  assert (G : grows s (store s t m ev p)) by (exists ev; cbn; auto).
  assert (O : forall u, u <> t -> holds (s_pc s u) = false).
  { intros u U. destruct (holds (s_pc s u)) eqn:E; [|reflexivity]. exfalso. apply U. exact (iv_one _ V u t E H). }
  constructor; cbn [store s_m s_pc]; auto.
  - intros a b. rewrite !upd_pc. destruct (Nat.eqb_spec a t), (Nat.eqb_spec b t); subst; intros A B; auto.
    + rewrite (O b) in B by auto. discriminate.
    + rewrite (O a) in A by auto. discriminate.
    + rewrite (O a) in A by auto. discriminate.
  - intros a. rewrite upd_pc. destruct (Nat.eqb_spec a t); subst; intros A.
    + destruct (nv_locked (m_v m)) eqn:E; [reflexivity|]. destruct (L eq_refl) as [_ L2]. congruence.
    + rewrite (O a) in A by auto. discriminate.
  - intros E. apply L, E.
  - intros a. rewrite upd_pc. destruct (Nat.eqb_spec a t); [apply K, G|]. apply (pcok_grows s); auto; [|apply (iv_pc _ V)].
    intros A. rewrite (O a) in A by auto. discriminate.
Qed.
(* Taking the lock. *)
Lemma lock_inv s t p : inv s -> nv_locked (m_v (s_m s)) = false -> (grows s (store s t (mlock (s_m s)) [EvLock] p) -> pcok (store s t (mlock (s_m s)) [EvLock] p) p) ->
  inv (store s t (mlock (s_m s)) [EvLock] p).
Proof.
  intros V L K. destruct (wf_lock _ (iv_nv _ V)) as (W1 & _ & W2 & W3).
  assert (G : grows s (store s t (mlock (s_m s)) [EvLock] p)).
  { exists [EvLock]. cbn. rewrite L. cbn. split; [reflexivity|]. split; [reflexivity|]. split; [reflexivity|]. split; [intros _ _; apply relyc_v|exact (WFm_v _ _ (iv_wf _ V))]. }
  assert (O : forall u, holds (s_pc s u) = false).
  { intros u. destruct (holds (s_pc s u)) eqn:E; [|reflexivity]. rewrite (iv_lock _ V u E) in L. discriminate. }
  constructor; cbn [store s_m s_pc].
  - exact (WFm_v _ _ (iv_wf _ V)).
  - exact W1.
  - intros a b. rewrite !upd_pc. destruct (Nat.eqb_spec a t), (Nat.eqb_spec b t); subst; intros A B; auto; exfalso; [rewrite O in B|rewrite O in A|rewrite O in A]; discriminate.
  - intros a _. exact W2.
  - intros E. cbn [mlock m_v] in E. congruence.
  - intros a. rewrite upd_pc. destruct (Nat.eqb_spec a t); [apply K, G|]. apply (pcok_grows s); auto; [|apply (iv_pc _ V)].
    intros A. rewrite O in A. discriminate.
Qed.

Lemma base_new s k g p t : nv_wf (m_v (s_m s)) -> nv_dirty (m_v (s_m s)) = false -> 0 <= k_len k ->
  base (MkFnd k g (m_v (s_m s)) (length (s_hist s)) (length (s_log s))) (go s t p).
Proof.
  intros N D K. constructor; cbn; auto; try lia. rewrite skipn_all. reflexivity.
Qed.
Lemma snap_new f s s' : grows s s' -> base f s' -> (f_t0 f <= length (s_hist s))%nat -> calmf f s' -> snap f (m_perm (s_m s')) s'.
Proof.
  intros G B T Q. assert (GN : good_now s' f (s_m s')).
  { split; [exact (during_now s s' _ G T)|]. split; [destruct G as (ev & _ & _ & _ & _ & V); exact V|].
    exact (calm_clean _ _ _ (b_wf _ _ B) (b_clean _ _ B) (b_run _ _ B) Q). }
  constructor; auto.
  - exists (s_m s'). split; [exact GN|]. split; [reflexivity|]. intros. apply same_slot_refl.
  - intros p L. exists (s_m s'). split; [exact GN|]. split; [exact L|]. split; [apply same_slot_refl|reflexivity].
Qed.
Lemma late_calm s f : base f s -> nv_has_changed (m_v (s_m s)) (f_r f) = false -> too_late s f = false -> calmf f s.
Proof.
  intros B H L. apply (unchanged_calm (f_r f) _ (m_v (s_m s)) (b_wf _ _ B) (b_clean _ _ B) (b_run _ _ B)); [|exact H].
  unfold too_late in L. lia.
Qed.
Lemma late_mono s s' : lstep s s' -> s_late s' = false -> s_late s = false.
Proof.
  destruct 1; cbn; auto.
  - intros E. apply orb_false_iff in E. tauto.
  - destruct (nv_has_changed _ _); cbn; auto. intros E. apply orb_false_iff in E. tauto.
Qed.

Ltac keep V := eapply (go_inv _ _ _ _ V); [reflexivity|reflexivity|reflexivity|reflexivity| |].
Theorem step_inv s s' : inv s -> lstep s s' -> s_late s' = false -> inv s'.
Proof.
  intros V ST LT. assert (LS := late_mono _ _ ST LT). assert (VM := iv_wf _ V). assert (VN := iv_nv _ V).
  destruct ST as
    [s t k g E K|s t k g E D|s t k g E D|s t f E|s t f x E|s t f x x2 l h E|s t f x x2 l h ik E|s t f x x2 i p E|s t f x x2 i p lv E
    |s t f x x2 i p lv E|s t f x x2 i p lv b E|s t f x x2 i p lv b j E|s t c E C|s t c E EG C|s t c E EG|s t c e E L|s t c E|s t c e E L EV
    |s t c E|s t c E|s t c E|s t e E R|s t e E L|s t E|s t e E L EV|s t k i p mt E|s t k i p mt vals E M|s t k i p mt del E M|s t k i p mt v E M
    |s t k i p v E|s t k i noprev p ox inplace vals fin E SF|s t k i noprev n left inplace vals fin E SF HN HL|s t k i p mt j vals E HJ HK
    |s t E|s t E|s t E EZ|s t o l E HO|s t mk l E|s t mk r l E|s t l E|s t r E].
  (* SBegin *)
  - keep V; [discriminate|]. intros _ _. exact K.
  - keep V; [discriminate|]. intros _ H. rewrite E in H. exact H.
  - keep V; destruct (nv_deleted _); try discriminate; intros G H; [exact I|].
    rewrite E in H. apply base_new; auto.
  (* SPerm *)
  - pose proof (iv_pc _ V t) as B0. rewrite E in B0. cbn [pcok] in B0. pose proof (b_t0 _ _ B0) as T0.
    keep V; destruct (f_g f); try discriminate.
    + unfold search. destruct (_ <? _)%nat; [discriminate|]. unfold conclude. destruct (f_g _); [discriminate|]. destruct (_ <? 0); discriminate.
    + intros G H. rewrite E in H. cbn [pcok] in H. apply pc_search. split; [exact H|]. intros Q.
      split; [exact (snap_new f s _ G H ltac:(lia) Q)|]. split; [split; auto|]. split; [lia|]. split; intros j Hj; lia.
    + intros G H. rewrite E in H. cbn [pcok] in *. split; [exact H|]. intros Q. split; auto.
  (* SPerm2 *)
  - pose proof (iv_pc _ V t) as B0. rewrite E in B0. cbn [pcok] in B0. destruct B0 as [B0 _]. pose proof (b_t0 _ _ B0) as T0.
    keep V.
    + unfold search. destruct (_ <? _)%nat; [discriminate|]. unfold conclude. destruct (f_g _); [discriminate|]. destruct (_ <? 0); discriminate.
    + intros G H. rewrite E in H. cbn [pcok] in H. destruct H as [H FX]. apply pc_search. split; [exact H|]. intros Q.
      split; [exact (snap_new f s _ G H ltac:(lia) Q)|]. split; [exact (FX Q)|]. split; [lia|]. split; intros j Hj; lia.
  (* SIkey *)
  - keep V; [discriminate|]. intros G H. rewrite E in H. cbn [pcok] in *.
    apply (srch_imp _ _ _ _ _ _ H). auto.
  (* SKlx *)
  - keep V.
    + unfold compared, search, conclude. repeat match goal with |- context [if ?b then _ else _] => destruct b | |- context [match f_g ?c with _ => _ end] => destruct (f_g c) end; discriminate.
    + intros G H. rewrite E in H.
      apply pc_compared in H. exact H.
  (* SLv *)
  - keep V; [discriminate|]. intros G H. rewrite E in H. cbn [pcok] in *.
    apply (srch_imp _ _ _ _ _ _ H). intros Q SN _ HH. split; [exact HH|]. exact (sn_lv _ _ _ SN p (hit_live _ _ _ _ _ HH)).
  (* SMatch *)
  - keep V.
    + unfold matched, conclude. repeat match goal with |- context [if ?b then _ else _] => destruct b | |- context [match f_g ?c with _ => _ end] => destruct (f_g c) end; discriminate.
    + intros G H. rewrite E in H. apply pc_matched in H. exact H.
  (* SKsuf *)
  - keep V; [discriminate|]. intros G H. rewrite E in H. cbn [pcok] in *.
    apply (srch_imp _ _ _ _ _ _ H). intros Q SN _ [HH K]. split; [exact HH|]. split; [exact K|]. split; [exact (wf_bag _ VM)|reflexivity].
  (* SSlen *)
  - keep V.
    + unfold suffix_at, conclude. repeat match goal with |- context [if ?b then _ else _] => destruct b | |- context [match f_g ?c with _ => _ end] => destruct (f_g c) end; discriminate.
    + intros G H. rewrite E in H. cbn [pcok] in H. set (s1 := go s t _) in *. change (s_m s) with (s_m s1).
      destruct (Nat.eqb_spec (m_slen (s_m s1) b p) (length (key_suffix (f_k f)))) as [EQ|NE].
      * apply pc_suffix. apply (srch_imp _ _ _ _ _ _ H). intros Q SN _ [HH K]. split; [exact HH|]. split; [exact K|]. split; [exact EQ|]. split; [lia|]. intros; lia.
      * apply pc_conclude. apply (srch_imp _ _ _ _ _ _ H). intros Q SN _ [[HH1 HH2] K]. apply fin_some; auto. apply (differ_zero _ _ b); auto.
        intros X. apply NE. rewrite <- X. unfold suffix_of. now rewrite map_length, seq_length.
  (* SSbyte *)
  - keep V.
    + unfold suffix_at, conclude. repeat match goal with |- context [if ?b then _ else _] => destruct b | |- context [match f_g ?c with _ => _ end] => destruct (f_g c) end; discriminate.
    + intros G H. rewrite E in H. cbn [pcok] in H. set (s1 := go s t _) in *. change (s_m s) with (s_m s1).
      destruct (Z.eqb_spec (m_sbyte (s_m s1) b p j) (nth j (key_suffix (f_k f)) 0)) as [EQ|NE].
      * apply pc_suffix. apply (srch_imp _ _ _ _ _ _ H). intros Q SN _ (HH & K & (T1 & T2 & T3) & U). split; [exact HH|]. split; [exact K|].
        split; [exact T1|]. split; [lia|]. intros q Hq. destruct (Nat.eq_dec q j) as [->|]; [exact EQ|]. apply T3. lia.
      * apply pc_conclude. apply (srch_imp _ _ _ _ _ _ H). intros Q SN _ ([HH1 HH2] & K & (T1 & T2 & T3) & U). apply fin_some; auto. apply (differ_zero _ _ b); auto.
        intros X. apply NE. rewrite <- X. unfold suffix_of. rewrite nth_indep with (d' := m_sbyte (s_m s1) b p 0%nat) by (rewrite map_length, seq_length; lia).
        rewrite map_nth, seq_nth by lia. reflexivity.
  (* SAccept *)
  - keep V; [discriminate|]. intros G H. rewrite E in H. cbn [pcok] in *. destruct H as [B H].
    cbn [accept s_late] in LT. apply orb_false_iff in LT. destruct LT as [_ LT].
    assert (Q : calmf (c_f c) (accept s t (too_late s (c_f c)) (PDone (f_k (c_f c)) (f_t0 (c_f c)) (answer_of c)))) by (apply late_calm; auto).
    destruct (H Q) as (H1 & H2 & H3). exact (answer_ok c _ B H1 H3).
  - keep V; [discriminate|]. intros _ _. exact I.
  - keep V; [discriminate|]. intros G H. rewrite E in H. exact H.
  - keep V; [discriminate|]. intros G H. rewrite E in H. exact H.
  - keep V; [discriminate|]. intros G H. rewrite E in H. exact H.
  (* SLockOk *)
  - subst e. apply (lock_inv s t _ V L). intros G. pose proof (iv_pc _ V t) as H. rewrite E in H.
    apply (pcok_grows s _ (PTry c (m_v (s_m s))) G) in H; [exact H|discriminate].
  (* SVerify1 *)
  - destruct (nv_has_changed (m_v (s_m s)) (f_r (c_f c))) eqn:C.
    + keep V; [now rewrite E|]. intros _ _. exact I.
    + keep V; [now rewrite E|]. intros G H. rewrite E in H. cbn [pcok] in *. split; [exact H|]. destruct H as [B H].
      cbn [accept s_late] in LT. apply orb_false_iff in LT. destruct LT as [_ LT]. apply late_calm; auto.
  (* SVerify2 *)
  - keep V; [now rewrite E|]. intros G H. rewrite E in H. cbn [pcok] in H. destruct H as [[B H] Q].
    destruct (H Q) as (H1 & H2 & H3). destruct (Z.eqb_spec (m_perm (s_m s)) (c_x c)); [|exact I]. cbn [pcok]. apply cursor_ok; auto.
  (* SVerify3 *)
  - keep V; [now rewrite E|]. intros G H. rewrite E in H. cbn [pcok] in H.
    destruct (m_mod (s_m s)); try exact H. destruct (c_m c <? 0); [exact H|exact I].
  - keep V; [discriminate|]. intros _ _. exact I.
  - keep V; [discriminate|]. intros _ _. exact I.
  - keep V; [discriminate|]. intros _ _. exact I.
  - subst e. apply (lock_inv s t _ V L). intros G. exact I.
  (* choices *)
  - keep V; [now rewrite E|]. intros _ _. exact I.
  - keep V; [now rewrite E|]. intros _ H. rewrite E in H. destruct H as [_ [H _]]. apply run_lvs_ok; [exact VM|exact (hit_live _ _ _ _ _ H)].
  - keep V; [now rewrite E|]. intros _ H. rewrite E in H. destruct H as [_ [H _]]. apply remove_ok; auto. apply H.
  - keep V; [now rewrite E|]. intros _ H. rewrite E in H. destruct H as [_ [H _]]. apply (run_lvs_ok _ p [v]); [exact VM|exact (hit_live _ _ _ _ _ H)].
  - keep V; [now rewrite E|]. intros _ H. rewrite E in H. destruct H as [_ [H1 H2]]. apply layer_ok; auto.
    cbn [go s_m] in H2. unfold frag_of in H2. destruct (_ =? 128); [discriminate|]. destruct (Z.eqb_spec (m_klx (s_m s) p) 64); [assumption|discriminate].
  - keep V; [now rewrite E|]. intros _ H. rewrite E in H. exact (insert_ok _ _ _ _ _ _ _ _ _ VN VM H SF).
  - keep V; [now rewrite E|]. intros _ H. rewrite E in H. exact (split_ok _ _ _ _ _ _ _ _ VN VM H HN HL).
  - keep V; [now rewrite E|]. intros _ H. apply run_lvs_ok; [exact VM|]. exists j. auto.
  - keep V; [now rewrite E|]. intros _ _. exact I.
  - keep V; [now rewrite E|]. intros _ _. exact (root_ok _ VM).
  - keep V; [now rewrite E|]. intros _ _. exact (kill_ok _ VM EZ).
  (* stores *)
  - pose proof (iv_pc _ V t) as H. rewrite E in H. assert (HT : holds (s_pc s t) = true) by now rewrite E.
    assert (A : rely (s_m s) (wapply o (s_m s)) /\ WFm (wapply o (s_m s)) /\ ok (wapply o (s_m s)) l) by (destruct o; try contradiction; exact H).
    assert (EV : m_v (wapply o (s_m s)) = m_v (s_m s)) by (destruct o; try contradiction; reflexivity).
    destruct A as (A1 & A2 & A3). apply (store_inv s t _ _ _ V HT); auto.
    + cbn. now rewrite EV.
    + now rewrite EV.
    + rewrite EV, (iv_lock _ V t HT). discriminate.
  - keep V; [now rewrite E|]. intros _ H. rewrite E in H. split; [reflexivity|exact H].
  - pose proof (iv_pc _ V t) as H. rewrite E in H. assert (HT : holds (s_pc s t) = true) by now rewrite E. destruct H as [-> (A1 & A2 & A3)].
    destruct (wf_mark mk _ VN) as (W1 & _ & W2 & _). pose proof (iv_lock _ V t HT) as LK.
    apply (store_inv s t _ _ _ V HT); auto.
    + cbn. now rewrite LK.
    + cbn [m_v]. rewrite W2, LK. discriminate.
  - keep V; [now rewrite E|]. intros _ _. reflexivity.
  - pose proof (iv_pc _ V t) as H. rewrite E in H. assert (HT : holds (s_pc s t) = true) by now rewrite E. cbn [pcok] in H. subst r.
    destruct (wf_unlock _ VN) as (W1 & _ & W2 & W3). pose proof (iv_lock _ V t HT) as LK.
    apply (store_inv s t _ _ _ V HT); auto.
    + cbn. now rewrite LK.
    + intros _ _. apply relyc_v.
    + exact (WFm_v _ _ VM).
    + intros _. exact I.
Qed.
