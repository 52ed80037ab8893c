(* The invariant is kept by all steps; what recovery restores. *)
From Coq Require Import Permutation.
From Verif Require Import Lib M_Msgpack M_Bag Spec_Log Spec_Row M_Rowrun M_Replay Spec_Replay M_Fuzzy Spec_Fuzzy P_Replay1 P_Replay2 P_Replay3 P_Replay4 P_Fuzzy1.

Lemma nodup_take {A B} (t : A) (x : B) : forall l, NoDup (map fst l) -> In (t, x) l ->
  exists l', Permutation l ((t, x) :: l') /\ NoDup (map fst l') /\ forall u y, In (u, y) l' <-> In (u, y) l /\ u <> t.
Proof.
  intros l N H. apply in_split in H. destruct H as (a & b & ->). exists (a ++ b). rewrite map_app in N. cbn in N.
  pose proof (NoDup_remove_1 _ _ _ N) as N1. pose proof (NoDup_remove_2 _ _ _ N) as N2. rewrite <- map_app in N1, N2.
  split; [apply Permutation_sym, Permutation_middle|]. split; auto. intros u y. rewrite !in_app_iff. cbn [In]. split.
  - intros H. split; [tauto|]. intros ->. apply N2. apply in_map_iff. exists (t, y). split; auto. apply in_app_iff. auto.
  - intros ([H|[H|H]] & Nu); auto. congruence.
Qed.

Lemma record_I nlog s t l k e en : Inv nlog s -> f_pc s t = TOpen l k e en ->
  Inv nlog (MkF (f_tab s) (f_klock s) (nset (f_llock s) l false) (f_ge s) (nset (f_pc s) t TIdle) ((e, en) :: f_log s) (f_ck s) (f_hist s)).
Proof.
  intros I P. destruct (v_pend _ _ I) as (pend & A1 & A2 & A3).
  assert (PC : forall u, u <> t -> nset (f_pc s) t TIdle u = f_pc s u) by (intros; apply nset_other; auto).
  assert (OTH : forall {X} (f : tpc -> option X) u x, f TIdle = None -> f (nset (f_pc s) t TIdle u) = Some x -> u <> t /\ f (f_pc s u) = Some x).
  { intros X f u x Z0 H. destruct (Nat.eq_dec u t) as [->|N]; [rewrite nset_same in H; congruence|]. rewrite PC in H; auto. }
  destruct (nodup_take t (e, en) pend A1) as (p' & B1 & B2 & B3); [apply A2; rewrite P; reflexivity|].
  constructor; cbn [f_tab f_hist f_klock f_llock f_ge f_pc f_log f_ck]; try apply I.
  - intros u l' k' o' e' H. destruct (Nat.eq_dec u t) as [->|N]; [rewrite nset_same in H; discriminate|]. rewrite PC in H by auto. eapply (v_pc _ _ I); eauto.
  - intros u k' o' H. apply OTH in H; auto. eapply (v_req _ _ I). apply H.
  - intros u k' H. apply OTH in H; auto. eapply (v_key _ _ I). apply H.
  - intros u v k' H1 H2. apply OTH in H1; auto. apply OTH in H2; auto. eapply (v_key1 _ _ I); [apply H1|apply H2].
  - intros u l' H. apply OTH in H; auto. destruct H as [N H]. destruct (Nat.eq_dec l' l) as [->|Nl].
    + exfalso. apply N. eapply (v_log1 _ _ I); [exact H|rewrite P; reflexivity].
    + rewrite nset_other by auto. eapply (v_log _ _ I); eauto.
  - intros u v l' H1 H2. apply OTH in H1; auto. apply OTH in H2; auto. eapply (v_log1 _ _ I); [apply H1|apply H2].
  - intros u l' H. apply OTH in H; auto. eapply (v_nlog _ _ I). apply H.
  - exists p'. split; auto. split.
    + intros u x. rewrite B3, A2. destruct (Nat.eq_dec u t) as [->|N]; [rewrite nset_same; split; [intros [_ X]; congruence|discriminate]|]. rewrite PC by auto. tauto.
    + etransitivity; [exact A3|]. etransitivity; [apply Permutation_app_head, Permutation_map, B1|]. cbn [map snd app]. apply Permutation_sym, Permutation_middle.
  - pose proof (v_ck _ _ I) as C. destruct (f_ck s) as [c|]; auto. destruct C as [K1 K2 K3]. constructor; cbn [f_ge f_pc]; auto.
    intros u l' k' o' e' H L. destruct (Nat.eq_dec u t) as [->|N]; [rewrite nset_same in H; discriminate|]. rewrite PC in H by auto. eapply K2; eauto.
Qed.

Lemma set_ck_I nlog s c : Inv nlog s -> ck_ok s c -> Inv nlog (set_ck s c).
Proof. intros I C. destruct I. constructor; auto. destruct C. constructor; auto. Qed.

Lemma tstep_I nlog s t ts s' : Inv nlog s -> tstep s t ts = Some s' -> Inv nlog s'.
Proof.
  intros I H. unfold tstep in H. destruct (f_pc s t) as [|l k o|l k o|l k o e|l k e en|l k e en] eqn:P; [discriminate| | | | |].
  - destruct (f_llock s l) eqn:L; [discriminate|]. injection H as <-.
    assert (PC : forall u, u <> t -> nset (f_pc s) t (TLog l k o) u = f_pc s u) by (intros; apply nset_other; auto).
    assert (KE : forall u, key_of (nset (f_pc s) t (TLog l k o) u) = key_of (f_pc s u)) by (intros u; destruct (Nat.eq_dec u t) as [->|N]; [rewrite nset_same, P; reflexivity|now rewrite PC]).
    apply pc_I with (s := s) (t := t); cbn [f_tab f_hist f_klock f_llock f_ge f_pc f_log f_ck]; auto; try (rewrite nset_same; rewrite ?P; cbn; auto; fail); try rewrite !nset_same.
    + intros; discriminate.
    + intros k' o' X. injection X as <- <-. apply (v_req _ _ I t). rewrite P. reflexivity.
    + intros u k' X. rewrite KE in X. eapply (v_key _ _ I); eauto.
    + intros u v k' X Y. rewrite KE in X, Y. eapply (v_key1 _ _ I); eauto.
    + intros u l' X. destruct (Nat.eq_dec l' l) as [->|N]; [apply nset_same|]. rewrite nset_other by auto.
      destruct (Nat.eq_dec u t) as [->|N']; [rewrite nset_same in X; cbn in X; congruence|]. rewrite PC in X by auto. eapply (v_log _ _ I); eauto.
    + assert (Z0 : forall u, u <> t -> log_of (f_pc s u) <> Some l) by (intros u N X; apply (v_log _ _ I) in X; congruence).
      intros u v l' X Y. destruct (Nat.eq_dec u t) as [->|N], (Nat.eq_dec v t) as [->|N']; auto.
      * rewrite nset_same in X. cbn in X. injection X as <-. rewrite PC in Y by auto. exfalso. eapply Z0; eauto.
      * rewrite nset_same in Y. cbn in Y. injection Y as <-. rewrite PC in X by auto. exfalso. eapply Z0; eauto.
      * rewrite PC in X, Y by auto. eapply (v_log1 _ _ I); eauto.
    + intros l' X. injection X as <-. apply (v_nlog _ _ I t). rewrite P. reflexivity.
  - injection H as <-.
    assert (PC : forall u, u <> t -> nset (f_pc s) t (TEpoch l k o (f_ge s)) u = f_pc s u) by (intros; apply nset_other; auto).
    assert (KE : forall u, key_of (nset (f_pc s) t (TEpoch l k o (f_ge s)) u) = key_of (f_pc s u)) by (intros u; destruct (Nat.eq_dec u t) as [->|N]; [rewrite nset_same, P; reflexivity|now rewrite PC]).
    assert (LE : forall u, log_of (nset (f_pc s) t (TEpoch l k o (f_ge s)) u) = log_of (f_pc s u)) by (intros u; destruct (Nat.eq_dec u t) as [->|N]; [rewrite nset_same, P; reflexivity|now rewrite PC]).
    apply pc_I with (s := s) (t := t); cbn [set_pc f_tab f_hist f_klock f_llock f_ge f_pc f_log f_ck]; auto; try rewrite !nset_same.
    + rewrite P. reflexivity.
    + intros l' k' o' e' X. congruence.
    + intros k' o' X. injection X as <- <-. apply (v_req _ _ I t). rewrite P. reflexivity.
    + intros u k' X. rewrite KE in X. eapply (v_key _ _ I); eauto.
    + intros u v k' X Y. rewrite KE in X, Y. eapply (v_key1 _ _ I); eauto.
    + intros u l' X. rewrite LE in X. eapply (v_log _ _ I); eauto.
    + intros u v l' X Y. rewrite LE in X, Y. eapply (v_log1 _ _ I); eauto.
    + intros l' X. injection X as <-. apply (v_nlog _ _ I t). rewrite P. reflexivity.
  - destruct (ts_ok (f_tab s k) ts) eqn:T; [|discriminate]. destruct (new_row (f_tab s k) o ts) as [b|] eqn:B; [|discriminate]. cbn in H. injection H as <-.
    apply store_I; auto.
  - injection H as <-.
    assert (PC : forall u, u <> t -> nset (f_pc s) t (TOpen l k e en) u = f_pc s u) by (intros; apply nset_other; auto).
    assert (LE : forall u, log_of (nset (f_pc s) t (TOpen l k e en) u) = log_of (f_pc s u)) by (intros u; destruct (Nat.eq_dec u t) as [->|N]; [rewrite nset_same, P; reflexivity|now rewrite PC]).
    assert (KE : forall u k', key_of (nset (f_pc s) t (TOpen l k e en) u) = Some k' -> u <> t /\ key_of (f_pc s u) = Some k').
    { intros u k' X. destruct (Nat.eq_dec u t) as [->|N]; [rewrite nset_same in X; discriminate|]. rewrite PC in X; auto. }
    apply pc_I with (s := s) (t := t); cbn [f_tab f_hist f_klock f_llock f_ge f_pc f_log f_ck]; auto; try rewrite !nset_same.
    + rewrite P. reflexivity.
    + intros; discriminate.
    + intros; discriminate.
    + intros u k' X. apply KE in X. destruct X as [N X]. destruct (list_eq_dec Z.eq_dec k' k) as [->|Nk].
      * exfalso. apply N. eapply (v_key1 _ _ I); [exact X|rewrite P; reflexivity].
      * rewrite kset_other by auto. eapply (v_key _ _ I); eauto.
    + intros u v k' X Y. apply KE in X, Y. eapply (v_key1 _ _ I); [apply X|apply Y].
    + intros u l' X. rewrite LE in X. eapply (v_log _ _ I); eauto.
    + intros u v l' X Y. rewrite LE in X, Y. eapply (v_log1 _ _ I); eauto.
    + intros l' X. injection X as <-. apply (v_nlog _ _ I t). rewrite P. reflexivity.
  - injection H as <-. eapply record_I; eauto.
Qed.

Lemma fstep_I fix_ nlog s e s' : Inv nlog s -> fev_ok e -> (e = CStart -> fix_ = false -> calm s) -> fstep fix_ nlog s e = Some s' -> Inv nlog s'.
Proof.
  intros I O Q H. destruct e as [t l k o|t ts| | |l|p|]; cbn [fstep] in H.
  - destruct (f_pc s t) eqn:P; try discriminate. destruct (f_klock s k || negb (l <? nlog)%nat) eqn:G; [discriminate|]. injection H as <-.
    apply orb_false_iff in G. destruct G as [G1 G2]. apply negb_false_iff, Nat.ltb_lt in G2.
    assert (PC : forall u, u <> t -> nset (f_pc s) t (TKey l k o) u = f_pc s u) by (intros; apply nset_other; auto).
    assert (LE : forall u, log_of (nset (f_pc s) t (TKey l k o) u) = log_of (f_pc s u)) by (intros u; destruct (Nat.eq_dec u t) as [->|N]; [rewrite nset_same, P; reflexivity|now rewrite PC]).
    assert (Z0 : forall u, u <> t -> key_of (f_pc s u) <> Some k) by (intros u N X; apply (v_key _ _ I) in X; congruence).
    apply pc_I with (s := s) (t := t); cbn [f_tab f_hist f_klock f_llock f_ge f_pc f_log f_ck]; auto; try rewrite !nset_same.
    + rewrite P. reflexivity.
    + intros; discriminate.
    + intros k' o' X. injection X as <- <-. exact O.
    + intros u k' X. destruct (list_eq_dec Z.eq_dec k' k) as [->|Nk]; [apply kset_same|]. rewrite kset_other by auto.
      destruct (Nat.eq_dec u t) as [->|N]; [rewrite nset_same in X; cbn in X; congruence|]. rewrite PC in X by auto. eapply (v_key _ _ I); eauto.
    + intros u v k' X Y. destruct (Nat.eq_dec u t) as [->|N], (Nat.eq_dec v t) as [->|N']; auto.
      * rewrite nset_same in X. cbn in X. injection X as <-. rewrite PC in Y by auto. exfalso. eapply Z0; eauto.
      * rewrite nset_same in Y. cbn in Y. injection Y as <-. rewrite PC in X by auto. exfalso. eapply Z0; eauto.
      * rewrite PC in X, Y by auto. eapply (v_key1 _ _ I); eauto.
    + intros u l' X. rewrite LE in X. eapply (v_log _ _ I); eauto.
    + intros u v l' X Y. rewrite LE in X, Y. eapply (v_log1 _ _ I); eauto.
    + intros l' X. injection X as <-. exact G2.
  - eapply tstep_I; eauto.
  - injection H as <-. destruct I. constructor; auto; cbn [f_ge f_hist f_pc f_tab f_ck].
    + eapply Forall_impl; [|exact v_ge]. cbn. intros; lia.
    + intros t l k o e X. destruct (v_pc _ _ _ _ _ X). split; auto. lia.
    + destruct (f_ck s) as [c|]; auto. destruct v_ck as [K1 K2 K3]. constructor; auto. cbn. lia.
  - assert (X : s' = set_ck s (MkC (f_ge s) (if fix_ then seq 0 nlog else []) (fun _ => false) (fun _ => None) None)).
    { destruct (f_ck s) as [[? ? ? ? [?|]]|]; try discriminate; injection H as <-; reflexivity. }
    rewrite X. apply set_ck_I; auto. constructor; cbn.
    + lia.
    + intros t l k o e P L. destruct fix_.
      * apply in_seq. assert (l < nlog)%nat by (apply (v_nlog _ _ I t); rewrite P; reflexivity). lia.
      * pose proof (Q eq_refl eq_refl t l k o e P). lia.
    + discriminate.
  - pose proof (v_ck _ _ I) as C. destruct (f_ck s) as [[mn w seen rows [m|]]|] eqn:E; try discriminate. destruct (f_llock s l) eqn:L; [discriminate|]. injection H as <-.
    destruct C as [K1 K2 K3]. cbn in K1, K2, K3. apply set_ck_I; auto. constructor; cbn; auto.
    + intros t l' k o e P Le. apply filter_In. split; [eapply K2; eauto|]. apply negb_true_iff, Nat.eqb_neq. intros ->.
      assert (f_llock s l = true) by (apply (v_log _ _ I t); rewrite P; reflexivity). congruence.
    + intros k S. destruct (K3 k S) as [-> B]. split; auto.
  - pose proof (v_ck _ _ I) as C. destruct (f_ck s) as [[mn [|w0 w] seen rows [m|]]|] eqn:E; try discriminate. injection H as <-.
    destruct C as [K1 K2 K3]. cbn in K1, K2, K3. apply set_ck_I; auto. constructor; cbn; auto.
    intros k S. split; auto. destruct (seen k) eqn:Sk.
    + destruct (K3 k Sk) as [_ (newer & older & A1 & A2 & A3 & A4)]. exists newer, older. cbn. rewrite Sk. auto.
    + cbn in S. exists [], (of k (f_hist s)). cbn. rewrite Sk, S. split; auto. split; [apply (v_row _ _ I)|]. auto.
  - pose proof (v_ck _ _ I) as C. destruct (f_ck s) as [[mn w seen rows [m|]]|] eqn:E; try discriminate. injection H as <-.
    destruct C as [K1 K2 K3]. cbn in K1, K2, K3. apply set_ck_I; auto. constructor; cbn; auto.
    intros k S. destruct (K3 k S) as [A (newer & older & A1 & A2 & A3 & A4)]. split; auto. exists newer, older. cbn. repeat split; auto.
    pose proof (v_ge _ _ I) as G. rewrite Forall_forall in G |- *. intros i Hi. apply G. apply (of_in k). rewrite A1. apply in_app_iff. auto.
Qed.
Lemma frun_I fix_ nlog : forall es s s', Inv nlog s -> Forall fev_ok es -> (fix_ = false -> quiet_starts fix_ nlog s es) -> frun fix_ nlog s es = Some s' -> Inv nlog s'.
Proof.
  induction es as [|e es IH]; intros s s' I F Q R; cbn [frun] in R; [congruence|].
  inversion F as [|? ? F1 F2]; subst. destruct (fstep fix_ nlog s e) as [s1|] eqn:E; [|discriminate].
  eapply IH; [|exact F2| |exact R].
  - eapply fstep_I; eauto. intros -> Hf. specialize (Q Hf). cbn [quiet_starts] in Q. apply Q. reflexivity.
  - intros Hf. specialize (Q Hf). cbn [quiet_starts] in Q. rewrite E in Q. apply Q.
Qed.

(* Suffixes of histories. *)
Lemma logged_suffix k : forall a b es, logged k (ops (a ++ b)) (map i_entry es) -> es = a ++ b -> logged k (ops b) (map i_entry b).
Proof.
  induction a as [|i a IH]; intros b es L ->; [exact L|]. cbn [app ops map logged] in L. destruct (i_rop i); apply (IH b (a ++ b)); auto; apply L.
Qed.
Lemma stamped_suffix : forall a b, stamped (a ++ b) -> stamped b.
Proof. induction a as [|[o ts] a IH]; intros b H; auto. cbn in H. apply IH. apply H. Qed.
Lemma throughout_suffix P : forall a b, throughout P (a ++ b) -> throughout P b.
Proof. induction a as [|o a IH]; intros b H; auto. cbn in H. apply IH. apply H. Qed.
Lemma desc_before mx : forall h, desc h -> exists a, h = a ++ before mx h.
Proof.
  induction h as [|i h IH]; intros D; [exists []; reflexivity|]. destruct D as [D1 D2]. destruct (IH D2) as (a & E). unfold before in *. cbn [filter].
  destruct (Z.ltb_spec (i_epoch i) mx) as [L|L].
  - exists []. cbn. f_equal. clear -D1 L. induction h as [|j h IH]; auto. inversion D1; subst. cbn. destruct (Z.ltb_spec (i_epoch j) mx); [f_equal; auto|lia].
  - exists (i :: a). cbn. f_equal. exact E.
Qed.
Lemma perm_filter {A} (f : A -> bool) : forall l l', Permutation l l' -> Permutation (filter f l) (filter f l').
Proof.
  induction 1 as [|x l l' P IH|x y l|l l' l'' P1 IH1 P2 IH2]; cbn; auto.
  - destruct (f x); auto.
  - destruct (f x), (f y); auto. apply perm_swap.
  - etransitivity; eauto.
Qed.
Lemma filter_all {A} (f : A -> bool) : forall l, Forall (fun x => f x = true) l -> filter f l = l.
Proof. induction 1; cbn; auto. rewrite H. f_equal. auto. Qed.
Lemma filter_none {A} (f : A -> bool) : forall l, Forall (fun x => f x = false) l -> filter f l = [].
Proof. induction 1; cbn; auto. rewrite H. auto. Qed.
Lemma ops_app a b : ops (a ++ b) = ops a ++ ops b.
Proof. apply map_app. Qed.

Definition in_range (mn mx : Z) (i : item) : bool := (mn <=? i_epoch i) && (i_epoch i <? mx).
Lemma wanted_pr mn mx : forall h, Forall (fun i => rop_ok (i_rop i) /\ i_key i <> [] /\ update_key (i_entry i) = Some (i_key i)) h ->
  filter (wanted_rec mn mx) (map pr h) = map pr (filter (in_range mn mx) h).
Proof.
  induction 1 as [|i h (A & B & C) F IH]; cbn; auto. unfold wanted_rec at 1. cbn [pr fst snd]. rewrite C. unfold in_range at 1.
  destruct (i_key i) eqn:K; [congruence|]. rewrite andb_true_r. destruct ((mn <=? i_epoch i) && (i_epoch i <? mx)); cbn; rewrite IH; auto.
Qed.
Lemma of_key_items k : forall h, Forall (fun i => rop_ok (i_rop i) /\ i_key i <> [] /\ update_key (i_entry i) = Some (i_key i)) h ->
  of_key k (map i_entry h) = map i_entry (of k h).
Proof.
  induction 1 as [|i h (A & B & C) F IH]; cbn; auto. rewrite C. unfold of_key, of, keq in *. destruct (list_eq_dec Z.eq_dec (i_key i) k); cbn [map]; rewrite IH; reflexivity.
Qed.
Lemma filter_comm {A} (f g : A -> bool) : forall l, filter f (filter g l) = filter g (filter f l).
Proof. induction l as [|x l IH]; cbn; auto. destruct (f x) eqn:F, (g x) eqn:G; cbn; rewrite ?F, ?G, IH; auto. Qed.

(* replay_any with the cut between loaded and replayed updates given per key. *)
Lemma replay_cut (h : list Z -> list (rop * Z)) (t0 : rtable) (l : list entry) : Forall (fun e => update_key e <> None) l ->
  (forall k, exists older newer, start (t0 k) older /\ hist_ok (newer ++ older) /\ h k = newer ++ older /\
    exists es eso stale, logged k (newer ++ older) (es ++ eso) /\ length es = length newer /\ Forall marker_fits es /\ incl stale eso /\ Permutation (of_key k l) (es ++ stale)) ->
  exists t, run_entries t0 l = Some t /\ forall k col, 0 <= col < 2 ^ 31 -> rt_get t k col = Some (column (h k) col).
Proof.
  intros Hu C.
  assert (E : forall k, exists c, run_recs (map rc (of_key k l)) (t0 k) = Some c /\ start c (h k) /\ hist_ok (h k)).
  { intros k. destruct (C k) as (o & n & St & H & -> & es & eso & stale & A & B & D & F & G). destruct (run_key k _ _ es eso stale _ _ St H A B D F G) as (c & X & Y). exists c. auto. }
  destruct (run_entries_keys l t0 (fun k => match run_recs (map rc (of_key k l)) (t0 k) with Some c => c | None => CNil end) Hu) as (t & R & Ht).
  { intros k. destruct (E k) as (c & -> & _). reflexivity. }
  exists t. split; auto. intros k col Hc. destruct (E k) as (c & X & Y & Z0). apply get_start; auto. rewrite Ht, X. exact Y.
Qed.

Lemma restored fix_ nlog es s c cm mx l : Forall fev_ok es -> (fix_ = false -> quiet_starts fix_ nlog f_init es) -> frun fix_ nlog f_init es = Some s ->
  f_ck s = Some c -> c_max c = Some cm -> (forall k, c_seen c k = true) -> cm < mx -> recorded mx s -> all_fit (f_hist s) ->
  Permutation l (map snd (filter (wanted_rec (c_min c) mx) (f_log s))) ->
  exists t, run_entries (loaded c) l = Some t /\ forall k col, 0 <= col < 2 ^ 31 -> rt_get t k col = Some (column (ops (before mx (of k (f_hist s)))) col).
Proof.
  intros F Q R Ck Cm Seen Lt Rec (Fit & Mf) Pl. pose proof (frun_I fix_ nlog es _ _ (init_I nlog) F Q R) as I.
  pose proof (v_ck _ _ I) as C. rewrite Ck in C. pose proof (v_rops _ _ I) as VR.
  (* the records that are replayed are the stored updates in range *)
  assert (PL : Permutation l (map i_entry (filter (in_range (c_min c) mx) (f_hist s)))).
  { etransitivity; [exact Pl|]. destruct (v_pend _ _ I) as (pend & A1 & A2 & A3).
    apply (perm_filter (wanted_rec (c_min c) mx)) in A3. rewrite filter_app, (wanted_pr _ _ _ VR) in A3.
    rewrite (filter_none _ (map snd pend)), app_nil_r in A3.
    - apply Permutation_sym in A3. apply (Permutation_map snd) in A3. etransitivity; [exact A3|]. rewrite map_map. reflexivity.
    - apply Forall_forall. intros x Hx. apply in_map_iff in Hx. destruct Hx as ([u y] & <- & Hu). apply A2 in Hu. specialize (Rec u). unfold wanted_rec. cbn [snd].
      destruct y as [e en]. cbn [fst snd]. assert (mx <= e) by (destruct (f_pc s u); cbn in Hu; try discriminate; injection Hu as -> ->; exact Rec).
      destruct (Z.ltb_spec e mx); [lia|]. rewrite andb_false_r. reflexivity. }
  assert (KEY : forall k, exists newer older, before mx (of k (f_hist s)) = newer ++ older /\ c_rows c k = row_of older /\ Forall (fun i => c_min c <= i_epoch i) newer /\
     Forall (fun i => i_epoch i < mx) (newer ++ older)).
  { intros k. destruct (k_seen _ _ C k (Seen k)) as [_ (newer & older & S1 & S2 & S3 & S4)]. rewrite Cm in S4. exists (before mx newer), older. unfold before. rewrite S1, filter_app.
    assert (O : filter (fun i => i_epoch i <? mx) older = older).
    { apply filter_all. eapply Forall_impl; [|exact S4]. cbn. intros i Hi. apply Z.ltb_lt. lia. }
    rewrite O. split; auto. split; auto. split.
    - apply Forall_forall. intros i Hi. apply filter_In in Hi. rewrite Forall_forall in S3. apply S3. apply Hi.
    - apply Forall_app. split; [apply Forall_forall; intros i Hi; apply filter_In in Hi; apply Z.ltb_lt; apply Hi|]. eapply Forall_impl; [|exact S4]. cbn. intros; lia. }
  assert (CUT : forall k, exists o n, start (loaded c k) (ops o) /\ hist_ok (ops (n ++ o)) /\ before mx (of k (f_hist s)) = n ++ o /\
    exists es eso stale, logged k (ops n ++ ops o) (es ++ eso) /\ length es = length (ops n) /\ Forall marker_fits es /\ incl stale eso /\ Permutation (of_key k l) (es ++ stale)).
  { intros k. destruct (KEY k) as (n & o & E & Rw & Mn & Mx). exists o, n.
    destruct (desc_before mx (of k (f_hist s)) (v_desc _ _ I k)) as (a & Ea). rewrite E in Ea.
    split; [|split; [|split; [auto|]]].
    - unfold start, loaded. rewrite Rw. destruct o as [|i o]; [reflexivity|]. unfold row_of. destruct (bag_run (ops (i :: o))) as [b|] eqn:B.
      + cbn [ops map] in *. exists b. split; auto.
      + exfalso. assert (H : hist_ok (ops (i :: o))).
        { split; [|split].
          - apply Forall_forall. intros x Hx. apply in_map_iff in Hx. destruct Hx as (j & <- & Hj). cbn. rewrite Forall_forall in VR. apply VR.
            apply (of_in k). rewrite Ea. apply in_app_iff. right. apply in_app_iff. auto.
          - pose proof (Fit k) as Fk. rewrite Ea, !ops_app, !map_app in Fk. apply throughout_suffix in Fk. apply throughout_suffix in Fk. exact Fk.
          - pose proof (v_stamp _ _ I k) as Sk. rewrite Ea, !ops_app in Sk. apply stamped_suffix in Sk. apply stamped_suffix in Sk. exact Sk. }
        destruct (P_Replay3.hist_run _ H) as (b & B' & _). congruence.
    - split; [|split].
      + apply Forall_forall. intros x Hx. apply in_map_iff in Hx. destruct Hx as (j & <- & Hj). cbn. rewrite Forall_forall in VR. apply VR.
        apply (of_in k). rewrite Ea. apply in_app_iff. auto.
      + pose proof (Fit k) as Fk. rewrite Ea, ops_app, map_app in Fk. apply throughout_suffix in Fk. exact Fk.
      + pose proof (v_stamp _ _ I k) as Sk. rewrite Ea, ops_app in Sk. apply stamped_suffix in Sk. exact Sk.
    - exists (map i_entry n), (map i_entry o), (map i_entry (filter (in_range (c_min c) mx) o)). split; [|split; [|split; [|split]]].
      + rewrite <- ops_app, <- map_app. pose proof (v_logged _ _ I k) as Lk. rewrite Ea in Lk. eapply logged_suffix; [exact Lk|reflexivity].
      + unfold ops. now rewrite !map_length.
      + apply Forall_forall. intros x Hx. apply in_map_iff in Hx. destruct Hx as (j & <- & Hj). rewrite Forall_forall in Mf. apply Mf.
        apply (of_in k). rewrite Ea. apply in_app_iff. right. apply in_app_iff. auto.
      + intros x Hx. apply in_map_iff in Hx. destruct Hx as (j & <- & Hj). apply in_map. apply filter_In in Hj. apply Hj.
      + unfold of_key. etransitivity; [apply perm_filter; exact PL|]. fold (of_key k (map i_entry (filter (in_range (c_min c) mx) (f_hist s)))).
        rewrite of_key_items by (apply Forall_forall; intros j Hj; apply filter_In in Hj; rewrite Forall_forall in VR; apply VR; apply Hj).
        rewrite <- map_app. apply Permutation_map. unfold of. rewrite filter_comm. fold (of k (f_hist s)).
        assert (X : filter (in_range (c_min c) mx) (of k (f_hist s)) = filter (fun i => c_min c <=? i_epoch i) (before mx (of k (f_hist s)))).
        { unfold before. generalize (of k (f_hist s)). induction l0 as [|j l0 IHl]; cbn; auto. unfold in_range at 1. destruct (i_epoch j <? mx); cbn; rewrite ?andb_true_r, ?andb_false_r; [destruct (c_min c <=? i_epoch j); rewrite IHl; auto|auto]. }
        rewrite X, E, filter_app. apply Permutation_app.
        * rewrite filter_all; [apply Permutation_refl|]. eapply Forall_impl; [|exact Mn]. cbn. intros j Hj. apply Z.leb_le. exact Hj.
        * apply Forall_app in Mx. destruct Mx as [_ Mx]. replace (filter (fun i => c_min c <=? i_epoch i) o) with (filter (in_range (c_min c) mx) o); [apply Permutation_refl|].
          clear -Mx. induction Mx as [|j o Hj Mx IH]; cbn; auto. unfold in_range at 1. apply Z.ltb_lt in Hj. rewrite Hj, andb_true_r. destruct (c_min c <=? i_epoch j); rewrite IH; auto. }
  destruct (replay_cut (fun k => ops (before mx (of k (f_hist s)))) (loaded c) l) as (t & R1 & R2).
  - eapply Permutation_Forall; [apply Permutation_sym; exact PL|]. apply Forall_forall. intros x Hx. apply in_map_iff in Hx. destruct Hx as (j & <- & Hj). apply filter_In in Hj.
    rewrite Forall_forall in VR. destruct (VR j) as (_ & _ & X); [apply Hj|]. congruence.
  - intros k. destruct (CUT k) as (o & n & A1 & A2 & A3 & A4). exists (ops o), (ops n). rewrite A3, ops_app in *. auto.
  - exists t. split; auto.
Qed.
