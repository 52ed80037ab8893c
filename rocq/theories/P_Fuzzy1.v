(* Invariant of updates and checkpoints. *)
From Coq Require Import Permutation.
From Verif Require Import Lib M_Msgpack M_Bag Spec_Log Spec_Row M_Rowrun M_Replay Spec_Replay M_Fuzzy Spec_Fuzzy P_Replay1.

Lemma keq_refl k : keq k k = true.
Proof. unfold keq. destruct (list_eq_dec Z.eq_dec k k); congruence. Qed.
Lemma keq_iff a b : keq a b = true <-> a = b.
Proof. unfold keq. destruct (list_eq_dec Z.eq_dec a b); split; congruence. Qed.
Lemma keq_neq a b : a <> b -> keq a b = false.
Proof. unfold keq. destruct (list_eq_dec Z.eq_dec a b); congruence. Qed.
Lemma kset_same {A} (f : list Z -> A) k v : kset f k v k = v.
Proof. unfold kset. now rewrite keq_refl. Qed.
Lemma kset_other {A} (f : list Z -> A) k v j : j <> k -> kset f k v j = f j.
Proof. intros N. unfold kset. now rewrite keq_neq. Qed.
Lemma nset_same {A} (f : nat -> A) k v : nset f k v k = v.
Proof. unfold nset. now rewrite Nat.eqb_refl. Qed.
Lemma nset_other {A} (f : nat -> A) k v j : j <> k -> nset f k v j = f j.
Proof. intros N. unfold nset. apply Nat.eqb_neq in N. now rewrite N. Qed.

Definition key_of (p : tpc) : option (list Z) :=
  match p with TKey _ k _ | TLog _ k _ | TEpoch _ k _ _ | TStored _ k _ _ => Some k | _ => None end.
Definition log_of (p : tpc) : option nat :=
  match p with TLog l _ _ | TEpoch l _ _ _ | TStored l _ _ _ | TOpen l _ _ _ => Some l | _ => None end.
Definition any_log (p : tpc) : option nat := match p with TKey l _ _ => Some l | _ => log_of p end.
Definition req_of (p : tpc) : option (list Z * upd) :=
  match p with TKey _ k o | TLog _ k o | TEpoch _ k o _ => Some (k, o) | _ => None end.
Definition pend_of (p : tpc) : option (Z * entry) := match p with TStored _ _ e en | TOpen _ _ e en => Some (e, en) | _ => None end.
Definition pr (i : item) : Z * entry := (i_epoch i, i_entry i).

(* Epochs do not increase from newer to older. *)
Fixpoint desc (h : list item) : Prop := match h with [] => True | i :: h' => Forall (fun j => i_epoch j <= i_epoch i) h' /\ desc h' end.
(* The row after updates h. *)
Definition row_of (h : list item) : option bag := match h with [] => None | _ => bag_run (ops h) end.

Definition seen_ok (s : fstate) (c : ckp) (k : list Z) : Prop :=
  exists newer older, of k (f_hist s) = newer ++ older /\ c_rows c k = row_of older /\ Forall (fun i => c_min c <= i_epoch i) newer /\
    match c_max c with Some m => Forall (fun i => i_epoch i <= m) older | None => True end.
Record ck_ok (s : fstate) (c : ckp) : Prop := {
  k_min : c_min c <= f_ge s;
  k_wait : forall t l k o e, f_pc s t = TEpoch l k o e -> e < c_min c -> In l (c_wait c);
  k_seen : forall k, c_seen c k = true -> c_wait c = [] /\ seen_ok s c k
}.

Record Inv (nlog : nat) (s : fstate) : Prop := {
  v_row : forall k, f_tab s k = row_of (of k (f_hist s));
  v_def : forall k, of k (f_hist s) <> [] -> f_tab s k <> None;
  v_stamp : forall k, stamped (ops (of k (f_hist s)));
  v_logged : forall k, logged k (ops (of k (f_hist s))) (map i_entry (of k (f_hist s)));
  v_rops : Forall (fun i => rop_ok (i_rop i) /\ i_key i <> [] /\ update_key (i_entry i) = Some (i_key i)) (f_hist s);
  v_desc : forall k, desc (of k (f_hist s));
  v_ge : Forall (fun i => i_epoch i <= f_ge s) (f_hist s);
  v_pc : forall t l k o e, f_pc s t = TEpoch l k o e -> e <= f_ge s /\ Forall (fun i => i_epoch i <= e) (of k (f_hist s));
  v_req : forall t k o, req_of (f_pc s t) = Some (k, o) -> k <> [] /\ upd_ok o;
  v_key : forall t k, key_of (f_pc s t) = Some k -> f_klock s k = true;
  v_key1 : forall t u k, key_of (f_pc s t) = Some k -> key_of (f_pc s u) = Some k -> t = u;
  v_log : forall t l, log_of (f_pc s t) = Some l -> f_llock s l = true;
  v_log1 : forall t u l, log_of (f_pc s t) = Some l -> log_of (f_pc s u) = Some l -> t = u;
  v_nlog : forall t l, any_log (f_pc s t) = Some l -> (l < nlog)%nat;
  v_pend : exists pend, NoDup (map fst pend) /\ (forall t x, In (t, x) pend <-> pend_of (f_pc s t) = Some x) /\
             Permutation (map pr (f_hist s)) (f_log s ++ map snd pend);
  v_ck : match f_ck s with Some c => ck_ok s c | None => True end
}.

Lemma of_cons_same k i h : i_key i = k -> of k (i :: h) = i :: of k h.
Proof. intros <-. unfold of. cbn [filter]. now rewrite keq_refl. Qed.
Lemma of_cons_other k i h : i_key i <> k -> of k (i :: h) = of k h.
Proof. intros N. unfold of. cbn [filter]. now rewrite keq_neq. Qed.
Lemma row_ts h b : row_of h = Some b -> bag_timestamp b = last_stamp (ops h).
Proof.
  destruct h as [|i h]; [discriminate|]. cbn [row_of ops map bag_run last_stamp]. destruct (i_rop i).
  - intros H. destruct (bag_run _); [|discriminate]. cbn in H. eapply update_ts. exact H.
  - apply create1_ts.
Qed.
Lemma new_row_run h o ts k e en b : (h <> [] -> row_of h <> None) -> new_row (row_of h) o ts = Some b -> row_of (MkI k (upd_rop o) ts e en :: h) = Some b.
Proof.
  intros N. cbn [row_of ops map bag_run i_rop i_ts]. destruct o as [cs ch|v]; cbn [upd_rop new_row].
  - destruct h as [|i h].
    + cbn [row_of map bag_run]. intros H. cbn. exact H.
    + assert (X : row_of (i :: h) <> None) by (apply N; discriminate). change (row_of (i :: h)) with (bag_run (ops (i :: h))) in *.
      fold (ops (i :: h)). destruct (bag_run (ops (i :: h))); [|congruence]. cbn. auto.
  - auto.
Qed.

(* Steps that leave table, history and log alone. *)
Lemma pend_keep s s' t : (exists pend, NoDup (map fst pend) /\ (forall t x, In (t, x) pend <-> pend_of (f_pc s t) = Some x) /\
             Permutation (map pr (f_hist s)) (f_log s ++ map snd pend)) ->
  f_hist s' = f_hist s -> f_log s' = f_log s -> (forall u, u <> t -> f_pc s' u = f_pc s u) -> pend_of (f_pc s' t) = pend_of (f_pc s t) ->
  exists pend, NoDup (map fst pend) /\ (forall t x, In (t, x) pend <-> pend_of (f_pc s' t) = Some x) /\
             Permutation (map pr (f_hist s')) (f_log s' ++ map snd pend).
Proof.
  intros (pend & A & B & C) Eh El Ep Et. exists pend. rewrite Eh, El. split; auto. split; auto. intros u x. rewrite B.
  destruct (Nat.eq_dec u t) as [->|N]; [now rewrite Et|]. now rewrite Ep.
Qed.

Lemma init_I nlog : Inv nlog f_init.
Proof.
  constructor; cbn; auto; try discriminate; try (intros; discriminate).
  exists []. split; [constructor|]. split; [|constructor]. intros t x. split; [intros []|discriminate].
Qed.

(* A thread's pc changes, and locks. *)
Lemma pc_I nlog s s' t : Inv nlog s ->
  f_tab s' = f_tab s -> f_hist s' = f_hist s -> f_log s' = f_log s -> f_ge s' = f_ge s -> f_ck s' = f_ck s -> (forall u, u <> t -> f_pc s' u = f_pc s u) ->
  pend_of (f_pc s' t) = pend_of (f_pc s t) ->
  (forall l k o e, f_pc s' t = TEpoch l k o e -> e = f_ge s) ->
  (forall k o, req_of (f_pc s' t) = Some (k, o) -> k <> [] /\ upd_ok o) ->
  (forall u k, key_of (f_pc s' u) = Some k -> f_klock s' k = true) ->
  (forall u v k, key_of (f_pc s' u) = Some k -> key_of (f_pc s' v) = Some k -> u = v) ->
  (forall u l, log_of (f_pc s' u) = Some l -> f_llock s' l = true) ->
  (forall u v l, log_of (f_pc s' u) = Some l -> log_of (f_pc s' v) = Some l -> u = v) ->
  (forall l, any_log (f_pc s' t) = Some l -> (l < nlog)%nat) ->
  Inv nlog s'.
Proof.
  intros I Et Eh El Eg Ec Ep Epd He Hr Hk Hk1 Hl Hl1 Hn. destruct I. constructor; rewrite ?Et, ?Eh, ?Eg, ?Ec; auto.
  - intros u l k o e H. destruct (Nat.eq_dec u t) as [->|N].
    + rewrite (He _ _ _ _ H). split; [lia|]. rewrite Forall_forall in v_ge0 |- *. intros i Hi. apply v_ge0. apply filter_In in Hi. apply Hi.
    + rewrite Ep in H by auto. eapply v_pc0; eauto.
  - intros u k o H. destruct (Nat.eq_dec u t) as [->|N]; auto. rewrite Ep in H by auto. eapply v_req0; eauto.
  - intros u l H. destruct (Nat.eq_dec u t) as [->|N]; auto. rewrite Ep in H by auto. eapply v_nlog0; eauto.
  - rewrite <- Eh. apply pend_keep with (s := s) (t := t); auto.
  - destruct (f_ck s) as [c|]; auto. destruct v_ck0 as [K1 K2 K3]. constructor.
    + rewrite Eg. auto.
    + intros u l k o e H L. destruct (Nat.eq_dec u t) as [->|N]; [apply He in H; lia|]. rewrite Ep in H by auto. eapply K2; eauto.
    + intros k Hs. destruct (K3 k Hs) as [A B]. split; auto. unfold seen_ok in *. rewrite Eh. exact B.
Qed.

Lemma of_in k i h : In i (of k h) -> In i h /\ i_key i = k.
Proof. intros H. apply filter_In in H. destruct H as [A B]. apply keq_iff in B. auto. Qed.

Lemma store_I nlog s t l k o e ts b : Inv nlog s -> f_pc s t = TEpoch l k o e -> ts_ok (f_tab s k) ts = true -> new_row (f_tab s k) o ts = Some b ->
  Inv nlog (MkF (kset (f_tab s) k (Some b)) (f_klock s) (f_llock s) (f_ge s) (nset (f_pc s) t (TStored l k e (new_entry (f_tab s k) k o ts))) (f_log s) (f_ck s)
              (MkI k (upd_rop o) ts e (new_entry (f_tab s k) k o ts) :: f_hist s)).
Proof.
  intros I P T B. set (en := new_entry (f_tab s k) k o ts). set (it := MkI k (upd_rop o) ts e en).
  destruct (v_pc _ _ I _ _ _ _ _ P) as [Ege Eall]. destruct (v_req _ _ I t k o) as [Kn Uo]; [rewrite P; reflexivity|].
  assert (OS : of k (it :: f_hist s) = it :: of k (f_hist s)) by (apply of_cons_same; reflexivity).
  assert (OO : forall j, j <> k -> of j (it :: f_hist s) = of j (f_hist s)) by (intros j N; apply of_cons_other; cbn; congruence).
  assert (LS : last_stamp (ops (of k (f_hist s))) = match f_tab s k with None => 0 | Some b => bag_timestamp b end).
  { rewrite (v_row _ _ I k). destruct (row_of (of k (f_hist s))) as [b0|] eqn:R; [symmetry; apply row_ts; auto|].
    destruct (of k (f_hist s)) as [|i h] eqn:O; [reflexivity|]. exfalso. apply (v_def _ _ I k); [rewrite O; discriminate|]. rewrite (v_row _ _ I k), O. exact R. }
  assert (PC : forall u, u <> t -> nset (f_pc s) t (TStored l k e en) u = f_pc s u) by (intros; apply nset_other; auto).
  unfold ts_ok in T. apply andb_prop in T. destruct T as [T T3]. apply andb_prop in T. destruct T as [T1 T2]. apply Z.ltb_lt in T2, T3.
  constructor; cbn [f_tab f_hist f_klock f_llock f_ge f_pc f_log f_ck].
  - intros j. destruct (list_eq_dec Z.eq_dec j k) as [->|N].
    + rewrite kset_same, OS. symmetry. apply new_row_run; [|rewrite <- (v_row _ _ I k); exact B]. rewrite <- (v_row _ _ I k). apply (v_def _ _ I).
    + rewrite kset_other, OO by auto. apply (v_row _ _ I).
  - intros j. destruct (list_eq_dec Z.eq_dec j k) as [->|N]; [rewrite kset_same; discriminate|]. rewrite kset_other, OO by auto. apply (v_def _ _ I).
  - intros j. destruct (list_eq_dec Z.eq_dec j k) as [->|N]; [|rewrite OO by auto; apply (v_stamp _ _ I)].
    rewrite OS. cbn [ops map stamped i_rop i_ts it]. fold (ops (of k (f_hist s))). rewrite LS. repeat split; auto. apply (v_stamp _ _ I).
  - intros j. destruct (list_eq_dec Z.eq_dec j k) as [->|N]; [|rewrite OO by auto; apply (v_logged _ _ I)].
    rewrite OS. cbn [ops map logged i_rop i_ts i_entry it]. fold (ops (of k (f_hist s))). pose proof (v_logged _ _ I k) as L.
    destruct o as [cs ch|v]; cbn [upd_rop]; split; auto.
    exists cs. split; [apply Uo|]. unfold en, new_entry. destruct (of k (f_hist s)) as [|i h] eqn:O.
    + rewrite (v_row _ _ I k), O. reflexivity.
    + pose proof (v_def _ _ I k) as D. rewrite O in D. destruct (f_tab s k) as [b0|]; [rewrite LS; reflexivity|]. exfalso. apply D; [discriminate|reflexivity].
  - constructor; [|apply (v_rops _ _ I)]. cbn. split; [destruct o; [apply Uo|exact Logic.I]|]. split; auto. unfold en, new_entry. destruct o, (f_tab s k); reflexivity.
  - intros j. destruct (list_eq_dec Z.eq_dec j k) as [->|N]; [|rewrite OO by auto; apply (v_desc _ _ I)]. rewrite OS. split; [exact Eall|apply (v_desc _ _ I)].
  - constructor; [exact Ege|apply (v_ge _ _ I)].
  - intros u l' k' o' e' H. destruct (Nat.eq_dec u t) as [->|N]; [rewrite nset_same in H; discriminate|]. rewrite PC in H by auto.
    destruct (v_pc _ _ I _ _ _ _ _ H) as [A1 A2]. split; auto. destruct (list_eq_dec Z.eq_dec k' k) as [->|N']; [|rewrite OO by auto; exact A2].
    exfalso. apply N. apply (v_key1 _ _ I u t k); [rewrite H; reflexivity|rewrite P; reflexivity].
  - intros u k' o' H. destruct (Nat.eq_dec u t) as [->|N]; [rewrite nset_same in H; discriminate|]. rewrite PC in H by auto. eapply (v_req _ _ I); eauto.
  - intros u k' H. destruct (Nat.eq_dec u t) as [->|N]; [rewrite nset_same in H; injection H as <-; apply (v_key _ _ I t); rewrite P; reflexivity|]. rewrite PC in H by auto. eapply (v_key _ _ I); eauto.
  - assert (X : forall u, key_of (nset (f_pc s) t (TStored l k e en) u) = key_of (f_pc s u)).
    { intros u. destruct (Nat.eq_dec u t) as [->|N]; [rewrite nset_same, P; reflexivity|now rewrite PC]. }
    intros u v k' H1 H2. rewrite X in H1, H2. eapply (v_key1 _ _ I); eauto.
  - intros u l' H. destruct (Nat.eq_dec u t) as [->|N]; [rewrite nset_same in H; injection H as <-; apply (v_log _ _ I t); rewrite P; reflexivity|]. rewrite PC in H by auto. eapply (v_log _ _ I); eauto.
  - assert (X : forall u, log_of (nset (f_pc s) t (TStored l k e en) u) = log_of (f_pc s u)).
    { intros u. destruct (Nat.eq_dec u t) as [->|N]; [rewrite nset_same, P; reflexivity|now rewrite PC]. }
    intros u v l' H1 H2. rewrite X in H1, H2. eapply (v_log1 _ _ I); eauto.
  - intros u l' H. destruct (Nat.eq_dec u t) as [->|N]; [rewrite nset_same in H; injection H as <-; apply (v_nlog _ _ I t); rewrite P; reflexivity|]. rewrite PC in H by auto. eapply (v_nlog _ _ I); eauto.
  - destruct (v_pend _ _ I) as (pend & A1 & A2 & A3). exists ((t, (e, en)) :: pend). split; [|split].
    + cbn. constructor; auto. intros H. apply in_map_iff in H. destruct H as ([u x] & E & H). cbn in E. subst u. apply A2 in H. rewrite P in H. discriminate.
    + intros u x. cbn [In]. destruct (Nat.eq_dec u t) as [->|N].
      * rewrite nset_same. cbn. split; [intros [H|H]; [congruence|]; apply A2 in H; rewrite P in H; discriminate|]. intros H. left. congruence.
      * rewrite PC by auto. rewrite <- A2. split; [intros [H|H]; [congruence|auto]|auto].
    + cbn [map pr it snd]. apply Permutation_cons_app. exact A3.
  - pose proof (v_ck _ _ I) as C. destruct (f_ck s) as [c|]; auto. destruct C as [K1 K2 K3]. constructor; cbn [f_ge f_pc]; auto.
    + intros u l' k' o' e' H L. destruct (Nat.eq_dec u t) as [->|N]; [rewrite nset_same in H; discriminate|]. rewrite PC in H by auto. eapply K2; eauto.
    + intros j Hs. destruct (K3 j Hs) as [W (newer & older & S1 & S2 & S3 & S4)]. split; auto. unfold seen_ok. cbn [f_hist].
      destruct (list_eq_dec Z.eq_dec j k) as [->|N]; [|rewrite OO by auto; exists newer, older; auto].
      exists (it :: newer), older. rewrite OS, S1. split; auto. split; auto. split; auto. constructor; auto. cbn.
      destruct (Z.le_gt_cases (c_min c) e) as [Le|Gt]; auto. exfalso. pose proof (K2 t l k o e P Gt) as X. rewrite W in X. destruct X.
Qed.
