(* Layers: what each step does to the table. *)
From Verif Require Import Lib M_Layers Spec_Layers P_Layers1 P_Layers2 P_Layers3.

Definition same (s s' : lst) : Prop := forall k v, has s' k v <-> has s k v.
Definition nostart (c : lchoice) : Prop := forall k o, c <> LStart k o.
Definition eff (o : lop) : option Z := match o with LPut w => Some w | _ => None end.
Definition kind (s : lst) (t : nat) (c : lchoice) (s' : lst) : Prop :=
  (exists k o, pcs s t = LIdle /\ c = LStart k o /\ pcs s' t = LAt k o 0 k /\ same s s') \/
  (exists k o L r L' r', pcs s t = LAt k o L r /\ nostart c /\ pcs s' t = LAt k o L' r' /\ same s s' /\ (o = LGet -> dead s' L' = true -> entry s k None)) \/
  (exists k L r res, pcs s t = LAt k LGet L r /\ nostart c /\ pcs s' t = LDone k LGet res /\ same s s' /\ (dead s L = true /\ res = None \/ entry s k res)) \/
  (exists k o L r res, pcs s t = LAt k o L r /\ writes o /\ nostart c /\ pcs s' t = LDone k o res /\ entry s k res /\ entry s' k (eff o) /\ forall k' v, k' <> k -> (has s' k' v <-> has s k' v)) \/
  (nostart c /\ same s s' /\ (pcs s' t = LIdle \/ exists L q, pcs s' t = LKill L q)).
Record good (s : lst) (g : nat -> list Z) (t : nat) (c : lchoice) (s' : lst) : Prop := {
  gd_inv : exists g', LI s' g';
  gd_dead : forall M, dead s' M = true -> dead s M = true \/ rws s M = [];
  gd_pcs : forall t0, t0 <> t -> pcs s' t0 = pcs s t0;
  gd_kind : kind s t c s'
}.
Lemma same_rws s s' : (forall L, rws s' L = rws s L) -> same s s'.
Proof. intros E k v. split; apply has_ext; auto. Qed.
Lemma go_pc s t p : pcs (go s t p) t = p. Proof. apply setf_same. Qed.
Lemma go_other s t p t0 : t0 <> t -> pcs (go s t p) t0 = pcs s t0. Proof. intros N. now apply setf_other. Qed.
Lemma nostart_go : nostart LGo. Proof. intros k o. discriminate. Qed.
Lemma nostart_quit : nostart LQuit. Proof. intros k o. discriminate. Qed.
#[local] Hint Resolve nostart_go nostart_quit go_pc go_other : core.

Lemma some_eq {A} (a b : A) : Some a = Some b -> b = a. Proof. congruence. Qed.
Section Step.
  Variables (s : lst) (g : nat -> list Z) (t : nat).
  Hypothesis HI : LI s g.
  Lemma good_go c p : thr s g p -> (forall L q, p <> LKill L q) -> kind s t c (go s t p) -> good s g t c (go s t p).
  Proof. intros A B K. constructor; [exists g; now apply LI_go|auto|auto|exact K]. Qed.
  Lemma same_go p : same s (go s t p). Proof. now apply same_rws. Qed.
  Hint Resolve same_go : core.
  Lemma good_idle c : nostart c -> good s g t c (go s t LIdle).
  Proof. intros N. apply good_go; [exact Logic.I|discriminate|]. right. right. right. right. auto. Qed.
  (* start again from the top, or go on *)
  Lemma good_move k o L r L' r' : pcs s t = LAt k o L r -> thr s g (LAt k o L' r') -> (o = LGet -> dead s L' = true -> entry s k None) -> good s g t LGo (go s t (LAt k o L' r')).
  Proof. intros P A B. apply good_go; [exact A|discriminate|]. right. left. exists k, o, L, r, L', r'. auto 10. Qed.
  Lemma good_locked k o L r s' c : pcs s t = LAt k o L r -> c = LGo -> (dead s L = false -> good s g t c s') -> forall s1, locked s t L k o s' = Some s1 -> good s g t c s1.
  Proof.
    intros P -> H s1. unfold locked. destruct (dead s L) eqn:D; intros [= <-]; [|now apply H]. apply (good_move k o L r); [exact P|now apply (thr_root s g)|]. intros _ Q. now rewrite (proj1 (proj2 (i_z _ _ HI))) in Q.
  Qed.
  (* an operation writes its row *)
  Lemma good_row k o L r l x res : pcs s t = LAt k o L r -> writes o -> dead s L = false -> (forall L', lget (slice r) (rws s L) <> Some (RLay L')) ->
    (forall p, lget p l = if kqb (slice r) p then x else lget p (rws s L)) -> rowok (slice r) x ->
    (forall v, has_in s L r v <-> res = Some v) -> (forall v, has_in (wr s L l) L r v <-> eff o = Some v) ->
    (forall r' v, slice r' = slice r -> r' <> r -> ~ has_in s L r' v /\ ~ has_in (wr s L l) L r' v \/ lget (slice r) l = lget (slice r) (rws s L)) ->
    good s g t LGo (go (wr s L l) t (LDone k o res)).
  Proof.
    intros P W D Old Hl Hx H1 H2 H3. pose proof (i_thr _ _ HI t) as T. rewrite P in T. pose proof T as (T1 & T2 & T3). pose proof (LI_row s g L (slice r) l x HI T1 D Old Hl Hx) as HI'.
    constructor.
    - exists g. apply LI_go; [exact HI'|exact Logic.I|discriminate].
    - auto.
    - intros t0 N. now rewrite go_other.
    - right. right. right. left. exists k, o, L, r, res. split; [exact P|]. split; [exact W|]. split; [auto|]. split; [auto|]. split; [|split].
      + intros v. rewrite <- H1. now apply (path' s g HI k o L r v).
      + intros v. rewrite <- H2. assert (Q : has (go (wr s L l) t (LDone k o res)) k v <-> has (wr s L l) k v) by (split; apply has_ext; auto). rewrite Q. now apply (path' (wr s L l) g HI' k o L r v).
      + intros k' v N. assert (Q : has (go (wr s L l) t (LDone k o res)) k' v <-> has (wr s L l) k' v) by (split; apply has_ext; auto). rewrite Q.
        apply (row_frame s g L (slice r) l x HI Old Hl Hx (fun y => y <> k)); [|exact N]. intros r' v' S' N'. assert (Nr : r' <> r) by (intros ->; contradiction).
        destruct (H3 r' v' S' Nr) as [(A & B)|A]; [tauto|].
        assert (E : lget (slice r') (rws (wr s L l) L) = lget (slice r') (rws s L)) by (cbn [wr rws]; rewrite setf_same, S'; exact A).
        destruct (lget (slice r') (rws s L)) as [[v0|y v0|L']|] eqn:R.
        * now rewrite (has_val _ _ _ _ _ R), (has_val _ _ _ _ _ E).
        * now rewrite (has_suf _ _ _ _ _ _ R), (has_suf _ _ _ _ _ _ E).
        * rewrite S' in R. destruct (Old _ R).
        * split; intros Q'; exfalso; revert Q'; now apply has_none.
  Qed.
  Lemma no_other_val L r r' v : lget (slice r) (rws s L) = Some (RVal v) -> slice r' = slice r -> r' = r.
  Proof. intros H E. pose proof (i_val _ _ HI _ _ _ H) as F. transitivity (fst (slice r)); [now apply slice_short|symmetry; now apply slice_short]. Qed.
  Lemma same_suf (r r' : list Z) : slice r' = slice r -> skipn 8 r' = skipn 8 r -> r' = r.
  Proof. intros E F. rewrite <- (firstn_skipn 8 r'), <- (firstn_skipn 8 r), F. f_equal. unfold slice in E. congruence. Qed.
  Lemma rowok_new r w : rowok (slice r) (Some (new_row r w)).
  Proof. unfold new_row. destruct (8 <? length r)%nat eqn:E; cbn [rowok]; [|exact E]. destruct (slice_long r (slice r) eq_refl E) as (_ & A & B). auto. Qed.
  Lemma wr_get L l p : lget p (rws (wr s L l) L) = lget p l. Proof. cbn [wr rws]. now rewrite setf_same. Qed.

  (* the four rows a put may find *)
  Lemma good_put_new k w L r : pcs s t = LAt k (LPut w) L r -> dead s L = false -> lget (slice r) (rws s L) = None ->
    good s g t LGo (go (wr s L (lput (slice r) (new_row r w) (rws s L))) t (LDone k (LPut w) None)).
  Proof.
    intros P D R. assert (N : lget (slice r) (rws (wr s L (lput (slice r) (new_row r w) (rws s L))) L) = Some (new_row r w)) by (rewrite wr_get, lget_put; now rewrite kqb_rf).
    apply (good_row k (LPut w) L r _ (Some (new_row r w))); auto.
    - exact Logic.I.
    - congruence.
    - intros p. apply lget_put.
    - apply rowok_new.
    - intros v. split; [intros H; now apply has_none in H|discriminate].
    - intros v. rewrite (has_new_row _ L r w v r N eq_refl). cbn [eff]. intuition congruence.
    - intros r' v E Nr. left. split; [apply has_none; now rewrite E|]. rewrite (has_new_row _ L r w v r'); [tauto|now rewrite E|exact E].
  Qed.
  Lemma good_put_val k w L r v0 : pcs s t = LAt k (LPut w) L r -> dead s L = false -> lget (slice r) (rws s L) = Some (RVal v0) ->
    good s g t LGo (go (wr s L (lput (slice r) (RVal w) (rws s L))) t (LDone k (LPut w) (Some v0))).
  Proof.
    intros P D R. assert (N : lget (slice r) (rws (wr s L (lput (slice r) (RVal w) (rws s L))) L) = Some (RVal w)) by (rewrite wr_get, lget_put; now rewrite kqb_rf).
    apply (good_row k (LPut w) L r _ (Some (RVal w))); auto.
    - exact Logic.I.
    - congruence.
    - intros p. apply lget_put.
    - exact (i_val _ _ HI _ _ _ R).
    - intros v. rewrite (has_val _ _ _ _ _ R). split; congruence.
    - intros v. rewrite (has_val _ _ _ _ _ N). cbn [eff]. split; congruence.
    - intros r' v E Nr. destruct (Nr (no_other_val L r r' v0 R E)).
  Qed.
  Lemma good_put_suf k w L r v0 : pcs s t = LAt k (LPut w) L r -> dead s L = false -> lget (slice r) (rws s L) = Some (RSuf (skipn 8 r) v0) ->
    good s g t LGo (go (wr s L (lput (slice r) (RSuf (skipn 8 r) w) (rws s L))) t (LDone k (LPut w) (Some v0))).
  Proof.
    intros P D R. assert (N : lget (slice r) (rws (wr s L (lput (slice r) (RSuf (skipn 8 r) w) (rws s L))) L) = Some (RSuf (skipn 8 r) w)) by (rewrite wr_get, lget_put; now rewrite kqb_rf).
    apply (good_row k (LPut w) L r _ (Some (RSuf (skipn 8 r) w))); auto.
    - exact Logic.I.
    - congruence.
    - intros p. apply lget_put.
    - exact (i_suf _ _ HI _ _ _ _ R).
    - intros v. rewrite (has_suf _ _ _ _ _ _ R). intuition congruence.
    - intros v. rewrite (has_suf _ _ _ _ _ _ N). cbn [eff]. intuition congruence.
    - intros r' v E Nr. left. rewrite (has_suf s L r' (skipn 8 r) v0 v) by (now rewrite E). rewrite (has_suf _ L r' (skipn 8 r) w v) by (now rewrite E).
      split; intros (A & _); apply Nr; apply same_suf; auto.
  Qed.
  Lemma good_grow k w L r x v0 : pcs s t = LAt k (LPut w) L r -> lget (slice r) (rws s L) = Some (RSuf x v0) -> x <> skipn 8 r ->
    good s g t LGo (new_layer s t k w L r x v0).
  Proof.
    intros P R N. pose proof (i_thr _ _ HI t) as T. rewrite P in T. constructor.
    - exists (setf g (fl s) (g L ++ fst (slice r))). now apply LI_grow.
    - intros M D. left. now rewrite (gr_dead s g L t k r x w v0 HI) in D.
    - intros t0 Nt. unfold new_layer. now rewrite go_other.
    - right. left. exists k, (LPut w), L, r, (fl s), (skipn 8 r). split; [exact P|]. split; [auto|]. split; [apply go_pc|]. split; [|discriminate].
      intros y u. now apply (grow_keeps s g L t k r x w v0).
  Qed.
  (* a removal finds its row or does not *)
  Lemma good_rem_none k L r : pcs s t = LAt k LRem L r -> dead s L = false -> (forall v, ~ has_in s L r v) -> good s g t LGo (go s t (LDone k LRem None)).
  Proof.
    intros P D H. pose proof (i_thr _ _ HI t) as T. rewrite P in T. assert (E : entry s k None).
    { intros v. rewrite (path' s g HI k LRem L r v T D). split; [intros Q; destruct (H v Q)|discriminate]. }
    apply good_go; [exact Logic.I|discriminate|]. right. right. right. left. exists k, LRem, L, r, None. split; [exact P|]. split; [exact Logic.I|]. split; [auto|]. split; [auto|]. split; [exact E|]. split.
    - intros v. rewrite (same_go _ k v). apply E.
    - intros k' v _. apply same_go.
  Qed.
  Lemma good_rem_row k L r x v0 : pcs s t = LAt k LRem L r -> dead s L = false -> lget (slice r) (rws s L) = Some x -> x = RVal v0 \/ x = RSuf (skipn 8 r) v0 ->
    good s g t LGo (go (wr s L (ldel (slice r) (rws s L))) t (LDone k LRem (Some v0))).
  Proof.
    intros P D R X. assert (N : lget (slice r) (rws (wr s L (ldel (slice r) (rws s L))) L) = None) by (rewrite wr_get, lget_del; now rewrite kqb_rf).
    apply (good_row k LRem L r _ None); auto.
    - exact Logic.I.
    - intros L'. destruct X; congruence.
    - intros p. apply lget_del.
    - exact Logic.I.
    - intros v. destruct X as [->| ->]; [rewrite (has_val _ _ _ _ _ R)|rewrite (has_suf _ _ _ _ _ _ R)]; intuition congruence.
    - intros v. split; [intros H; now apply has_none in H|discriminate].
    - intros r' v E Nr. left. split; [|apply has_none; now rewrite E]. destruct X as [->| ->]; [destruct (Nr (no_other_val L r r' v0 R E))|].
      rewrite (has_suf s L r' (skipn 8 r) v0 v) by (now rewrite E). intros (A & _). apply Nr. now apply same_suf.
  Qed.
  Lemma good_get k L r res : pcs s t = LAt k LGet L r -> (dead s L = false -> forall v, has_in s L r v <-> res = Some v) -> (dead s L = true -> res = None) -> good s g t LGo (go s t (LDone k LGet res)).
  Proof.
    intros P H1 H2. pose proof (i_thr _ _ HI t) as T. rewrite P in T. apply good_go; [exact Logic.I|discriminate|]. right. right. left. exists k, L, r, res. split; [exact P|]. split; [auto|]. split; [auto|]. split; [auto|].
    destruct (dead s L) eqn:D; [left; auto|right]. intros v. rewrite (path' s g HI k LGet L r v T D). now apply H1.
  Qed.
  Lemma dead_get L p : dead s L = true -> lget p (rws s L) = None. Proof. intros D. now rewrite (i_dead _ _ HI L D). Qed.

  Lemma step_good c s' : lstep s t c = Some s' -> good s g t c s'.
  Proof.
    pose proof (i_thr _ _ HI t) as T. unfold lstep. destruct (pcs s t) as [|k o L r|k o res|L q] eqn:P.
    - destruct c as [k o| |]; try discriminate. intros [= <-]. apply good_go; [now apply (thr_root s g)|discriminate|]. left. exists k, o. auto.
    - destruct o as [|w| |]; destruct c as [k0 o0| |]; try discriminate.
      + intros H. apply some_eq in H. subst s'. destruct (lget (slice r) (rws s L)) as [[v0|x v0|L']|] eqn:R.
        * apply (good_get k L r); [exact P|intros _ v; rewrite (has_val _ _ _ _ _ R); split; congruence|intros D; rewrite (dead_get _ _ D) in R; discriminate].
        * apply (good_get k L r); [exact P| |intros D; rewrite (dead_get _ _ D) in R; discriminate]. intros _ v. rewrite (has_suf _ _ _ _ _ _ R). destruct (leqb x (skipn 8 r)) eqn:E.
          -- apply leqb_ok in E. split; [intros (_ & ->); reflexivity|intros [= ->]; auto].
          -- split; [intros (Q & _); apply leqb_ok in Q; congruence|discriminate].
        * apply (good_move k LGet L r); [exact P|now apply (thr_down s g HI k LGet LGet L r)|]. intros _ D v. pose proof (row_live _ _ HI _ _ _ R) as DL. rewrite (path' s g HI k LGet L r v T DL).
          split; [intros Q; destruct (enter_dead s g HI L _ L' r v R eq_refl D Q)|discriminate].
        * apply (good_get k L r); [exact P| |reflexivity]. intros _ v. split; [intros H; now apply has_none in H|discriminate].
      + destruct (lget (slice r) (rws s L)) as [[v0|x v0|L']|] eqn:R.
        * apply (good_locked k (LPut w) L r); auto. intros D. now apply good_put_val.
        * apply (good_locked k (LPut w) L r); auto. intros D. destruct (leqb x (skipn 8 r)) eqn:E.
          -- apply leqb_ok in E. subst x. now apply good_put_suf.
          -- apply good_grow; auto. intros Q. apply leqb_ok in Q. congruence.
        * intros [= <-]. apply (good_move k (LPut w) L r); [exact P|now apply (thr_down s g HI k (LPut w) (LPut w) L r)|discriminate].
        * apply (good_locked k (LPut w) L r); auto. intros D. now apply good_put_new.
      + intros [= <-]. apply good_idle. auto.
      + destruct (lget (slice r) (rws s L)) as [[v0|x v0|L']|] eqn:R.
        * apply (good_locked k LRem L r); auto. intros D. apply (good_rem_row k L r (RVal v0)); auto.
        * apply (good_locked k LRem L r); auto. intros D. destruct (leqb x (skipn 8 r)) eqn:E.
          -- apply leqb_ok in E. subst x. apply (good_rem_row k L r (RSuf (skipn 8 r) v0)); auto.
          -- apply (good_rem_none k L r); auto. intros v H. rewrite (has_suf _ _ _ _ _ _ R) in H. destruct H as (Q & _). apply leqb_ok in Q. congruence.
        * intros [= <-]. apply (good_move k LRem L r); [exact P|now apply (thr_down s g HI k LRem LRem L r)|discriminate].
        * apply (good_locked k LRem L r); auto. intros D. apply (good_rem_none k L r); auto. intros v. now apply has_none.
      + cbv zeta. assert (IDLE : forall s1, locked s t L k LGc (go s t LIdle) = Some s1 -> good s g t LGo s1) by (intros s1; apply (good_locked k LGc L r); auto; intros _; now apply good_idle).
        destruct (lget (firstn 8 r, true) (rws s L)) as [[v0|x v0|L']|] eqn:R; try apply IDLE. destruct (8 <? length r)%nat eqn:F.
        * intros [= <-]. apply (good_move k LGc L r); [exact P| |discriminate]. apply (thr_down s g HI k LGc LGc L r); [exact T|]. unfold slice. now rewrite F.
        * destruct (lkb s L (firstn 8 r, true)) eqn:NL; [discriminate|]. destruct (rws s L') eqn:E; [|apply IDLE]. apply (good_locked k LGc L r); auto. intros D. constructor.
          -- exists g. now apply LI_kill.
          -- intros M. cbn [go kill dead]. unfold setf. destruct (Nat.eqb_spec M L') as [->|]; [auto|]. cbn [lk_add dead]. auto.
          -- intros t0 N. now rewrite go_other.
          -- right. right. right. right. split; [auto|]. split; [now apply same_rws|]. right. eauto.
    - destruct c as [k0 o0| |]; try discriminate. intros [= <-]. apply good_idle. auto.
    - destruct c as [k0 o0| |]; try discriminate. intros [= <-]. constructor.
      + exists g. now apply LI_unlink.
      + auto.
      + intros t0 N. now rewrite go_other.
      + right. right. right. right. split; [auto|]. split; [|left; apply go_pc]. intros y u. now apply (unlink_keeps s g L q t).
  Qed.
End Step.
