(* The invariant is kept by updates; the theorems. *)
From Verif Require Import Lib M_Rowver Spec_Rowver P_Rowver1 P_Rowver2.

Section J.
Context (cols0 : list Z).
Notation was := (was_value cols0).
Notation J := (J cols0).

Lemma begin_J es s o : J es s -> wop_ok o -> v_w s = None -> J (es ++ [EBegin o]) (MkV (v_rows s) (v_next s) (v_cur s) (Some (WBegin o)) (v_rd s)).
Proof.
  intros I O W. assert (ST : vstep s (EBegin o) = Some (MkV (v_rows s) (v_next s) (v_cur s) (Some (WBegin o)) (v_rd s))) by (cbn; rewrite W; auto).
  constructor.
  - eapply run_snoc; eauto.
  - pose proof (j_val _ _ _ I) as V. unfold val_inv in *. rewrite W in V. cbn [v_w]. split; auto. exists (begun es). rewrite begun_snoc. auto.
  - apply (j_cur _ _ _ I).
  - intros r Hr. destruct (j_ver _ _ _ I r Hr) as [A B]. split; auto. cbn. change (ver_of (MkV (v_rows s) (v_next s) (v_cur s) (Some (WBegin o)) (v_rd s)) r) with (ver_of s r).
    rewrite W in B. split; [intros D; apply B in D; destruct D as (_ & ch & D); discriminate|intros (_ & ch & D); discriminate].
  - intros t. apply act_keep; auto. apply (j_act _ _ _ I).
  - intros t. apply row_keep with (s := s); auto. apply (j_row _ _ _ I).
  - intros t. apply copy_keep with (s := s); auto; [unfold pend; cbn; rewrite W; lia|]. apply (j_copy _ _ _ I).
Qed.

Lemma publish_J es s cols o os : J es s -> v_w s = Some (WBegin o) -> begun es = os ++ [o] -> cols = effect (value cols0 os) o ->
  wstep s = Some (publish s cols) -> J (es ++ [EWriter]) (publish s cols).
Proof.
  intros I W B V ST. assert (C : calm s) by (unfold calm; rewrite W; auto).
  pose proof (j_cur _ _ _ I) as Hc.
  assert (OLD : forall r, (r < v_next s)%nat -> v_rows (publish s cols) r = v_rows s r) by (intros r Hr; cbn; apply vset_other; lia).
  assert (CLEAN : forall r, (r < v_next s)%nat -> rv_dirty (ver_of s r) = false).
  { intros r Hr. destruct (j_ver _ _ _ I r Hr) as [_ E]. destruct (rv_dirty (ver_of s r)); auto. destruct (proj1 E eq_refl) as (_ & ch & X). congruence. }
  constructor.
  - eapply run_snoc; eauto.
  - unfold val_inv. cbn [publish v_w]. unfold cols_of. cbn. rewrite vset_same. cbn. rewrite begun_snoc, app_nil_r, B. unfold value. rewrite fold_left_app. exact V.
  - cbn. lia.
  - intros r Hr. cbn in Hr. unfold ver_of. destruct (Nat.eq_dec r (v_next s)) as [->|N].
    + cbn. rewrite vset_same. cbn. split; [lia|]. split; [discriminate|intros (_ & ch & X); discriminate].
    + rewrite OLD by lia. fold (ver_of s r). destruct (j_ver _ _ _ I r ltac:(lia)) as [A _]. split; auto. rewrite CLEAN by lia. split; [discriminate|intros (_ & ch & X); discriminate].
  - intros t. cbn. apply act_keep; auto. apply (j_act _ _ _ I).
  - intros t. cbn [publish v_rd]. pose proof (j_row _ _ _ I t) as R. unfold row_inv in *. destruct (rowpc (v_rd s t)) as [[[f r] n]|] eqn:P; auto.
    destruct R as (R1 & R2 & R3). unfold cols_of. rewrite OLD by auto. cbn [publish v_next]. split; [lia|]. split; auto. right. apply was_snoc; auto. fold (cols_of s r).
    destruct R3 as [->|R3]; auto. apply was_now with (s := s); auto. destruct (v_rd s t); cbn in P |- *; congruence.
  - intros t. cbn [publish v_rd]. pose proof (j_copy _ _ _ I t) as K. pose proof (j_row _ _ _ I t) as R. unfold copy_inv in *.
    assert (SN : since t (es ++ [EWriter]) = since t es) by (rewrite since_snoc; cbn; lia).
    assert (WS : forall f v, was es t f v -> was (es ++ [EWriter]) t f v) by (intros; apply was_snoc; auto).
    destruct (v_rd s t) as [|f|f r n|f r n v1 todo st|f res|f|i|i r|i r|i r d|i d l|i] eqn:P; auto.
    + destruct R as (R1 & R2 & R3). unfold cols_of, ver_of in *. rewrite OLD, SN by auto.
      destruct K as (K1 & K2 & (v & K3) & K4 & q & K5 & K6 & K7 & K8). split; auto. split; auto. split; [exists v; split; [apply WS|]; apply K3|]. split; auto.
      exists q. split; auto. split; [unfold pend in *; cbn; rewrite W in K6; lia|]. split; auto. intros Q D. destruct (K8 Q D). auto.
    + rewrite SN. intros Bd. destruct (K Bd) as (v & V1 & V2). eauto.
    + destruct K as (v & i & K1 & K2). eauto.
Qed.

(* Steps on the current row. *)
Lemma cols_with s rw w : cols_of (with_row s rw w) (v_cur s) = vr_cols rw.
Proof. unfold cols_of. cbn. now rewrite vset_same. Qed.
Lemma inplace_J es s rw w : J es s -> wstep s = Some (with_row s rw w) ->
  val_inv cols0 (es ++ [EWriter]) (with_row s rw w) -> length (vr_cols rw) = length (cols_of s (v_cur s)) ->
  0 <= vr_ver rw < 2 ^ 32 -> (rv_dirty (vr_ver rw) = true <-> exists ch, w = Some (WStore ch)) ->
  (* a later get sees the row unchanged, or dirty, or with the next version *)
  (forall t f r n v1 todo st, v_rd s t = RCopy f r n v1 todo st -> r = v_cur s ->
     exists d, (d = 0 \/ d = 1) /\ rv_ctr (vr_ver rw) = (rv_ctr (ver_of s r) + d) mod 2 ^ 31 /\ (d = 1 -> w = None) /\ (d = 0 -> rv_dirty (vr_ver rw) = true)) ->
  (exists wp, v_w s = Some wp) ->
  J (es ++ [EWriter]) (with_row s rw w).
Proof.
  intros I ST V L RG D NX (wp & W). pose proof (j_cur _ _ _ I) as Hc.
  assert (OLD : forall r, r <> v_cur s -> v_rows (with_row s rw w) r = v_rows s r) by (intros r Hr; cbn; apply vset_other; auto).
  assert (NEW : v_rows (with_row s rw w) (v_cur s) = rw) by (cbn; apply vset_same).
  constructor.
  - eapply run_snoc; eauto.
  - exact V.
  - exact Hc.
  - intros r Hr. cbn in Hr. unfold ver_of. cbn [v_cur with_row v_w]. destruct (Nat.eq_dec r (v_cur s)) as [->|N].
    + change (v_cur s) with (v_cur (with_row s rw w)) at 1 2 4. cbn [v_cur with_row]. rewrite NEW. split; auto. rewrite D. intuition.
    + rewrite OLD by auto. fold (ver_of s r). destruct (j_ver _ _ _ I r Hr) as [A B]. split; auto. rewrite B. intuition.
  - intros t. cbn. apply act_keep; auto. apply (j_act _ _ _ I).
  - intros t. cbn [with_row v_rd]. pose proof (j_row _ _ _ I t) as R. unfold row_inv in *. destruct (rowpc (v_rd s t)) as [[[f r] n]|] eqn:P; auto.
    destruct R as (R1 & R2 & R3). cbn [v_next with_row v_cur]. unfold cols_of. destruct (Nat.eq_dec r (v_cur s)) as [->|N].
    + rewrite NEW. split; auto. split; [rewrite L; exact R2|auto].
    + rewrite OLD by auto. split; auto. split; auto. right. apply was_snoc; auto. destruct R3; [contradiction|auto].
  - intros t. cbn [with_row v_rd]. pose proof (j_copy _ _ _ I t) as K. pose proof (j_row _ _ _ I t) as R. unfold copy_inv in *.
    assert (SN : since t (es ++ [EWriter]) = since t es) by (rewrite since_snoc; cbn; lia).
    assert (WS : forall f v, was es t f v -> was (es ++ [EWriter]) t f v) by (intros; apply was_snoc; auto).
    assert (PE : pend s = 1) by (unfold pend; rewrite W; auto).
    assert (PE' : pend (with_row s rw w) = match w with None => 0 | Some _ => 1 end) by reflexivity.
    destruct (v_rd s t) as [|f|f r n|f r n v1 todo st|f res|f|i|i r|i r|i r d|i d l|i] eqn:P; auto.
    + destruct R as (R1 & R2 & R3).
      destruct K as (K1 & K2 & (v & K3) & K4 & q & K5 & K6 & K7 & K8). split; auto. split; auto. split; [exists v; split; [apply WS|]; apply K3|]. split; auto.
      rewrite SN. unfold cols_of, ver_of. destruct (Nat.eq_dec r (v_cur s)) as [->|N].
      * rewrite NEW. destruct (NX t f _ n v1 todo st P eq_refl) as (d & Dd & Dc & D1 & D0). exists (q + d).
        split; [lia|]. split; [|split].
        { rewrite PE'. destruct Dd as [->|Dd]; [destruct w; lia|]. rewrite (D1 Dd). lia. }
        { rewrite Dc, K7. rewrite Zplus_mod_idemp_l. f_equal. lia. }
        { intros Q DD. assert (d = 0) by lia. rewrite (D0 H) in DD. discriminate. }
      * rewrite OLD by auto. exists q. split; auto. split; [rewrite PE'; destruct w; lia|]. split; auto. intros Q DD. destruct (K8 Q DD). auto.
    + rewrite SN. intros Bd. destruct (K Bd) as (v & V1 & V2). eauto.
    + destruct K as (v & i & K1 & K2). eauto.
Qed.

Lemma writer_J es s s' : J es s -> wstep s = Some s' -> J (es ++ [EWriter]) s'.
Proof.
  intros I ST. pose proof (j_val _ _ _ I) as V. pose proof (j_ver _ _ _ I _ (j_cur _ _ _ I)) as (VR & VD).
  pose proof ST as ST'. unfold wstep in ST. unfold val_inv in V. destruct (v_w s) as [[[ch|c]|[|[i c] ch]]|] eqn:W; [| | | |discriminate].
  - destruct V as ((Ne & Inc) & os & B & Vc). fold (cols_of s (v_cur s)) in ST. destruct (Nat.ltb_spec (length (cols_of s (v_cur s))) (ncol_of ch)) as [Lt|Le].
    + rewrite lsets_new in ST by auto. injection ST as <-. eapply publish_J; eauto. cbn. now rewrite Vc.
    + injection ST as <-. assert (CL : rv_dirty (ver_of s (v_cur s)) = false).
      { destruct (rv_dirty (ver_of s (v_cur s))); auto. destruct (proj1 VD eq_refl) as (_ & x & X). discriminate. }
      destruct (setdirty_clean _ VR CL) as (S1 & S2 & S3). apply inplace_J; auto.
      * unfold val_inv. cbn [with_row v_w v_cur]. exists os, ch, []. rewrite begun_snoc, app_nil_r. split; auto. split; auto. rewrite cols_with. cbn [vr_cols]. split; [exact Vc|].
        intros x Hx. pose proof (changes_bound ch x Inc Hx). lia.
      * split; [eauto|intros _; exact S1].
      * intros t f r n v1 todo st _ ->. exists 0. split; auto. split; [|split; [discriminate|intros _; exact S1]]. cbn [vr_ver]. fold (ver_of s (v_cur s)). rewrite S2, Z.add_0_r. unfold rv_ctr. now rewrite Z.mod_mod by lia.
      * eauto.
  - injection ST as <-. destruct V as (_ & os & B & Vc). eapply publish_J; eauto.
  - injection ST as <-. destruct V as (os & ch0 & done & B & E & Vc & _). destruct (clearandbump_ok _ VR) as (S1 & S2 & S3). apply inplace_J; auto.
    + unfold val_inv. cbn [with_row v_w v_cur]. rewrite cols_with. cbn [vr_cols]. rewrite begun_snoc, app_nil_r, B. unfold value. rewrite fold_left_app. cbn.
      fold (cols_of s (v_cur s)). rewrite Vc, E, app_nil_r. reflexivity.
    + split; [intros X; unfold ver_of in S1; cbn [vr_ver] in X; rewrite S1 in X; discriminate|intros (x & X); discriminate].
    + intros t f r n v1 todo st _ ->. exists 1. split; auto. split; [exact S2|]. split; [auto|discriminate].
    + eauto.
  - fold (cols_of s (v_cur s)) in ST. destruct V as (os & ch0 & done & B & E & Vc & In0). destruct (lset (cols_of s (v_cur s)) i c) as [cols|] eqn:Ls; [|discriminate].
    injection ST as <-. destruct (lset_some _ _ _ _ Ls) as [Ec El].
    assert (DT : rv_dirty (ver_of s (v_cur s)) = true) by (apply VD; split; eauto).
    apply inplace_J; auto.
    + unfold val_inv. cbn [with_row v_w v_cur]. exists os, ch0, (done ++ [(i, c)]). rewrite begun_snoc, app_nil_r. split; auto. split; [rewrite <- app_assoc; auto|].
      rewrite cols_with. cbn [vr_cols]. split; [rewrite Ec, Vc, puts_app; reflexivity|]. intros x Hx. rewrite El. apply In0. right. auto.
    + split; [eauto|intros _; exact DT].
    + intros t f r n v1 todo st _ ->. exists 0. split; auto. split; [|split; [discriminate|intros _; exact DT]]. cbn [vr_ver]. rewrite Z.add_0_r. unfold ver_of, rv_ctr. now rewrite Z.mod_mod by lia.
    + eauto.
Qed.

Lemma get_J es s t p e : J es s -> (exists f, e = EGet t f /\ p = RStart f) \/ (exists i, e = EGet1 t i /\ p = GStart i) -> at_rest (v_rd s t) = true ->
  J (es ++ [e]) (set_rd s t p).
Proof.
  intros I H A. assert (X : vstep s e = Some (set_rd s t p) /\ is_begin e = 0 /\ (forall u, u <> t -> starts u e = false) /\ begun (es ++ [e]) = begun es).
  { destruct H as [(f & -> & ->)|(i & -> & ->)]; cbn [vstep]; rewrite A; repeat split; auto; try (rewrite begun_snoc; apply app_nil_r); intros u N; cbn; apply Nat.eqb_neq; auto. }
  destruct X as (X1 & X2 & X3 & X4). apply reader_J; auto.
  - destruct H as [(f & -> & ->)|(i & -> & ->)]; cbn; auto. exists es, []. split; auto. intros x [].
  - destruct H as [(f & -> & ->)|(i & -> & ->)]; cbn; auto.
  - destruct H as [(f & -> & ->)|(i & -> & ->)]; cbn; auto.
Qed.
Lemma step_J es s e s' : J es s -> ev_ok e -> vstep s e = Some s' -> J (es ++ [e]) s'.
Proof.
  intros I O E. destruct e as [o| |t f|t i|t k]; cbn [vstep] in E.
  - destruct (v_w s) eqn:W; [discriminate|]. injection E as <-. apply begin_J; auto.
  - apply writer_J with (s := s); auto.
  - destruct (at_rest (v_rd s t)) eqn:A; [|discriminate]. injection E as <-. apply get_J; eauto.
  - destruct (at_rest (v_rd s t)) eqn:A; [|discriminate]. injection E as <-. apply get_J; eauto.
  - destruct (rstep_pc s (v_rd s t) k) as [p|] eqn:P; [|discriminate]. injection E as <-. apply read_J; auto.
Qed.
Lemma init_J : J [] (v_init cols0).
Proof.
  constructor; cbn; auto; try (intros t; exact Logic.I).
  - intros r Hr. split; [cbn; lia|]. split; [discriminate|intros (_ & ch & X); discriminate].
Qed.
Lemma run_J : forall es s, Forall ev_ok es -> vrun (v_init cols0) es = Some s -> J es s.
Proof.
  induction es as [|e es IH] using rev_ind; intros s F R.
  - injection R as <-. apply init_J.
  - apply Forall_app in F. destruct F as [F1 F2]. inversion F2 as [|? ? F3 _]; subst. rewrite vrun_app in R. destruct (vrun (v_init cols0) es) as [s1|] eqn:E; [|discriminate].
    cbn [vrun] in R. destruct (vstep s1 e) as [s2|] eqn:St; [|discriminate]. injection R as <-. apply step_J with (s := s1); auto.
Qed.
End J.

Lemma get_atomic cols0 es s t f res : Forall ev_ok es -> vrun (v_init cols0) es = Some s -> v_rd s t = RDone f res -> since t es + 1 < 2 ^ 31 ->
  exists cols, was_value cols0 es t f cols /\ res = answer f cols.
Proof. intros F R D B. pose proof (j_copy _ _ _ (run_J cols0 es s F R) t) as C. rewrite D in C. apply C. exact B. Qed.
Lemma get_safe cols0 es s t f : Forall ev_ok es -> vrun (v_init cols0) es = Some s -> v_rd s t = RBad f ->
  exists cols i, was_value cols0 es t f cols /\ f = [i] /\ (length cols <= i)%nat.
Proof. intros F R D. pose proof (j_copy _ _ _ (run_J cols0 es s F R) t) as C. rewrite D in C. exact C. Qed.
Lemma quiet_value cols0 es s : Forall ev_ok es -> vrun (v_init cols0) es = Some s -> v_w s = None -> vr_cols (v_rows s (v_cur s)) = value cols0 (begun es).
Proof. intros F R W. pose proof (j_val _ _ _ (run_J cols0 es s F R)) as V. unfold val_inv in V. rewrite W in V. exact V. Qed.
Lemma writer_enabled cols0 es s w : Forall ev_ok es -> vrun (v_init cols0) es = Some s -> v_w s = Some w -> exists s', vstep s EWriter = Some s'.
Proof.
  intros F R W. pose proof (run_J cols0 es s F R) as I. pose proof (j_val _ _ _ I) as V. unfold val_inv in V. rewrite W in V. cbn [vstep]. unfold wstep. rewrite W.
  destruct w as [[ch|c]|[|[i c] ch]]; eauto.
  - destruct V as ((Ne & Inc) & _). destruct (_ <? _)%nat; eauto. rewrite lsets_new by auto. eauto.
  - destruct V as (os & ch0 & done & _ & _ & _ & In0). fold (cols_of s (v_cur s)). rewrite lset_in; eauto. apply (In0 (i, c)). left. auto.
Qed.
