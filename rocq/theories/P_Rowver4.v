(* Gets that are left alone end; witnesses. *)
From Verif Require Import Lib M_Rowver Spec_Rowver P_Rowver1 P_Rowver2 P_Rowver3.

Section Ends.
Context (cols0 : list Z).
Notation J := (J cols0).

(* One more read step, then the rest. *)
Definition finishes (s : vstate) (t : nat) : Prop :=
  exists ks s', vrun s (map (ERead t) ks) = Some s' /\ at_rest (v_rd s' t) = true.
Lemma finish_step s t k p : rstep_pc s (v_rd s t) k = Some p -> finishes (set_rd s t p) t -> finishes s t.
Proof.
  intros R (ks & s' & A & B). exists (k :: ks), s'. split; auto. cbn [map vrun vstep]. rewrite R. exact A.
Qed.
Lemma finish_rest s t p k : rstep_pc s (v_rd s t) k = Some p -> at_rest p = true -> finishes s t.
Proof.
  intros R A. eapply finish_step; eauto. exists [], (set_rd s t p). split; auto. cbn. now rewrite vset_same.
Qed.
Lemma set_pc s t p : v_rd (set_rd s t p) t = p.
Proof. cbn. apply vset_same. Qed.

(* The copy loop; m bounds the columns to copy, and the version is the row's one (last = true) or not yet. *)
Lemma copy_finishes t f r n : forall m s v1 todo st, length todo = m -> rv_dirty (ver_of s r) = false -> rv_has_changed v1 (ver_of s r) = false ->
  v_rd s t = RCopy f r n v1 todo st -> finishes s t.
Proof.
  induction m as [|m IH]; intros s v1 todo st L D V P; destruct todo as [|i todo]; try discriminate.
  - eapply (finish_rest s t _ 0%nat); [rewrite P; cbn [rstep_pc]; unfold ver_of in *; rewrite D, V; reflexivity|auto].
  - destruct (nth_error (vr_cols (v_rows s r)) i) as [c|] eqn:Ec.
    + eapply (finish_step s t 0%nat); [rewrite P; cbn [rstep_pc nth_error]; rewrite Ec; reflexivity|].
      eapply IH; [|exact D|exact V|apply set_pc]. cbn. injection L. auto.
    + eapply (finish_rest s t _ 0%nat); [rewrite P; cbn [rstep_pc nth_error]; rewrite Ec; reflexivity|auto].
Qed.
Lemma changed_refl v : rv_has_changed v v = false.
Proof. unfold rv_has_changed. now rewrite Z.eqb_refl. Qed.
Lemma copy_finishes' t f r n : forall m s v1 todo st, length todo = m -> rv_dirty (ver_of s r) = false ->
  v_rd s t = RCopy f r n v1 todo st -> finishes s t.
Proof.
  induction m as [|m IH]; intros s v1 todo st L D P; destruct todo as [|i todo]; try discriminate.
  - destruct (rv_has_changed v1 (ver_of s r)) eqn:V; [|eapply copy_finishes; eauto].
    eapply (finish_step s t 0%nat); [rewrite P; cbn [rstep_pc]; unfold ver_of in *; rewrite D, V; reflexivity|].
    eapply copy_finishes; [reflexivity|exact D|apply changed_refl|apply set_pc].
  - destruct (nth_error (vr_cols (v_rows s r)) i) as [c|] eqn:Ec.
    + eapply (finish_step s t 0%nat); [rewrite P; cbn [rstep_pc nth_error]; rewrite Ec; reflexivity|].
      eapply IH; [|exact D|apply set_pc]. cbn. injection L. auto.
    + eapply (finish_rest s t _ 0%nat); [rewrite P; cbn [rstep_pc nth_error]; rewrite Ec; reflexivity|auto].
Qed.
Lemma first_finishes t f r n s : rv_dirty (ver_of s r) = false -> v_rd s t = RFirst f r n -> finishes s t.
Proof.
  intros D P. eapply (finish_step s t 0%nat); [rewrite P; cbn [rstep_pc]; unfold ver_of in D; rewrite D; reflexivity|].
  eapply copy_finishes'; [reflexivity|exact D|apply set_pc].
Qed.
Lemma len_finishes t i r d s : v_rd s t = GLen i r d -> finishes s t.
Proof.
  intros P. destruct (nth_error (vr_cols (v_rows s r)) i) as [c|] eqn:E; [destruct (c =? 0) eqn:C|];
  (eapply (finish_rest s t _ 0%nat); [rewrite P; cbn [rstep_pc]; rewrite E; try rewrite C; reflexivity|auto]).
Qed.
Lemma data_finishes t i r s : v_rd s t = GData i r -> finishes s t.
Proof.
  intros P. destruct (nth_error (vr_cols (v_rows s r)) i) as [c|] eqn:E; [destruct (c =? 0) eqn:C|].
  - eapply (finish_rest s t _ 0%nat); [rewrite P; cbn [rstep_pc]; rewrite E, C; reflexivity|auto].
  - eapply (finish_step s t 0%nat); [rewrite P; cbn [rstep_pc]; rewrite E, C; reflexivity|]. eapply len_finishes. apply set_pc.
  - eapply (finish_rest s t _ 0%nat); [rewrite P; cbn [rstep_pc]; rewrite E; reflexivity|auto].
Qed.
Lemma test_finishes t i r s : v_rd s t = GTest i r -> finishes s t.
Proof.
  intros P. destruct (nth_error (vr_cols (v_rows s r)) i) as [c|] eqn:E; [destruct (c =? 0) eqn:C|].
  - eapply (finish_rest s t _ 0%nat); [rewrite P; cbn [rstep_pc]; rewrite E, C; reflexivity|auto].
  - eapply (finish_step s t 0%nat); [rewrite P; cbn [rstep_pc]; rewrite E, C; reflexivity|]. eapply data_finishes. apply set_pc.
  - eapply (finish_rest s t _ 0%nat); [rewrite P; cbn [rstep_pc]; rewrite E; reflexivity|auto].
Qed.

Lemma get_ends es s t : Forall ev_ok es -> vrun (v_init cols0) es = Some s -> v_w s = None -> finishes s t.
Proof.
  intros F R W. pose proof (run_J cols0 es s F R) as I.
  assert (CL : forall r, (r < v_next s)%nat -> rv_dirty (ver_of s r) = false).
  { intros r Hr. destruct (j_ver _ _ _ I r Hr) as [_ E]. destruct (rv_dirty (ver_of s r)); auto. destruct (proj1 E eq_refl) as (_ & ch & X). congruence. }
  pose proof (j_row _ _ _ I t) as Rw. unfold row_inv in Rw.
  destruct (v_rd s t) as [|f|f r n|f r n v1 todo st|f res|f|i|i r|i r|i r d|i d l|i] eqn:P;
    try (exists [], s; split; [reflexivity|rewrite P; reflexivity]).
  - eapply (finish_step s t 0%nat); [rewrite P; reflexivity|]. eapply first_finishes; [|apply set_pc]. apply CL. apply (j_cur _ _ _ I).
  - eapply first_finishes; eauto. apply CL. apply Rw.
  - eapply copy_finishes'; eauto. apply CL. apply Rw.
  - eapply (finish_step s t 0%nat); [rewrite P; reflexivity|]. eapply test_finishes. apply set_pc.
  - eapply test_finishes; eauto.
  - eapply data_finishes; eauto.
  - eapply len_finishes; eauto.
Qed.
End Ends.

(* 2^31 updates between the two looks at the version. *)
Definition wop2 : wop := WPut [(0%nat, 2); (1%nat, 2)].
Definition round : list vev := [EBegin wop2; EWriter; EWriter; EWriter; EWriter].
Fixpoint rounds (n : nat) : list vev := match n with O => [] | S n' => round ++ rounds n' end.

Lemma run_app s a b : vrun s (a ++ b) = match vrun s a with Some s' => vrun s' b | None => None end.
Proof. revert s. induction a as [|e a IH]; intros s; cbn; auto. destruct (vstep s e); auto. Qed.
Lemma round_run s ver x y : v_w s = None -> v_rows s (v_cur s) = MkVrow ver [x; y] ->
  exists s', vrun s round = Some s' /\ v_w s' = None /\ v_cur s' = v_cur s /\ v_rd s' = v_rd s /\
    v_rows s' (v_cur s) = MkVrow (rv_clearandbump (rv_setdirty ver)) [2; 2].
Proof.
  intros W R. eexists. split.
  - unfold round, wop2. cbn [vrun vstep]. rewrite W. cbn [vrun vstep]. unfold wstep at 1. cbn [v_w v_rows v_cur]. rewrite R. cbn [vr_cols vr_ver length ncol_of last fst Nat.ltb Nat.leb].
    cbn [vrun vstep]. unfold wstep at 1. cbn [v_w v_rows v_cur with_row]. rewrite !vset_same. cbn [vr_cols vr_ver lset].
    cbn [vrun vstep]. unfold wstep at 1. cbn [v_w v_rows v_cur with_row]. rewrite !vset_same. cbn [vr_cols vr_ver lset].
    cbn [vrun vstep]. unfold wstep at 1. cbn [v_w v_rows v_cur with_row]. rewrite !vset_same. cbn [vr_cols vr_ver lset]. reflexivity.
  - cbn. rewrite vset_same. auto.
Qed.
Lemma rounds_run : forall n s ver x y, v_w s = None -> v_rows s (v_cur s) = MkVrow ver [x; y] -> 0 <= ver < 2 ^ 31 ->
  exists s' ver' x' y', vrun s (rounds n) = Some s' /\ v_w s' = None /\ v_cur s' = v_cur s /\ v_rd s' = v_rd s /\
    v_rows s' (v_cur s) = MkVrow ver' [x'; y'] /\ 0 <= ver' < 2 ^ 31 /\ ver' = (ver + Z.of_nat n) mod 2 ^ 31.
Proof.
  induction n as [|n IH]; intros s ver x y W R B.
  - exists s, ver, x, y. cbn [rounds vrun]. rewrite Z.add_0_r, Z.mod_small by lia. repeat split; auto; lia.
  - destruct (round_run s ver x y W R) as (s1 & A1 & A2 & A3 & A4 & A5).
    assert (RG : 0 <= ver < 2 ^ 32) by lia. assert (CL : rv_dirty ver = false) by (unfold rv_dirty; apply Z.bits_above_log2; [lia|]; destruct (Z.eq_dec ver 0) as [->|]; [cbn; lia|apply Z.log2_lt_pow2; lia]).
    destruct (setdirty_clean ver RG CL) as (S1 & S2 & S3). destruct (clearandbump_ok _ S3) as (T1 & T2 & T3). rewrite S2 in T2.
    assert (V : rv_clearandbump (rv_setdirty ver) = (ver + 1) mod 2 ^ 31).
    { unfold rv_ctr in T2. rewrite (Z.mod_small ver) in T2 by lia. rewrite <- T2. symmetry. apply Z.mod_small.
      unfold rv_clearandbump. change (2 ^ 31 - 1) with (Z.ones 31). rewrite Z.land_ones by lia. apply Z.mod_pos_bound. lia. }
    rewrite V in A5. destruct (IH s1 ((ver + 1) mod 2 ^ 31) 2 2 A2) as (s' & ver' & x' & y' & B1 & B2 & B3 & B4 & B5 & B6 & B7).
    { rewrite A3. exact A5. } { apply Z.mod_pos_bound. lia. }
    exists s', ver', x', y'. cbn [rounds]. rewrite run_app, A1. repeat split; auto; try congruence; try lia.
Qed.
Lemma rounds_since t : forall n es, since t (es ++ rounds n) = since t es + Z.of_nat n.
Proof.
  induction n as [|n IH]; intros es; [cbn [rounds]; rewrite app_nil_r; lia|].
  cbn [rounds]. rewrite app_assoc, IH.
  change (es ++ round) with (es ++ [EBegin wop2] ++ [EWriter] ++ [EWriter] ++ [EWriter] ++ [EWriter]).
  rewrite !app_assoc, !since_snoc. cbn [starts is_begin]. lia.
Qed.
Lemma rounds_ok : forall n, Forall ev_ok (rounds n).
Proof. induction n as [|n IH]; [constructor|]. cbn [rounds]. apply Forall_app. split; auto. repeat constructor; cbn; try lia; discriminate. Qed.
Definition only2 (es : list vev) : Prop := forall o, In o (begun es) -> o = wop2.
Lemma begun_app a b : begun (a ++ b) = begun a ++ begun b.
Proof. unfold begun. apply flat_map_app. Qed.
Lemma rounds_only : forall n, only2 (rounds n).
Proof.
  induction n as [|n IH]; intros o H; [destruct H|]. cbn [rounds] in H. rewrite begun_app in H. apply in_app_iff in H. destruct H as [[<-|[]]|H]; auto.
Qed.
Lemma in_removelast {A} (x : A) : forall l, In x (removelast l) -> In x l.
Proof. induction l as [|y [|z l] IH]; intros H; [destruct H|destruct H|]. destruct H as [->|H]; [left|right]; auto. Qed.
Lemma value2 : forall os, (forall o, In o os -> o = wop2) -> forall v, v = [1; 1] \/ v = [2; 2] -> value v os = [1; 1] \/ value v os = [2; 2].
Proof.
  induction os as [|o os IH]; intros H v V; [exact V|]. unfold value in *. cbn [fold_left]. apply IH; [intros x Hx; apply H; right; auto|].
  rewrite (H o) by (left; auto). right. destruct V as [->| ->]; reflexivity.
Qed.

Definition before : list vev := [EGet 0 []; ERead 0 0; ERead 0 0; ERead 0 0].
Lemma torn n : Z.of_nat n + 1 = 2 ^ 31 ->
  exists es s res, Forall ev_ok es /\ vrun (v_init [1; 1]) es = Some s /\ v_rd s 0%nat = RDone [] res /\ since 0 es = 2 ^ 31 /\
    forall cols, was_value [1; 1] es 0 [] cols -> res <> answer [] cols.
Proof.
  intros Hn. set (mid := before ++ round ++ [ERead 0 0]).
  assert (M : exists s1, vrun (v_init [1; 1]) mid = Some s1 /\ v_w s1 = None /\ v_cur s1 = 0%nat /\ v_rows s1 0%nat = MkVrow 1 [2; 2] /\
    exists st, v_rd s1 0%nat = RCopy [] 0 2 0 [] st /\ st 0%nat = 1 /\ st 1%nat = 2).
  { eexists. split; [vm_compute; reflexivity|]. repeat split. eexists. split; [reflexivity|]. split; reflexivity. }
  destruct M as (s1 & M1 & M2 & M3 & M4 & st & M5 & M6 & M7).
  destruct (rounds_run n s1 1 2 2 M2) as (s2 & ver & x & y & R1 & R2 & R3 & R4 & R5 & R6 & R7); [rewrite M3; exact M4|lia|].
  assert (V0 : ver = 0) by (rewrite R7; replace (1 + Z.of_nat n) with (2 ^ 31) by lia; reflexivity).
  exists (mid ++ rounds n ++ [ERead 0 0]), (set_rd s2 0 (RDone [] [1; 2])), [1; 2].
  split; [|split; [|split; [|split]]].
  - apply Forall_app. split; [|apply Forall_app; split; [apply rounds_ok|repeat constructor]].
    unfold mid, before, round, wop2. repeat constructor; cbn; try lia; discriminate.
  - rewrite run_app, M1, run_app, R1. cbn [vrun vstep]. rewrite R4, M5. cbn [rstep_pc]. rewrite M3 in R5. rewrite R5, V0. cbn [vr_ver].
    change (rv_dirty 0) with false. change (rv_has_changed 0 0) with false. cbn [fields seq map]. rewrite M6, M7. reflexivity.
  - apply set_pc.
  - rewrite app_assoc, since_snoc. cbn [starts is_begin]. rewrite rounds_since. change (since 0 mid) with 1. lia.
  - intros cols (a & b & c & s & E & _ & _ & V) A. cbn [answer] in A.
    assert (O : forall o, In o (ended (a ++ EGet 0 [] :: b) s) -> o = wop2).
    { intros o Ho. assert (In o (begun (mid ++ rounds n ++ [ERead 0%nat 0%nat]))).
      { rewrite E. replace (a ++ EGet 0 [] :: b ++ c) with ((a ++ EGet 0 [] :: b) ++ c) by (rewrite <- app_assoc; reflexivity).
        rewrite begun_app. apply in_app_iff. left. unfold ended in Ho. destruct (v_w s); auto. apply in_removelast; auto. }
      rewrite !begun_app in H. apply in_app_iff in H. destruct H as [H|H]; [cbn in H; intuition|].
      apply in_app_iff in H. destruct H as [H|H]; [exact (rounds_only n o H)|destruct H]. }
    destruct (value2 _ O [1; 1] (or_introl eq_refl)) as [X|X]; rewrite X in V; subst cols; discriminate.
Qed.
Lemma wrap_witness : exists cols0 es s t f res, Forall ev_ok es /\ vrun (v_init cols0) es = Some s /\ v_rd s t = RDone f res /\ since t es = 2 ^ 31 /\
  forall cols, was_value cols0 es t f cols -> res <> answer f cols.
Proof.
  destruct (torn (Z.to_nat (2 ^ 31 - 1))) as (es & s & res & H); [rewrite Z2Nat.id; lia|]. exists [1; 1], es, s, 0%nat, [], res. exact H.
Qed.

(* run_get1 between the loads of one column; columns are never null. *)
Definition mix : list vev := [EGet1 0 0; ERead 0 0; ERead 0 0; ERead 0 0; EBegin (WPut [(0%nat, 7)]); EWriter; EWriter; EWriter; ERead 0 0].
Definition gone : list vev := [EGet1 0 0; ERead 0 0; ERead 0 0; EBegin (WPut [(0%nat, 0)]); EWriter; EWriter; EWriter; ERead 0 0].
Lemma mix_witness : exists cols0 es s t i d l, Forall ev_ok es /\ vrun (v_init cols0) es = Some s /\ v_rd s t = GDone i d l /\ d <> l.
Proof.
  exists [5], mix. eexists. exists 0%nat, 0%nat, 5, 7. split; [unfold mix; repeat constructor; cbn; try lia; discriminate|].
  split; [vm_compute; reflexivity|]. split; [reflexivity|lia].
Qed.
Lemma gone_witness : exists cols0 es s t i, Forall ev_ok es /\ vrun (v_init cols0) es = Some s /\ v_rd s t = GBad i.
Proof.
  exists [5], gone. eexists. exists 0%nat, 0%nat. split; [unfold gone; repeat constructor; cbn; try lia; discriminate|].
  split; [vm_compute; reflexivity|]. reflexivity.
Qed.
(* A get of one column the row does not have. *)
Definition past : list vev := [EGet 0 [3%nat]; ERead 0 0; ERead 0 0; ERead 0 0].
Lemma past_witness : exists cols0 es s t f, Forall ev_ok es /\ vrun (v_init cols0) es = Some s /\ v_rd s t = RBad f.
Proof.
  exists [5], past. eexists. exists 0%nat, [3%nat]. split; [unfold past; repeat constructor|]. split; [vm_compute; reflexivity|]. reflexivity.
Qed.

(* A get that meets an update half done and has to copy again. *)
Definition retry : list vev :=
  [EGet 0 []; ERead 0 0; ERead 0 0; ERead 0 0; EBegin wop2; EWriter; EWriter; EWriter; ERead 0 0; ERead 0 0; EWriter;
   ERead 0 0; ERead 0 1; ERead 0 0; ERead 0 0].
Lemma retry_ok : Forall ev_ok retry.
Proof. unfold retry, wop2. repeat constructor; cbn; try lia; discriminate. Qed.
