(* Consequences of the refinement, in the form the property theorems use. *)
From Verif Require Import Lib Spec_String Spec_Map M_Key P_Key M_Permuter M_Search M_Tree P_Tree1 P_Tree2 P_Tree3 P_Tree4 P_Tree6 P_Tree6d P_Tree6f P_Tree7e P_Tree8b P_Tree9.

Lemma map_run_app : forall a b m, map_run m (a ++ b) = (fst (map_run (fst (map_run m a)) b), snd (map_run m a) ++ snd (map_run (fst (map_run m a)) b)).
Proof.
  induction a as [|o a IH]; intros b m; cbn [map_run app fst snd]; [destruct (map_run m b); auto|].
  rewrite IH. destruct (map_run (map_after m o) a) as [m1 r1]. cbn [fst snd]. destruct (map_run m1 b); auto.
Qed.
Lemma truns_app : forall a b t, truns t (a ++ b) = ('(t1, r1) <- truns t a ;; '(t2, r2) <- truns t1 b ;; Ok (t2, r1 ++ r2)).
Proof.
  induction a as [|o a IH]; intros b t; cbn [truns app bind].
  - destruct (truns t b) as [[t2 r2]|]; auto.
  - destruct (tstep t o) as [[t1 r]|]; cbn [bind]; auto. rewrite IH. destruct (truns t1 a) as [[t2 r2]|]; cbn [bind]; auto. destruct (truns t2 b) as [[t3 r3]|]; auto.
Qed.

Lemma map_run_last : forall ops m k, fst (map_run m ops) k = match last_write ops k with Some o => o | None => m k end.
Proof.
  induction ops as [|o ops IH]; intros m k; cbn [map_run last_write]; auto.
  specialize (IH (map_after m o) k). destruct (map_run (map_after m o) ops) as [m' rs]. cbn [fst] in *. rewrite IH. destruct (last_write ops k); auto.
  destruct o as [k0|k0 v|k0|k0|i]; cbn [map_after write_of]; auto; unfold map_set; destruct (key_eqb k k0); auto.
Qed.

Lemma table_run ops : Forall op_ok ops -> exists t g, truns table_init ops = Ok (t, snd (map_run map_empty ops)) /\ trep t g (fst (map_run map_empty ops)).
Proof. intros F. destruct (truns_ok ops table_init g_init map_empty init_ok F) as (t & g & A & B & _). eauto. Qed.
(* The same, with the prefixes of the layers. *)
Lemma table_run_layers ops : Forall op_ok ops -> exists t g, truns table_init ops = Ok (t, snd (map_run map_empty ops)) /\ trep t g (fst (map_run map_empty ops)) /\ forall L, g_lay g L = Some L -> L = 0%nat \/ exists o r, In o ops /\ op_key o = g_pre g L ++ r /\ r <> [].
Proof.
  intros F. destruct (truns_ok ops table_init g_init map_empty init_ok F) as (t & g & A & B & C). exists t, g. split; auto. split; auto.
  intros L H. destruct (C L H) as [[D _]|D]; auto. left. cbn in D. destruct (Nat.eqb_spec L 0); [auto|discriminate].
Qed.

Lemma c01_map ops : Forall op_ok ops -> exists t, truns table_init ops = Ok (t, snd (map_run map_empty ops)).
Proof. intros F. destruct (table_run ops F) as (t & g & A & _). eauto. Qed.

Lemma c01_lookup ops k : Forall op_ok ops -> bytes_ok k ->
  exists t rs, truns table_init ops = Ok (t, rs) /\ tstep t (OGet k) = Ok (t, present ops k).
Proof.
  intros F Hk. destruct (table_run ops F) as (t & g & A & R). exists t, (snd (map_run map_empty ops)). split; auto.
  destruct R as [R1 R2 R3 R4]. destruct (tree_get_ok _ _ R1 k (t_root t) Hk R2) as (o & B & C). cbn [tstep]. rewrite B. cbn [bind].
  assert (E : o = fst (map_run map_empty ops) k). { destruct o as [v|]; [symmetry; apply R4, C; auto|]. destruct (fst (map_run map_empty ops) k) as [v|] eqn:Q; auto. apply R4, C in Q. auto. }
  rewrite E, map_run_last. unfold present. destruct (last_write ops k); auto.
Qed.

Lemma c01_frame ops o k : Forall op_ok ops -> op_ok o -> bytes_ok k -> write_of o k = None ->
  exists t t' rs r, truns table_init ops = Ok (t, rs) /\ tstep t o = Ok (t', r) /\ tree_get (t_heap t') (t_root t') k = tree_get (t_heap t) (t_root t) k.
Proof.
  intros F Ho Hk W. destruct (table_run ops F) as (t & g & A & R). destruct (tstep_ok t g _ o R Ho) as (t' & g' & B & R' & _). exists t, t', (snd (map_run map_empty ops)), (map_reports (fst (map_run map_empty ops)) o). split; auto. split; auto.
  destruct R as [R1 R2 R3 R4], R' as [Q1 Q2 Q3 Q4]. destruct (tree_get_ok _ _ R1 k (t_root t) Hk R2) as (o1 & B1 & C1). destruct (tree_get_ok _ _ Q1 k (t_root t') Hk Q2) as (o2 & B2 & C2). rewrite B1, B2. f_equal. symmetry.
  set (m := fst (map_run map_empty ops)) in *. assert (E : map_after m o k = m k).
  { destruct o as [k0|k0 v|k0|k0|i]; cbn [map_after write_of] in *; auto; unfold map_set; destruct (key_eqb k k0); auto; discriminate. }
  assert (X : forall v, o1 = Some v <-> o2 = Some v) by (intros v; rewrite C1, C2, R4, Q4, E; tauto). destruct o2 as [v|]; [apply X; auto|]. destruct o1 as [v|]; auto. symmetry. apply X. auto.
Qed.

Lemma c02_found ops k : Forall op_ok ops -> bytes_ok k ->
  exists t rs h cu found, truns table_init ops = Ok (t, rs) /\
    (t1 <- fix_root t ;; find_insert (S (length k)) (t_heap t1) (t_root t1) k) = Ok (h, cu, found) /\
    (found = true <-> present ops k <> None) /\ (found = true -> exists v, cursor_value h cu = Ok v /\ present ops k = Some v).
Proof.
  intros F Hk. destruct (table_run ops F) as (t & g & A & R). destruct (fix_root_ok t g _ R) as (t1 & E1 & [R1 R2 R3 R4] & _).
  destruct (find_insert_ok _ _ k (t_root t1) (S (length k)) R1 Hk R2) as (h1 & cu & b & F1 & F2); [lia|]. exists t, (snd (map_run map_empty ops)), h1, cu, b.
  split; auto. rewrite E1. cbn [bind]. split; auto. assert (PR : present ops k = fst (map_run map_empty ops) k) by (rewrite map_run_last; unfold present; destruct (last_write ops k); auto). rewrite PR. destruct b.
  - destruct F2 as (L & s & l & p & v0 & G1 & G2 & G3 & G4 & G5 & G6 & G7). apply R4 in G7. rewrite G7. split; [split; congruence|]. intros _.
    destruct (replace_ok h1 g k cu L s l p 0 G1 G4 Hk G5) as (h2 & _ & _ & _ & _ & (w & H5 & H6) & _); [lia|]. exists w. split; auto. apply G2, R4 in H6. congruence.
  - destruct F2 as (G1 & G2 & _). split; [|discriminate]. split; [discriminate|]. intros N. destruct (fst (map_run map_empty ops) k) as [v|] eqn:Q; [|contradiction]. apply R4 in Q. destruct (G2 v Q).
Qed.
Lemma c02_locked ops k : Forall op_ok ops -> bytes_ok k ->
  exists t rs h cu, truns table_init ops = Ok (t, rs) /\
    (t1 <- fix_root t ;; find_locked (S (length k)) (t_heap t1) (t_root t1) (t_root t1) (key_make k)) = Ok (h, cu) /\
    (cu_state cu <> 0 <-> present ops k <> None) /\ (cu_state cu <> 0 -> exists v, cursor_value h cu = Ok v /\ present ops k = Some v).
Proof.
  intros F Hk. destruct (table_run ops F) as (t & g & A & R). destruct (fix_root_ok t g _ R) as (t1 & E1 & [R1 R2 R3 R4] & _).
  destruct (find_locked_ok k (t_root t1) g Hk (S (length k)) (t_heap t1) 0%nat k (key_make k) (t_root t1) R1) as (h1 & cu & L & s & l & A1 & A2 & A3 & A4 & A5 & A6 & J); auto.
  { constructor. } { rewrite (proj2 (iv_l0 _ _ R1)). apply key_make_rep. } { apply at_root_0. auto. }
  exists t, (snd (map_run map_empty ops)), h1, cu. split; auto. rewrite E1. cbn [bind]. split; auto.
  assert (PR : present ops k = fst (map_run map_empty ops) k) by (rewrite map_run_last; unfold present; destruct (last_write ops k); auto). rewrite PR. set (m := fst (map_run map_empty ops)) in *.
  pose proof (lc_state _ _ _ _ _ _ _ J) as ST. assert (NO : cu_state cu = 0 -> (forall v, ~ holds h1 g k v) -> (cu_state cu <> 0 <-> m k <> None) /\ (cu_state cu <> 0 -> exists v, cursor_value h1 cu = Ok v /\ m k = Some v)).
  { intros S0 NH. split; [|contradiction]. split; [contradiction|]. intros N. destruct (m k) as [v|] eqn:Q; [|contradiction]. apply R4, A3 in Q. destruct (NH v Q). }
  destruct (cu_p cu) as [p|] eqn:Ep; [|apply NO; tauto]. destruct ST as [LV [(E & _ & _ & NH)|(S1 & S2 & S3 & v0 & S4 & S5)]]; [apply NO; auto|].
  assert (Q : m k = Some v0) by (apply R4, A3, S5; auto). rewrite Q. split; [split; [congruence|lia]|]. intros _. exists v0. split; auto. unfold cursor_value. rewrite Ep. cbn [deref bind]. rewrite (hleaf_some _ _ _ (lc_leaf _ _ _ _ _ _ _ J)). cbn [bind]. rewrite S4. reflexivity.
Qed.

(* Dropping the operations of a kind that does not write leaves every other result as it was. *)
Definition quiet_op (o : top) : Prop := match o with OGet _ | OAbandon _ | OGc _ => True | _ => False end.
Lemma c_invisible ops1 o ops2 : Forall op_ok (ops1 ++ o :: ops2) -> quiet_op o ->
  exists t t' rs1 r rs2, truns table_init (ops1 ++ o :: ops2) = Ok (t, rs1 ++ r :: rs2) /\ length rs1 = length ops1 /\ truns table_init (ops1 ++ ops2) = Ok (t', rs1 ++ rs2).
Proof.
  intros F Q. assert (F1 : Forall op_ok (ops1 ++ ops2)). { apply Forall_app in F. destruct F as [A B]. inversion B; subst. apply Forall_app. auto. }
  destruct (table_run _ F) as (t & g & A & _). destruct (table_run _ F1) as (t' & g' & A' & _). rewrite map_run_app in A, A'. cbn [snd] in A, A'. set (m := fst (map_run map_empty ops1)) in *.
  assert (E : map_after m o = m) by (destruct o; cbn in *; tauto). cbn [map_run] in A. rewrite E in A. destruct (map_run m ops2) as [m2 r2] eqn:E2. cbn [snd] in *.
  exists t, t', (snd (map_run map_empty ops1)), (map_reports m o), r2. split; auto. split; auto.
  clear. generalize map_empty. induction ops1 as [|x ops IH]; intros m; cbn [map_run]; auto. specialize (IH (map_after m x)). destruct (map_run (map_after m x) ops). cbn in *. auto.
Qed.

Lemma c07_any_prefix ops prefix ops2 : Forall op_ok ops -> bytes_ok prefix -> Forall op_ok ops2 ->
  exists t rs h gc t1 t2 rs2, truns table_init ops = Ok (t, rs) /\ run_gc (t_heap t) (t_root t, prefix) = Ok (h, gc) /\
    truns t ops2 = Ok (t1, rs2) /\ truns (MkTable h (t_root t) (t_gc t ++ gc)) ops2 = Ok (t2, rs2).
Proof.
  intros F Hp F2. destruct (table_run ops F) as (t & g & A & R). pose proof R as [R1 R2 R3 R4]. destruct (run_gc_ok (t_heap t) g (t_root t, prefix) R1 R2 Hp) as (h & gc & g1 & B1 & B2 & B3 & B4 & B5 & _).
  assert (R' : trep (MkTable h (t_root t) (t_gc t ++ gc)) g1 (fst (map_run map_empty ops))).
  { constructor; cbn; auto. - intros it Hit. apply in_app_iff in Hit. destruct Hit as [Hit|Hit]; auto. destruct (R3 it Hit). auto. - intros k v. rewrite B3. apply R4. }
  destruct (truns_ok ops2 _ _ _ R F2) as (t1 & ? & C1 & _). destruct (truns_ok ops2 _ _ _ R' F2) as (t2 & ? & C2 & _).
  exists t, (snd (map_run map_empty ops)), h, gc, t1, t2, (snd (map_run (fst (map_run map_empty ops)) ops2)). auto.
Qed.
Lemma c02_reports ops o : Forall op_ok (ops ++ [o]) -> exists t t' rs, truns table_init ops = Ok (t, rs) /\ tstep t o = Ok (t', map_reports (present ops) o).
Proof.
  intros F. apply Forall_app in F. destruct F as [F1 F2]. inversion F2 as [|? ? F3 _]; subst. destruct (table_run ops F1) as (t & g & A & R). destruct (tstep_ok t g _ o R F3) as (t' & g' & B & _).
  exists t, t', (snd (map_run map_empty ops)). split; auto. rewrite B. f_equal. f_equal. assert (E : forall k, fst (map_run map_empty ops) k = present ops k) by (intros k; rewrite map_run_last; unfold present; destruct (last_write ops k); auto).
  destruct o; cbn; auto.
Qed.
Lemma c08_total ops : Forall op_ok ops -> exists t rs, truns table_init ops = Ok (t, rs).
Proof. intros F. destruct (c01_map ops F) as (t & A). eauto. Qed.
