(* Scans of a table after any history. *)
From Coq Require Import Sorting.Sorted.
From Verif Require Import Lib Spec_String Spec_Map Spec_Scan M_Tree P_Tree1 P_Tree2 P_Tree3 P_Tree9 P_Tree9b M_Scan P_Scan1 P_Scan2 P_Scan3 P_Scan4.

Lemma last_write_in : forall ops k v, last_write ops k = Some (Some v) -> In (OPut k v) ops.
Proof.
  induction ops as [|o ops IH]; intros k v; cbn [last_write]; [discriminate|]. destruct (last_write ops k) as [w|] eqn:E.
  - intros [= ->]. right. auto.
  - destruct o as [k'|k' v'|k'|k'|i]; cbn [write_of]; try discriminate; destruct (key_eqb k k') eqn:Q; try discriminate.
    intros [= ->]. unfold key_eqb in Q. destruct (list_eq_dec Z.eq_dec k k'); [subst; now left|discriminate].
Qed.
Lemma present_run ops k : fst (map_run map_empty ops) k = present ops k.
Proof. rewrite map_run_last. unfold present. destruct (last_write ops k); auto. Qed.

Definition denum (d : sdir) : kmap -> list Z -> bool -> list (list Z * Z) -> Prop := match d with Fwd => enum_up | Rev => enum_down end.
Lemma lists_denum d m lo em L : lists d L (fun k v => m k = Some v /\ (dlex d lo k \/ (k = lo /\ em = true))) <-> denum d m lo em L.
Proof. destruct d; reflexivity. Qed.

Lemma dlex_irrefl d a : ~ dlex d a a.
Proof. destruct d; apply lex_lt_irrefl. Qed.
Lemma dlex_trans d a b c : dlex d a b -> dlex d b c -> dlex d a c.
Proof. destruct d; intros; eapply lex_lt_trans; eauto. Qed.
Lemma lists_unique d P : forall L1 L2, lists d L1 P -> lists d L2 P -> L1 = L2.
Proof.
  assert (G : forall L1 L2 : list event, dsorted d L1 -> dsorted d L2 -> (forall k v, In (k, v) L1 <-> In (k, v) L2) -> L1 = L2).
  { induction L1 as [|[k1 v1] L1 IH]; intros L2 S1 S2 E.
    - destruct L2 as [|[k v] L2]; auto. destruct (proj2 (E k v)). now left.
    - destruct L2 as [|[k2 v2] L2]. { destruct (proj1 (E k1 v1)). now left. }
      apply StronglySorted_inv in S1, S2. destruct S1 as [S1 F1], S2 as [S2 F2]. rewrite Forall_forall in F1, F2.
      assert (Q : (k1, v1) = (k2, v2)).
      { destruct (proj1 (E k1 v1) (or_introl eq_refl)) as [Q|Q]; auto. destruct (proj2 (E k2 v2) (or_introl eq_refl)) as [Q'|Q']; auto.
        apply F2 in Q. apply F1 in Q'. cbn [fst] in *. destruct (dlex_irrefl d k1). eapply dlex_trans; eauto. }
      injection Q as <- <-. f_equal. apply IH; auto. intros k v. split; intros X.
      + destruct (proj1 (E k v) (or_intror X)) as [[= <- <-]|Y]; auto. apply F1 in X. destruct (dlex_irrefl d k1). auto.
      + destruct (proj2 (E k v) (or_intror X)) as [[= <- <-]|Y]; auto. apply F2 in X. destruct (dlex_irrefl d k1). auto. }
  intros L1 L2 [A1 A2] [B1 B2]. apply G; auto. intros k v. rewrite A2, B2. tauto.
Qed.

Lemma scan_run ops d : Forall op_ok ops -> Forall (op_short maxkeylen) ops ->
  exists t, truns table_init ops = Ok (t, snd (map_run map_empty ops)) /\
  forall first em mem, bytes_ok first -> (length first <= keybuf_size)%nat -> length mem = keybuf_size ->
  exists L, denum d (present ops) first em L /\
    forall (A : Type) (vis : A -> list Z -> Z -> A * bool), exists N, forall fuel a, (N <= fuel)%nat ->
      tree_scan fuel (t_heap t) (t_root t) d first em mem vis a = Ok (visit_list vis a L).
Proof.
  intros F FS. destruct (table_run_layers ops F) as (t & g & A & R & LY). pose proof R as [R1 R2 R3 R4]. exists t. split; auto.
  intros first em mem Bf Lf Lm. rewrite Forall_forall in FS.
  assert (HM : forall k v, holds (t_heap t) g k v -> (length k <= maxkeylen)%nat).
  { intros k v Hh. apply R4 in Hh. rewrite present_run in Hh. unfold present in Hh. destruct (last_write ops k) as [w|] eqn:E; [subst w|discriminate].
    apply last_write_in in E. exact (FS _ E). }
  assert (HK : forall k v, holds (t_heap t) g k v -> (length k <= keybuf_size)%nat).
  { intros k v Hh. apply HM in Hh. unfold maxkeylen, keybuf_size in *. lia. }
  assert (HB : forall L, g_lay g L = Some L -> (length (g_pre g L) + 8 <= keybuf_size)%nat).
  { intros L HL. destruct (pre_mult8 _ _ R1 _ L (le_n _) HL) as (c & Ec). destruct (LY L HL) as [->|(o & r & Io & Eo & Nr)].
    - rewrite (proj2 (iv_l0 _ _ R1)). unfold keybuf_size. cbn [length]. lia.
    - specialize (FS o Io). destruct r as [|x r]; [congruence|].
      assert (Q : (length (op_key o) <= maxkeylen)%nat) by (destruct o; cbn [op_key op_short length] in *; auto; lia).
      rewrite Eo, app_length in Q. cbn [length] in Q. unfold maxkeylen, keybuf_size in *. lia. }
  destruct (scan_ok (t_heap t) g d em R1 HB HK HM (t_root t) first mem R2 Bf Lf Lm) as (L & L1 & L2). exists L. split; auto.
  apply lists_denum. eapply lists_ext; [exact L1|]. intros k v. cbv beta. rewrite R4, present_run. tauto.
Qed.

Lemma c04_scan ops start em mem : Forall op_ok ops -> Forall (op_short maxkeylen) ops -> bytes_ok start -> (length start <= keybuf_size)%nat -> length mem = keybuf_size ->
  exists t rs L, truns table_init ops = Ok (t, rs) /\ enum_up (present ops) start em L /\
  forall (A : Type) (vis : A -> list Z -> Z -> A * bool), exists N, forall fuel a, (N <= fuel)%nat ->
    tree_scan fuel (t_heap t) (t_root t) Fwd start em mem vis a = Ok (visit_list vis a L).
Proof.
  intros F FS B1 B2 B3. destruct (scan_run ops Fwd F FS) as (t & A & S). destruct (S start em mem B1 B2 B3) as (L & S1 & S2). eauto 10.
Qed.
Lemma c05_rscan ops start em mem : Forall op_ok ops -> Forall (op_short maxkeylen) ops -> bytes_ok start -> (length start <= keybuf_size)%nat -> length mem = keybuf_size ->
  exists t rs L, truns table_init ops = Ok (t, rs) /\ enum_down (present ops) start em L /\
  forall (A : Type) (vis : A -> list Z -> Z -> A * bool), exists N, forall fuel a, (N <= fuel)%nat ->
    tree_scan fuel (t_heap t) (t_root t) Rev start em mem vis a = Ok (visit_list vis a L).
Proof.
  intros F FS B1 B2 B3. destruct (scan_run ops Rev F FS) as (t & A & S). destruct (S start em mem B1 B2 B3) as (L & S1 & S2). eauto 10.
Qed.

(* Operations that write nothing do not change what any scan reports. *)
Lemma last_write_app a b k : last_write (a ++ b) k = match last_write b k with Some w => Some w | None => last_write a k end.
Proof. induction a as [|o a IH]; cbn [app last_write]; [destruct (last_write b k); auto|]. rewrite IH. destruct (last_write b k); auto. Qed.
Lemma c07_scan ops1 o ops2 d : Forall op_ok (ops1 ++ o :: ops2) -> Forall (op_short maxkeylen) (ops1 ++ o :: ops2) -> quiet_op o ->
  exists t t' rs rs', truns table_init (ops1 ++ o :: ops2) = Ok (t, rs) /\ truns table_init (ops1 ++ ops2) = Ok (t', rs') /\
  forall start em mem (A : Type) (vis : A -> list Z -> Z -> A * bool), bytes_ok start -> (length start <= keybuf_size)%nat -> length mem = keybuf_size ->
  exists N, forall fuel a, (N <= fuel)%nat -> exists r,
    tree_scan fuel (t_heap t) (t_root t) d start em mem vis a = Ok r /\ tree_scan fuel (t_heap t') (t_root t') d start em mem vis a = Ok r.
Proof.
  intros F FS Q. assert (D : forall P : top -> Prop, Forall P (ops1 ++ o :: ops2) -> Forall P (ops1 ++ ops2)).
  { intros P H. apply Forall_app in H. destruct H as [H1 H2]. inversion H2; subst. apply Forall_app. auto. }
  destruct (scan_run _ d F FS) as (t & A & S). destruct (scan_run _ d (D _ F) (D _ FS)) as (t' & A' & S').
  exists t, t'. eexists. eexists. split; [exact A|]. split; [exact A'|]. intros start em mem T vis B1 B2 B3.
  destruct (S start em mem B1 B2 B3) as (L & S1 & S2). destruct (S' start em mem B1 B2 B3) as (L' & S1' & S2').
  assert (E : L = L').
  { apply lists_denum in S1, S1'. eapply lists_unique; [exact S1|]. eapply lists_ext; [exact S1'|]. intros k v. cbv beta.
    assert (P : present (ops1 ++ o :: ops2) k = present (ops1 ++ ops2) k).
    { unfold present. rewrite !last_write_app. cbn [last_write]. destruct (last_write ops2 k); auto. destruct o; cbn in Q |- *; tauto. }
    rewrite P. tauto. }
  subst L'. destruct (S2 T vis) as (N & HN). destruct (S2' T vis) as (N' & HN'). exists (N + N')%nat. intros fuel a Hf. exists (visit_list vis a L).
  split; [apply HN|apply HN']; lia.
Qed.
