(* Removal, part 2: the redirect loop. *)
From Verif Require Import Lib M_Key M_Permuter M_Search P_Search M_Tree P_Tree1 P_Tree2 P_Tree4 P_Tree5 P_Tree7.

Lemma in_upper_same i i' x : keys_inc i -> in_nkeys i' = in_nkeys i -> (forall j, (j < in_nkeys i)%nat -> in_keys i' j = in_keys i j) -> in_upper i' x = in_upper i x.
Proof.
  intros A B C. destruct (in_upper_spec i x A) as (k & E & K1 & K2 & K3). rewrite E. apply in_upper_unique.
  - intros a b H. rewrite B in H. rewrite !C by lia. apply A. auto.
  - lia.
  - intros j Hj. rewrite C by lia. auto.
  - intros j Hj. rewrite B in Hj. rewrite C by lia. auto.
Qed.
Lemma ksame_ext f f' i i' : ksame f i i' -> (forall j, (j < in_nkeys i)%nat -> f (in_keys i j) = f' (in_keys i j)) -> ksame f' i i'.
Proof. intros [A B C D E F G] H. constructor; auto. intros j Hj. rewrite G, H; auto. Qed.
Lemma ksame_id i : ksame id_z i i. Proof. constructor; auto. Qed.
Lemma nsame_id nd : nsame id_z nd nd. Proof. destruct nd; cbn; auto using ksame_id. Qed.

(* Only internode keys change. *)
Record kc (i i' : inode) : Prop := { kc_n : in_nkeys i' = in_nkeys i; kc_p : in_parent i' = in_parent i; kc_h : in_height i' = in_height i; kc_d : in_deleted i' = in_deleted i;
  kc_r : in_root i' = in_root i; kc_c : in_child i' = in_child i }.
Definition keychg (h h' : heap) : Prop := hp_next h' = hp_next h /\
  forall m, hp_node h' m = hp_node h m \/ exists i i', hp_node h m = Some (NInter i) /\ hp_node h' m = Some (NInter i') /\ kc i i'.
Lemma keychg_refl h : keychg h h. Proof. split; auto. Qed.
Lemma keychg_trans h1 h2 h3 : keychg h1 h2 -> keychg h2 h3 -> keychg h1 h3.
Proof.
  intros [A B] [C D]. split; [congruence|]. intros m. destruct (B m) as [E|(i & i' & E1 & E2 & E3)], (D m) as [F|(j & j' & F1 & F2 & F3)].
  - left. congruence.
  - right. exists j, j'. rewrite <- E. auto.
  - right. exists i, i'. rewrite F. auto.
  - right. exists i, j'. split; auto. split; auto. assert (j = i') by congruence. subst j. destruct E3, F3. constructor; congruence.
Qed.

Lemma bnd_key' g p i k : (0 < k <= in_nkeys i)%nat -> bnd g p i k = in_keys i (k - 1)%nat.
Proof. intros H. replace k with (S (k - 1)) at 1 by lia. apply bnd_key. lia. Qed.
Section Keys.
Context (h : heap) (g : ghost) (L q pp k : nat) (nq : node) (ip : inode).
Hypothesis HS : SL h g (noexc g) L.
Hypothesis HC : childof h g L q nq pp ip k.

(* Who else can hold q's lower bound as a key: internodes below q, or above q's parent when the bound is the parent's too. *)
Lemma key_elsewhere m i j : g_lay g m = Some L -> hp_node h m = Some (NInter i) -> (j < in_nkeys i)%nat -> in_keys i j = g_lo g q -> m <> pp ->
  (in_height i <= ht nq)%nat \/ (in_height ip < in_height i)%nat /\ g_lo g pp = g_lo g q.
Proof.
  intros Hm Em Hj Ek Nm. pose proof HC as [Hq Eq Hpp Epp Hk Ec]. pose proof (sl_inter _ _ _ _ HS m i Hm Em (fun f => f)) as OK.
  destruct (child_some h g (noexc g) L m i (nd_lt HS) OK (S j) ltac:(lia) ltac:(lia)) as (cm & Ecm).
  assert (X : exists ncm, childof h g L cm ncm m i (S j)).
  { pose proof OK as (_ & _ & C). specialize (C (S j) ltac:(lia)). unfold child_ok in C. rewrite Ecm in C. destruct C as (C1 & (nc & C2 & _) & _). exists nc. constructor; auto; lia. }
  destruct X as (ncm & HC2). destruct (nd_child HS HC2) as (PM & HM & LM & _). rewrite bnd_key in LM by lia. rewrite Ek in LM.
  destruct (nd_child HS HC) as (PQ & HQ & _). set (y := g_lo g q) in *.
  pose proof (nd_lt HS q Hq). pose proof (co_n _ _ _ _ _ _ _ _ HC2) as Hcm. pose proof (nd_lt HS cm Hcm). pose proof (nd_in HS HC) as INq. pose proof (nd_in HS HC2) as INm.
  assert (NE : cm <> q). { intros ->. destruct (nd_only HS HC m i (S j) Hm Em ltac:(lia) Ecm). congruence. }
  pose proof (nd_dstep HS HC y ltac:(unfold y in *; lia)) as DSq. pose proof (nd_dstep HS HC2 y ltac:(lia)) as DSm.
  destruct (two_paths h g L y cm pp HS Hcm ltac:(lia) Hpp ltac:(unfold y in *; lia)) as [P|P].
  - destruct (path_down h g L HS y cm pp Hcm ltac:(lia) P) as (_ & _ & A & _ & na & nb & B1 & B2 & B3 & _). right.
    rewrite (co_en _ _ _ _ _ _ _ _ HC2) in B1. inversion B1; subst na. rewrite Epp in B2. inversion B2; subst nb. cbn in B3. split; [lia|]. unfold y in *. lia.
  - inversion P as [? EQ|? c2 ? S1 P1]; subst.
    + (* cm = pp *) right. rewrite (co_en _ _ _ _ _ _ _ _ HC2) in Epp. inversion Epp; subst ncm. cbn in HM. split; [lia|auto].
    + assert (c2 = q) by exact (dstep_det _ _ _ _ _ S1 DSq). subst c2. left.
      (* q above cm, and m is cm's parent *)
      destruct (two_paths h g L y q m HS Hq ltac:(unfold y in *; lia) Hm ltac:(lia)) as [Q|Q].
      * destruct (path_down h g L HS y q m Hq ltac:(unfold y in *; lia) Q) as (_ & _ & _ & _ & na & nb & B1 & B2 & B3 & _).
        rewrite Eq in B1. inversion B1; subst na. rewrite Em in B2. inversion B2; subst nb. exact B3.
      * inversion Q as [? EQ|? c3 ? S3 P3]; subst.
        -- rewrite Em in Eq. inversion Eq; subst nq. cbn. lia.
        -- assert (c3 = cm) by exact (dstep_det _ _ _ _ _ S3 DSm). subst c3. exfalso.
           destruct (path_down h g L HS y q cm Hq ltac:(unfold y in *; lia) P1) as (_ & _ & _ & _ & na & nb & B1 & B2 & B3 & B4).
           destruct (path_down h g L HS y cm q Hcm ltac:(lia) P3) as (_ & _ & _ & _ & na' & nb' & B1' & B2' & B3' & B4'). specialize (B4 ltac:(congruence)). specialize (B4' NE). 
           assert (na' = nb) by congruence. assert (nb' = na) by congruence. subst. lia.
Qed.
End Keys.

Section Redirect.
Context (h0 : heap) (g : ghost) (L : nat) (nbot : node) (X : nat -> Prop) (y0 r ik : Z).
Hypothesis HS : SL h0 g (noexc g) L.
Hypothesis HX : forall m nd, X m -> hp_node h0 m = Some nd -> (ht nd <= ht nbot)%nat.
Hypothesis Hpos : 0 < y0.
Hypothesis Hik : y0 <= ik.
Let f := sig y0 r.
Definition rfun (q m : node) : Z -> Z := if (ht m <=? ht q)%nat then f else id_z.
Definition rinv (h : heap) (nq : node) : Prop := forall m nd, g_lay g m = Some L -> ~ X m -> hp_node h0 m = Some nd -> exists nd', hp_node h m = Some nd' /\ nsame (rfun nq nd) nd nd'.

Lemma redirect_ok : forall fuel h q nq iq nr, g_lay g q = Some L -> hp_node h0 q = Some nq -> hp_node h q = Some (NInter iq) -> in_parent iq = n_parent nq ->
  (ht nbot <= ht nq)%nat -> g_lo g q = y0 -> ik < g_hi g q -> rinv h nq -> hp_node h0 (g_root g L) = Some nr -> (ht nr - ht nq < fuel)%nat ->
  exists h', redirect fuel h q ik r = Ok h' /\ keychg h h' /\ (forall m, g_lay g m <> Some L \/ X m -> hp_node h' m = hp_node h m) /\
    forall m nd, g_lay g m = Some L -> ~ X m -> hp_node h0 m = Some nd -> exists nd', hp_node h' m = Some nd' /\ nsame f nd nd'.
Proof.
  induction fuel as [|fu IH]; intros h q nq iq nr Hq Eq0 Eq Pq Hb Lq Hi K Er Hf; [lia|].
  destruct (root_bounds h0 g L HS) as [RB _]. assert (NR : q <> g_root g L) by (intros ->; lia).
  destruct (linked_child h0 g L q nq HS Hq Eq0 NR) as (pp & ip & k & A & B & C & D & E).
  assert (HC : childof h0 g L q nq pp ip k) by (constructor; auto). destruct (nd_child HS HC) as (_ & HQ & LQ & UQ). pose proof (nd_ok HS HC) as OK.
  assert (NX : ~ X pp). { intros F. specialize (HX pp _ F C). cbn in HX. lia. }
  destruct (K pp _ B NX C) as (nd' & E1 & E2). unfold rfun in E2. cbn [ht] in E2. destruct (Nat.leb_spec (in_height ip) (ht nq)); [lia|].
  destruct nd' as [|ip1]; [contradiction|]. cbn in E2. pose proof (inter_keys_inc h0 g (noexc g) L pp ip (nd_lt HS) OK) as KI.
  assert (UP : in_upper ip1 ik = Ok k).
  { rewrite (in_upper_same ip ip1 ik KI (ks_n _ _ _ E2) (ks_k _ _ _ E2)). apply (inter_upper_at h0 g (noexc g) L pp ip (nd_lt HS) OK); auto. lia. }
  cbn [redirect]. unfold hinter at 1. rewrite (hget_some _ _ _ Eq). cbn [bind]. rewrite Pq, A. cbn [deref bind]. unfold hinter at 1. rewrite (hget_some _ _ _ E1). cbn [bind].
  rewrite UP. cbn [bind]. rewrite (ks_c _ _ _ E2) by auto. rewrite E, Nat.eqb_refl. cbn [ensure bind].
  set (ip2 := if (0 <? k)%nat then in_set_key (k - 1) r ip1 else ip1).
  assert (KS : ksame f ip ip2 /\ kc ip1 ip2).
  { unfold ip2. destruct (Nat.ltb_spec 0 k) as [K0|K0].
    - split; [|constructor; reflexivity]. destruct E2 as [X1 X2 X3 X4 X5 X6 X7]. constructor; auto. intros j Hj. cbn [in_set_key in_keys]. rewrite bnd_key' in LQ by lia.
      destruct (Nat.eq_dec j (k - 1)) as [->|Nj].
      + rewrite upd_same. rewrite <- LQ, Lq. unfold f. now rewrite sig_eq.
      + rewrite upd_other by auto. rewrite X7 by auto. unfold f, id_z. symmetry. apply sig_ne. rewrite <- Lq, LQ. intros EE.
        destruct (lt_dec j (k - 1)) as [L1|L1]; [pose proof (KI j (k - 1)%nat ltac:(lia))|pose proof (KI (k - 1)%nat j ltac:(lia))]; lia.
    - split; [|constructor; reflexivity]. apply (ksame_ext id_z); auto. intros j Hj. unfold f, id_z. symmetry. apply sig_ne. assert (k = 0%nat) by lia. subst k.
      pose proof (bnd_mono h0 g (noexc g) L pp ip (nd_lt HS) OK 1 (S j) ltac:(lia) ltac:(lia)) as M. rewrite (bnd_key g pp ip j) in M by lia. lia. }
  destruct KS as [KS1 KS2].
  set (h1 := hset h pp (NInter ip2)).
  assert (KC1 : keychg h h1).
  { split; [reflexivity|]. intros m. unfold h1. destruct (Nat.eq_dec m pp) as [->|N]; [right; exists ip1, ip2; rewrite hset_same; auto|left; now rewrite hset_other]. }
  assert (FR1 : forall m, g_lay g m <> Some L \/ X m -> hp_node h1 m = hp_node h m).
  { intros m Hm. unfold h1. rewrite hset_other; auto. intros ->. tauto. }
  assert (LOpp : (k =? 0)%nat || (k =? 1)%nat && (match in_child ip2 0 with None => true | Some _ => false end) = true -> g_lo g pp = y0).
  { intros EB. apply orb_prop in EB. destruct EB as [EB|EB].
    - apply Nat.eqb_eq in EB. subst k. rewrite bnd_0 in LQ. lia.
    - apply andb_prop in EB. destruct EB as [EB1 EB2]. apply Nat.eqb_eq in EB1. subst k. rewrite (kc_c _ _ KS2), (ks_c _ _ _ E2) in EB2 by lia.
      pose proof OK as (_ & _ & CC). specialize (CC 0%nat ltac:(lia)). unfold child_ok in CC. destruct (in_child ip 0%nat); [discriminate|].
      destruct CC as (_ & _ & CC & _). rewrite (bnd_key g pp ip 0) in LQ by lia. lia. }
  assert (GTpp : (k =? 0)%nat || (k =? 1)%nat && (match in_child ip2 0 with None => true | Some _ => false end) = false -> g_lo g pp < y0).
  { intros EB. apply orb_false_iff in EB. destruct EB as [EB1 EB2]. apply Nat.eqb_neq in EB1. rewrite (kc_c _ _ KS2), (ks_c _ _ _ E2) in EB2 by lia.
    rewrite <- Lq, LQ, <- (bnd_0 g pp ip). pose proof (bnd_step h0 g (noexc g) L pp ip (nd_lt HS) OK 0 ltac:(lia)) as [M0 M0s].
    destruct (Nat.eq_dec k 1) as [->|N1].
    - cbn [Nat.eqb andb] in EB2. destruct (in_child ip 0%nat) as [c|] eqn:Ec; [|discriminate]. exact (M0s c eq_refl).
    - rewrite (bnd_key g pp ip 0) in M0 by lia. rewrite (bnd_key' g pp ip k) by lia. pose proof (KI 0%nat (k - 1)%nat ltac:(lia)). lia. }
  destruct ((k =? 0)%nat || (k =? 1)%nat && (match in_child ip2 0 with None => true | Some _ => false end)) eqn:EB.
  - specialize (LOpp eq_refl). pose proof (nd_in HS HC) as IN.
    destruct (IH h1 pp (NInter ip) ip2 nr B C) as (h' & R1 & R2 & R3 & R4); auto.
    + unfold h1. apply hset_same.
    + cbn. rewrite (kc_p _ _ KS2), (ks_p _ _ _ E2). reflexivity.
    + cbn. lia.
    + lia.
    + intros m nd Hm Nm Em. destruct (Nat.eq_dec m pp) as [->|Np].
      * assert (nd = NInter ip) by congruence. subst nd. exists (NInter ip2). unfold h1. rewrite hset_same. split; auto. cbn. unfold rfun. rewrite Nat.leb_refl. auto.
      * destruct (K m nd Hm Nm Em) as (nd' & F1 & F2). exists nd'. unfold h1. rewrite hset_other by auto. split; auto. unfold rfun in F2 |- *. cbn [ht].
        destruct (Nat.leb_spec (ht nd) (ht nq)), (Nat.leb_spec (ht nd) (in_height ip)); try lia; auto.
        destruct nd as [l|i], nd' as [l'|i']; cbn in F2 |- *; auto. apply (ksame_ext id_z); auto. intros j Hj. unfold id_z, f. symmetry. apply sig_ne. intros EK.
        destruct (key_elsewhere h0 g L q pp k nq ip HS HC m i j Hm Em Hj ltac:(lia) Np) as [Z1|[Z1 _]]; cbn in *; lia.
    + cbn [ht]. destruct (sl_node _ _ _ _ HS pp B) as (nd & nr2 & Z1 & Z2 & Z3 & _). assert (nr2 = nr) by congruence. assert (nd = NInter ip) by congruence. subst. cbn in Z3. lia.
    + exists h'. fold h1. split; auto. split; [eapply keychg_trans; eauto|]. split; auto. intros m Hm. rewrite R3, FR1; auto.
  - specialize (GTpp eq_refl). exists h1. split; auto. split; auto. split; auto. intros m nd Hm Nm Em. destruct (Nat.eq_dec m pp) as [->|Np].
    + assert (nd = NInter ip) by congruence. subst nd. exists (NInter ip2). unfold h1. rewrite hset_same. split; auto.
    + destruct (K m nd Hm Nm Em) as (nd' & F1 & F2). exists nd'. unfold h1. rewrite hset_other by auto. split; auto. unfold rfun in F2.
      destruct (Nat.leb_spec (ht nd) (ht nq)); auto. 
      destruct nd as [l|i], nd' as [l'|i']; cbn in F2 |- *; auto. apply (ksame_ext id_z); auto. intros j Hj. unfold id_z, f. symmetry. apply sig_ne. intros EK.
      destruct (key_elsewhere h0 g L q pp k nq ip HS HC m i j Hm Em Hj ltac:(lia) Np) as [Z1|[Z1 Z2]]; cbn in *; lia.
Qed.
End Redirect.
