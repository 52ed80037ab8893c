(* Removal, part 3: the upward loop. *)
From Verif Require Import Lib M_Key M_Permuter M_Search P_Search M_Tree P_Tree1 P_Tree2 P_Tree4 P_Tree5 P_Tree7 P_Tree7b.

(* How the loop changes the heap: only live nodes of the layer; leaves only in their parent pointer; heights stay. *)
Record hev (h h' : heap) (g : ghost) (L : nat) : Prop := {
  he_next : hp_next h' = hp_next h;
  he_other : forall m, g_lay g m <> Some L -> hp_node h' m = hp_node h m;
  he_leaf : forall m l, hp_node h m = Some (NLeaf l) -> exists q, hp_node h' m = Some (NLeaf (lf_set_parent q l));
  he_inter : forall m i, hp_node h m = Some (NInter i) -> exists i', hp_node h' m = Some (NInter i') /\ in_height i' = in_height i }.
Lemma lf_set_parent_id l : lf_set_parent (lf_parent l) l = l. Proof. destruct l; reflexivity. Qed.
Lemma hev_refl h g L : hev h h g L.
Proof. constructor; auto; [|eauto]. intros m l E. exists (lf_parent l). now rewrite lf_set_parent_id. Qed.
Lemma hev_trans h h1 h2 g g1 L : hev h h1 g L -> hev h1 h2 g1 L -> (forall m, g_lay g1 m = Some L -> g_lay g m = Some L) -> hev h h2 g L.
Proof.
  intros [A B C D] [A1 B1 C1 D1] S. constructor; [congruence| | |].
  - intros m N. rewrite B1, B; auto.
  - intros m l E. destruct (C m l E) as (q & F). destruct (C1 m _ F) as (q1 & F1). exists q1. rewrite F1. reflexivity.
  - intros m i E. destruct (D m i E) as (i1 & F & G). destruct (D1 m _ F) as (i2 & F1 & G1). exists i2. split; auto. congruence.
Qed.
Lemma hev_inter h g L p i i' : g_lay g p = Some L -> hp_node h p = Some (NInter i) -> in_height i' = in_height i -> hev h (hset h p (NInter i')) g L.
Proof.
  intros A B C. constructor; auto.
  - intros m N. rewrite hset_other; auto. intros ->. tauto.
  - intros m l E. exists (lf_parent l). rewrite lf_set_parent_id, hset_other; auto. intros ->. congruence.
  - intros m j E. destruct (Nat.eq_dec m p) as [->|N]; [exists i'; rewrite hset_same; split; auto; congruence|exists j; rewrite hset_other; auto].
Qed.
Lemma hev_keychg h h' g L : keychg h h' -> (forall m, g_lay g m <> Some L -> hp_node h' m = hp_node h m) -> hev h h' g L.
Proof.
  intros [A B] C. constructor; auto.
  - intros m l E. exists (lf_parent l). rewrite lf_set_parent_id. destruct (B m) as [F|(i & i' & F1 & F2 & F3)]; congruence.
  - intros m i E. destruct (B m) as [F|(j & j' & F1 & F2 & F3)]; [exists i; split; congruence|]. exists j'. split; auto. rewrite (kc_h _ _ F3). congruence.
Qed.
Lemma hev_set_parent h g L c nc q : g_lay g c = Some L -> hp_node h c = Some nc -> hev h (hset h c (n_set_parent q nc)) g L.
Proof.
  intros A B. constructor; auto.
  - intros m N. rewrite hset_other; auto. intros ->. tauto.
  - intros m l E. destruct (Nat.eq_dec m c) as [->|N].
    + assert (nc = NLeaf l) by congruence. subst nc. exists q. rewrite hset_same. reflexivity.
    + exists (lf_parent l). rewrite lf_set_parent_id, hset_other; auto.
  - intros m j E. destruct (Nat.eq_dec m c) as [->|N].
    + assert (nc = NInter j) by congruence. subst nc. eexists. rewrite hset_same. split; [reflexivity|reflexivity].
    + exists j. rewrite hset_other; auto.
Qed.

(* Nodes that left the layer in a step: leaf n0 if given, and internodes whose parent pointer still leads to the root. *)
Definition gone (h' : heap) (g : ghost) (L m : nat) : Prop := exists i p ip, hp_node h' m = Some (NInter i) /\ in_root i = false /\ in_parent i = Some p /\
  hp_node h' p = Some (NInter ip) /\ (in_height i < in_height ip)%nat /\ g_lay g p = Some L.
Record gev (h h' : heap) (g g' : ghost) (L : nat) (X : nat -> Prop) : Prop := {
  ge_lay : forall m, g_lay g' m = g_lay g m \/ g_lay g m = Some L /\ g_lay g' m = None /\ (X m \/ gone h' g L m);
  ge_root : g_root g' = g_root g; ge_pre : g_pre g' = g_pre g }.
Lemma gev_live h h' g g' L X m : gev h h' g g' L X -> g_lay g' m = Some L -> g_lay g m = Some L.
Proof. intros E H. destruct (ge_lay _ _ _ _ _ _ E m) as [A|(A & _)]; congruence. Qed.
Lemma gev_trans h h1 h2 g g1 g2 L X : gev h h1 g g1 L X -> hev h1 h2 g1 L -> gev h1 h2 g1 g2 L (fun _ => False) -> gev h h2 g g2 L X.
Proof.
  intros A HE B. constructor; [|rewrite (ge_root _ _ _ _ _ _ B); apply A|rewrite (ge_pre _ _ _ _ _ _ B); apply A].
  intros m. destruct (ge_lay _ _ _ _ _ _ A m) as [A1|(A1 & A2 & A3)].
  - destruct (ge_lay _ _ _ _ _ _ B m) as [B1|(B1 & B2 & [[]|B3])]; [left; congruence|]. right. split; [congruence|]. split; auto. right.
    destruct B3 as (i & p & ip & C1 & C2 & C3 & C4 & C5 & C6). exists i, p, ip. repeat split; auto. eapply gev_live; eauto.
  - right. split; auto. split.
    { destruct (ge_lay _ _ _ _ _ _ B m) as [B1|(B1 & B2 & _)]; congruence. }
    destruct A3 as [A3|A3]; [auto|right]. destruct A3 as (i & p & ip & C1 & C2 & C3 & C4 & C5 & C6).
    destruct (he_inter _ _ _ _ HE p ip C4) as (ip2 & D1 & D2). exists i, p, ip2. rewrite (he_other _ _ _ _ HE) by congruence. repeat split; auto. lia.
Qed.

(* ---- internodes with a single child are spliced out while climbing ---- *)
Section Phase2.
Context (a : Z) (L c : nat).
Lemma phase2_ok : forall fuel h hv g p ip ipr nr, SL hv g (noexc g) L -> g_lay g p = Some L -> hp_node hv p = Some (NInter ip) -> in_nkeys ip = 0%nat -> in_child ip 0%nat = Some c ->
  p <> g_root g L -> g_lo g p <= a < g_hi g p ->
  (forall m nd, g_lay g m = Some L -> m <> p -> hp_node hv m = Some nd -> exists nd', hp_node h m = Some nd' /\ nsame id_z nd nd') ->
  hp_node h p = Some (NInter ipr) -> in_parent ipr = in_parent ip -> in_root ipr = false -> in_height ipr = in_height ip ->
  hp_node hv (g_root g L) = Some nr -> (ht nr - in_height ip < fuel)%nat -> (ht nr < hp_next h)%nat ->
  exists h' g', remove_up fuel h p (Some c) a = Ok h' /\ SL h' g' (noexc g') L /\ hev h h' g L /\ gev h h' g g' L (fun _ => False) /\
    g_lo g' = g_lo g /\ g_hi g' = g_hi g.
Proof.
  induction fuel as [|fu IH]; intros h hv g p ip ipr nr HS Hp Ep Hn0 Hc0 NR Ha K Ephr EP ER EH Er Hf Hnx; [lia|].
  destruct (linked_child hv g L p _ HS Hp Ep NR) as (pp & ipp & kp & A & B & C & D & E). cbn in A.
  assert (HC : childof hv g L p (NInter ip) pp ipp kp) by (constructor; auto).
  pose proof (nd_ok HS HC) as OK. destruct (nd_child HS HC) as (_ & HP & PL & PH). cbn [ht] in HP. pose proof (nd_np HS HC) as NP.
  assert (Hc : g_lay g c = Some L /\ exists nc, hp_node hv c = Some nc).
  { pose proof (sl_inter _ _ _ _ HS p ip Hp Ep (fun f => f)) as (_ & _ & Q). specialize (Q 0%nat ltac:(lia)). unfold child_ok in Q. rewrite Hc0 in Q. destruct Q as (Q1 & (nc & Q2 & _) & _). eauto. }
  destruct Hc as (Hc & nc & Ec). assert (HC2 : childof hv g L c nc p ip 0) by (constructor; auto; lia). destruct (nd_child HS HC2) as (PC & HTC & _).
  pose proof (nd_np HS HC2) as NC. assert (NCP : c <> pp). { intros ->. assert (nc = NInter ipp) by congruence. subst nc. cbn in HTC. lia. }
  destruct (K pp _ B ltac:(congruence) C) as (ndr & E1 & E2). destruct ndr as [|ir]; [contradiction|]. cbn in E2.
  destruct (K c _ Hc NC Ec) as (ncr & Ecr & Scr).
  pose proof (inter_keys_inc hv g (noexc g) L pp ipp (nd_lt HS) OK) as KI.
  assert (UP : in_upper ir a = Ok kp).
  { rewrite (in_upper_same ipp ir a KI (ks_n _ _ _ E2) (ks_k _ _ _ E2)). apply (inter_upper_at hv g (noexc g) L pp ipp (nd_lt HS) OK); auto. lia. }
  cbn [remove_up]. rewrite (hget_some _ _ _ Ephr). cbn [bind n_parent]. rewrite EP, A. cbn [deref bind]. unfold hinter at 1. rewrite (hget_some _ _ _ E1). cbn [bind].
  rewrite (ks_d _ _ _ E2). pose proof OK as (_ & OKd & OKc). rewrite OKd. cbn [negb ensure bind]. rewrite UP. cbn [bind].
  assert (EN : (kp =? 0)%nat || (in_keys ir (kp - 1)%nat <=? a) = true).
  { destruct (Nat.eqb_spec kp 0); [reflexivity|]. cbn [orb]. rewrite (ks_k _ _ _ E2) by lia. unfold id_z. rewrite (bnd_key' g pp ipp kp) in PL by lia. apply Z.leb_le. lia. }
  rewrite EN. cbn [ensure bind]. rewrite (ks_c _ _ _ E2) by auto. rewrite E, Nat.eqb_refl. cbn [ensure bind].
  set (ip1 := in_set_child kp (Some c) ir). set (h1 := hset h pp (NInter ip1)).
  assert (Ec1 : hp_node h1 c = Some ncr) by (unfold h1; now rewrite hset_other).
  unfold set_parent at 1. rewrite (hget_some _ _ _ Ec1). cbn [bind]. set (h2 := hset h1 c (n_set_parent (Some pp) ncr)).
  assert (KS1 : ksame id_z (in_set_child kp (Some c) ipp) ip1).
  { destruct E2 as [X1 X2 X3 X4 X5 X6 X7]. constructor; auto. cbn. intros k Kk. unfold upd. destruct (Nat.eqb k kp); auto. }
  assert (HV1 : hev h h1 g L) by (apply (hev_inter h g L pp ir); auto). assert (HV2 : hev h1 h2 g L) by (apply hev_set_parent; auto).
  assert (HV : hev h h2 g L) by (eapply hev_trans; eauto).
  assert (Epp2 : hp_node h2 pp = Some (NInter ip1)) by (unfold h2; rewrite hset_other by auto; unfold h1; apply hset_same).
  set (g1 := g_drop g p (g_lo g) (g_hi g)).
  assert (GE : forall h3, hev h2 h3 g L -> hp_node h3 p = hp_node h2 p -> gev h h3 g g1 L (fun _ => False)).
  { intros h3 HE EQ. constructor; auto. intros m. unfold g1, g_drop; cbn [g_lay]. destruct (Nat.eq_dec m p) as [->|N]; [|rewrite upd_other by auto; auto].
    right. split; auto. split; [apply upd_same|]. right. destruct (he_inter _ _ _ _ HE pp ip1 Epp2) as (i3 & F1 & F2).
    exists ipr, pp, i3. rewrite EQ. unfold h2. rewrite hset_other by auto. unfold h1. rewrite hset_other by auto. repeat split; auto; [congruence|].
    rewrite F2. cbn. rewrite (ks_h _ _ _ E2). lia. }
  (* the state after the redirect *)
  assert (R : exists h3 ik', (if (kp <=? 1)%nat && (0 <? in_nkeys ip1)%nat && match in_child ip1 0 with Some _ => false | None => true end
      then h3 <- redirect (hfuel h2) h2 pp a (in_keys ip1 0%nat) ;; Ok (h3, in_keys ip1 0%nat) else Ok (h2, a)) = Ok (h3, ik') /\
      (in_nkeys ip1 = 0%nat -> h3 = h2 /\ ik' = a) /\ hev h2 h3 g L /\ hp_node h3 p = hp_node h2 p /\ hp_node h3 c = hp_node h2 c /\ hp_node h3 pp = hp_node h2 pp /\
      forall m nd, g_lay g m = Some L -> m <> c -> m <> p -> m <> pp -> hp_node hv m = Some nd -> exists nd', hp_node h3 m = Some nd' /\ nsame id_z nd nd').
  { assert (K2 : forall m nd, g_lay g m = Some L -> m <> c -> m <> p -> m <> pp -> hp_node hv m = Some nd -> exists nd', hp_node h2 m = Some nd' /\ nsame id_z nd nd').
    { intros m nd Hm N1 N2 N3 Em. destruct (K m nd Hm N2 Em) as (nd' & F1 & F2). exists nd'. split; auto. unfold h2. rewrite hset_other by auto. unfold h1. now rewrite hset_other by auto. }
    destruct ((kp <=? 1)%nat && (0 <? in_nkeys ip1)%nat && match in_child ip1 0 with Some _ => false | None => true end) eqn:EB.
    - apply andb_prop in EB. destruct EB as [EB EB3]. apply andb_prop in EB. destruct EB as [EB1 EB2]. apply Nat.leb_le in EB1. apply Nat.ltb_lt in EB2.
      assert (kp = 1%nat). { destruct (Nat.eq_dec kp 0) as [->|]; [cbn in EB3; discriminate|lia]. } subst kp.
      cbn in EB2, EB3. rewrite (ks_n _ _ _ E2) in EB2. assert (E0 : in_child ipp 0%nat = None). { cbn in EB3. rewrite (ks_c _ _ _ E2) in EB3 by lia. destruct (in_child ipp 0%nat); [discriminate|auto]. }
      pose proof (OKc 0%nat ltac:(lia)) as Q. unfold child_ok in Q. rewrite E0 in Q. destruct Q as (_ & _ & Q1 & Q2).
      assert (KEY : in_keys ip1 0%nat = g_lo g pp). { cbn. rewrite (ks_k _ _ _ E2) by lia. exact Q1. }
      pose proof (nd_in HS HC) as IN. rewrite KEY.
      destruct (redirect_ok hv g L (NInter ipp) (fun m => m = c \/ m = p \/ m = pp) (g_lo g pp) (g_lo g pp) a HS) with (fuel := hfuel h2) (h := h2) (q := pp) (nq := NInter ipp) (iq := ip1) (nr := nr) as (h3 & R1 & R2 & R3 & R4); auto.
      + intros m nd [->|[->| ->]] Em; [assert (nd = nc) by congruence|assert (nd = NInter ip) by congruence|assert (nd = NInter ipp) by congruence]; subst nd; cbn; lia.
      + lia.
      + cbn. rewrite (ks_p _ _ _ E2). reflexivity.
      + lia.
      + intros m nd Hm Nm Em. destruct (K2 m nd Hm ltac:(tauto) ltac:(tauto) ltac:(tauto) Em) as (nd' & F1 & F2). exists nd'. split; auto.
        unfold rfun. destruct (_ <=? _)%nat; auto. destruct nd, nd'; cbn in F2 |- *; auto. eapply ksame_ext; [exact F2|]. intros j Hj. unfold id_z, sig. destruct (Z.eqb_spec (in_keys i j) (g_lo g pp)); lia.
      + unfold hfuel. change (hp_next h2) with (hp_next h). lia.
      + exists h3, (g_lo g pp). rewrite R1. cbn [bind]. split; auto. split; [intros Q0; cbn in Q0; rewrite (ks_n _ _ _ E2) in Q0; lia|]. split; [apply hev_keychg; auto|]. split; [apply R3; auto|]. split; [apply R3; auto|]. split; [apply R3; auto|].
        intros m nd Hm N1 N2 N3 Em. destruct (R4 m nd Hm ltac:(tauto) Em) as (nd' & F1 & F2). exists nd'. split; auto. destruct nd, nd'; cbn in F2 |- *; auto. eapply ksame_ext; [exact F2|].
        intros j Hj. unfold id_z, sig. destruct (Z.eqb_spec (in_keys i j) (g_lo g pp)); lia.
    - exists h2, a. split; auto. split; auto. split; [apply hev_refl|]. auto 10. }
  destruct R as (h3 & ik' & R1 & R2 & R3 & R4 & R5 & R6 & R7). rewrite R1. cbn [bind].
  assert (S3 : SL h3 g1 (noexc g1) L).
  { apply (splice_SL hv h3 g L c p pp nc (n_set_parent (Some pp) ncr) ip ipp ip1 kp); auto.
    - rewrite R5. unfold h2. apply hset_same.
    - destruct nc, ncr; cbn in Scr |- *; auto. destruct Scr as [X1 X2 X3 X4 X5 X6 X7]. constructor; auto.
    - rewrite R6. auto. }
  pose proof (GE h3 R3 R4) as GE3. assert (HV3 : hev h h3 g L) by (eapply hev_trans; eauto).
  destruct ((0 <? in_nkeys ip1)%nat || in_root ip1) eqn:EB.
  - exists h3, g1. split; auto.
  - apply orb_false_iff in EB. destruct EB as [EB1 EB2]. apply Nat.ltb_ge in EB1. assert (N0 : in_nkeys ip1 = 0%nat) by lia. destruct (R2 N0) as [-> ->].
    unfold hinter at 1. rewrite (hget_some _ _ _ Epp2). cbn [bind].
    assert (N0' : in_nkeys ipp = 0%nat) by (cbn in N0; rewrite (ks_n _ _ _ E2) in N0; auto). assert (kp = 0%nat) by lia. subst kp.
    change (in_child ip1 0%nat) with (Some c). 
    set (ip4 := in_set_child 0 None (in_set_root false (in_set_deleted true ip1))). set (h4 := hset h2 pp (NInter ip4)).
    assert (ER2 : in_root ipp = false) by (cbn in EB2; rewrite (ks_r _ _ _ E2) in EB2; auto).
    assert (NRp : pp <> g_root g L). { intros EQ. apply (sl_flag _ _ _ _ HS pp ipp B C (fun f => f)) in EQ. congruence. }
    assert (LIVE : forall m, g_lay g1 m = Some L -> g_lay g m = Some L) by (intros m Hm; exact (gev_live _ _ _ _ _ _ m GE3 Hm)).
    assert (HV4 : hev h2 h4 g L) by (apply (hev_inter h2 g L pp ip1); auto).
    assert (Lpp : g_lay g1 pp = Some L) by (unfold g1, g_drop; cbn [g_lay]; rewrite upd_other; auto).
    destruct (sl_root _ _ _ _ S3) as (RT1 & _ & _ & nr3 & RT2 & _).
    assert (NRP : g_root g L <> p) by auto.
    assert (HTR : ht nr3 = ht nr).
    { change (g_root g1 L) with (g_root g L) in RT2. destruct (Nat.eq_dec (g_root g L) c) as [EQ|NQ].
      - exfalso. destruct (nd_not_root HS HC2). auto.
      - unfold h2 in RT2. rewrite hset_other in RT2 by auto. unfold h1 in RT2. rewrite hset_other in RT2 by auto. destruct (sl_root _ _ _ _ HS) as (Q & _).
        destruct (K _ nr Q NRP Er) as (nd' & F1 & F2). destruct (nsame_ht _ _ _ F2). congruence. }
    destruct (IH h4 h2 g1 pp ip1 ip4 nr3 S3 Lpp Epp2 N0 eq_refl) as (h' & g' & I1 & I2 & I3 & I4 & I5 & I6); auto.
    + pose proof (nd_in HS HC) as IN. unfold g1, g_drop; cbn [g_lo g_hi]. lia.
    + intros m nd Hm Nm Em. exists nd. unfold h4. rewrite hset_other by auto. split; auto using nsame_id.
    + unfold h4. apply hset_same.
    + rewrite HTR. cbn. rewrite (ks_h _ _ _ E2). destruct (sl_node _ _ _ _ HS pp B) as (nd & nr2 & Z1 & Z2 & Z3 & _). assert (nr2 = nr) by congruence. assert (nd = NInter ipp) by congruence. subst. cbn in Z3. lia.
    + rewrite HTR. change (hp_next h4) with (hp_next h). lia.
    + exists h', g'. assert (HV5 : hev h h4 g L) by (eapply hev_trans; eauto). split; auto. split; auto. split.
      * eapply hev_trans; eauto.
      * split; [|split; [rewrite I5|rewrite I6]; reflexivity]. eapply gev_trans; [|exact I3|exact I4]. apply GE; auto. unfold h4. now rewrite hset_other by auto.
Qed.
End Phase2.

(* ---- the first phase: nodes whose last child went disappear, then the first survivor loses its child ---- *)
Lemma no_child0 h g L n nn p ip kp : SL h g (noexc g) L -> childof h g L n nn p ip kp ->
  (exists k0 c0, (k0 <= in_nkeys ip)%nat /\ k0 <> kp /\ in_child ip k0 = Some c0) \/
  (forall k, (k <= in_nkeys ip)%nat -> k <> kp -> in_child ip k = None) /\ (kp = 0%nat /\ in_nkeys ip = 0%nat \/ kp = 1%nat /\ in_nkeys ip = 1%nat /\ in_child ip 0%nat = None).
Proof.
  intros HS HC. pose proof (nd_ok HS HC) as OK. pose proof (co_k _ _ _ _ _ _ _ _ HC) as Hk. pose proof (child_some h g (noexc g) L p ip (nd_lt HS) OK) as CS.
  destruct (Nat.eq_dec kp 0) as [->|N0].
  - destruct (Nat.eq_dec (in_nkeys ip) 0) as [E|E]; [right; split; [intros; lia|auto]|]. left. destruct (CS 1%nat ltac:(lia) ltac:(lia)) as (c & Ec). exists 1%nat, c. repeat split; auto; lia.
  - destruct (Nat.eq_dec kp 1) as [->|N1].
    + destruct (in_child ip 0%nat) as [c|] eqn:E0; [left; exists 0%nat, c; repeat split; auto; lia|].
      destruct (Nat.eq_dec (in_nkeys ip) 1) as [E|E]; [right; split; [intros k A B; assert (k = 0%nat) by lia; subst k; auto|auto]|].
      left. destruct (CS 2%nat ltac:(lia) ltac:(lia)) as (c & Ec). exists 2%nat, c. repeat split; auto; lia.
    + left. destruct (CS 1%nat ltac:(lia) ltac:(lia)) as (c & Ec). exists 1%nat, c. repeat split; auto; lia.
Qed.

(* The internode surgery of remove_leaf (masstree_remove.hh:228-236) takes child kp out. *)
Definition in_take (kp : nat) (i : inode) : inode :=
  if (0 <? kp)%nat then in_set_nkeys (in_nkeys (in_set_child kp None i) - 1) (in_shift_down (kp - 1) kp (in_nkeys (in_set_child kp None i) - kp) (in_set_child kp None i))
  else in_set_child kp None i.
Lemma in_take_out kp i i0 : ksame id_z i0 i -> (kp <= in_nkeys i0)%nat -> outchild id_z kp i0 (in_take kp i).
Proof.
  intros [A B C D E F G] Hk. unfold in_take. destruct (Nat.ltb_spec 0 kp) as [K|K].
  - constructor; auto; [lia|]. intros _. cbn [in_set_nkeys in_shift_down in_set_arrays in_set_child in_nkeys in_child in_keys]. rewrite A. split; auto.
    split; [|split; [|split]].
    + intros k Kk. rewrite shift_down_children_spec by lia. replace (kp - 1 + 1)%nat with kp by lia. destruct (Nat.leb_spec kp k); [lia|]. cbn [andb]. rewrite upd_other by lia. apply F. lia.
    + intros k Kk. rewrite shift_down_children_spec by lia. destruct (Nat.leb_spec (kp - 1 + 1) k), (Nat.ltb_spec k (kp - 1 + 1 + (in_nkeys i0 - kp))); try lia. cbn [andb].
      rewrite upd_other by lia. rewrite F by lia. f_equal. lia.
    + intros j Kj. rewrite amove_out by lia. apply G. lia.
    + intros j Kj. rewrite amove_in by lia. replace (j - (kp - 1) + kp)%nat with (S j) by lia. apply G. lia.
  - assert (kp = 0%nat) by lia. subst kp. constructor; auto; [|lia]. intros _. cbn. split; auto. split; auto. split; [|auto]. intros k Kk. rewrite upd_other by lia. apply F. lia.
Qed.
Lemma outchild_ext f f' kp i i' : outchild f kp i i' -> (kp <= in_nkeys i)%nat -> (forall j, (j < in_nkeys i)%nat -> (j + 1)%nat <> kp -> f (in_keys i j) = f' (in_keys i j)) -> outchild f' kp i i'.
Proof.
  intros [A B C D E F] Hk H. constructor; auto.
  - intros K. destruct (E K) as (E1 & E2 & E3 & E4). repeat split; auto. intros j Hj. rewrite E4 by auto. apply H; lia.
  - intros K. destruct (F K) as (F1 & F2 & F3 & F4 & F5). repeat split; auto; intros j Hj; [rewrite F4 by auto|rewrite F5 by auto]; apply H; lia.
Qed.

Lemma phase1_ok : forall fuel h hv g L n ln nn nr (X : nat -> Prop), SL hv g (noexc g) L -> g_lay g n = Some L -> hp_node hv n = Some (NLeaf ln) -> 0 < g_lo g n ->
  (forall m nd, g_lay g m = Some L -> m <> n -> hp_node hv m = Some nd -> exists nd', hp_node h m = Some nd' /\ nsame id_z nd nd') ->
  hp_node h n = Some nn -> n_parent nn = lf_parent ln -> match nn with NLeaf _ => X n | NInter i => in_root i = false end ->
  (forall q iq, lf_parent ln = Some q -> hp_node hv q = Some (NInter iq) -> (ht nn < in_height iq)%nat) ->
  hp_node hv (g_root g L) = Some nr -> (ht nr - ht nn < fuel)%nat -> (ht nr < hp_next h)%nat ->
  exists h' g', remove_up fuel h n None (g_lo g n) = Ok h' /\ SL h' g' (noexc g') L /\ hev h h' g L /\ gev h h' g g' L X /\ g_lay g' n = None /\
    (forall m, g_lo g' m = sig (g_lo g n) (g_hi g n) (g_lo g m)) /\ (forall m, g_hi g' m = sig (g_lo g n) (g_hi g n) (g_hi g m)).
Proof.
  induction fuel as [|fu IH]; intros h hv g L n ln nn nr X HS Hn En Hpos K Enr EP EX EH Er Hf Hnx; [lia|].
  destruct (root_bounds hv g L HS) as [RB _]. assert (NR : n <> g_root g L) by (intros EQ; rewrite <- EQ in RB; lia).
  destruct (linked_child hv g L n _ HS Hn En NR) as (p & ip & kp & A & B & C & D & E). cbn in A.
  assert (HC : childof hv g L n (NLeaf ln) p ip kp) by (constructor; auto).
  pose proof (nd_ok HS HC) as OK. destruct (nd_child HS HC) as (_ & HP & PL & PH). cbn [ht] in HP. pose proof (nd_np HS HC) as NP. pose proof (nd_lt HS n Hn) as LT.
  pose proof (EH p ip A C) as HNP.
  set (a := g_lo g n) in *. set (b := g_hi g n) in *.
  destruct (K p _ B ltac:(congruence) C) as (ndr & E1 & E2). destruct ndr as [|ir]; [contradiction|]. cbn in E2.
  pose proof (inter_keys_inc hv g (noexc g) L p ip (nd_lt HS) OK) as KI.
  assert (UP : in_upper ir a = Ok kp).
  { rewrite (in_upper_same ip ir a KI (ks_n _ _ _ E2) (ks_k _ _ _ E2)). apply (inter_upper_at hv g (noexc g) L p ip (nd_lt HS) OK); auto. lia. }
  cbn [remove_up]. rewrite (hget_some _ _ _ Enr). cbn [bind]. rewrite EP, A. cbn [deref bind]. unfold hinter at 1. rewrite (hget_some _ _ _ E1). cbn [bind].
  rewrite (ks_d _ _ _ E2). pose proof OK as (_ & OKd & OKc). rewrite OKd. cbn [negb ensure bind]. rewrite UP. cbn [bind].
  assert (EN : (kp =? 0)%nat || (in_keys ir (kp - 1)%nat <=? a) = true).
  { destruct (Nat.eqb_spec kp 0); [reflexivity|]. cbn [orb]. rewrite (ks_k _ _ _ E2) by lia. unfold id_z. rewrite (bnd_key' g p ip kp) in PL by lia. apply Z.leb_le. lia. }
  rewrite EN. cbn [ensure bind]. rewrite (ks_c _ _ _ E2) by auto. rewrite E, Nat.eqb_refl. cbn [ensure bind].
  change (if (0 <? kp)%nat then in_set_nkeys (in_nkeys (in_set_child kp None ir) - 1) (in_shift_down (kp - 1) kp (in_nkeys (in_set_child kp None ir) - kp) (in_set_child kp None ir)) else in_set_child kp None ir) with (in_take kp ir).
  set (ip2 := in_take kp ir). set (h1 := hset h p (NInter ip2)). pose proof (in_take_out kp ir ip E2 D) as OUT. fold ip2 in OUT.
  assert (HV1 : hev h h1 g L). { apply (hev_inter h g L p ir); auto. rewrite (ot_h _ _ _ _ OUT), (ks_h _ _ _ E2). reflexivity. }
  assert (Ep1 : hp_node h1 p = Some (NInter ip2)) by (unfold h1; apply hset_same).
  assert (En1 : hp_node h1 n = Some nn) by (unfold h1; now rewrite hset_other).
  assert (GONE : forall h3, hev h1 h3 g L -> hp_node h3 n = Some nn -> X n \/ gone h3 g L n).
  { intros h3 HE EQ. destruct nn as [l|i]; [auto|right]. destruct (he_inter _ _ _ _ HE p ip2 Ep1) as (i3 & F1 & F2). exists i, p, i3. cbn in EP, HNP.
    repeat split; auto; [congruence|]. rewrite F2, (ot_h _ _ _ _ OUT). auto. }
  destruct (no_child0 hv g L n _ p ip kp HS HC) as [(k0 & c0 & Kk0 & Nk0 & Ec0)|[ONLY CASES]].
  - (* another child remains *)
    set (f := sig a b). pose proof (nd_in HS HC) as IN. fold a b in IN.
    assert (NK : forall j, (j < in_nkeys ip)%nat -> (j + 1)%nat <> kp -> in_keys ip j <> a).
    { intros j Hj Nj EQ. rewrite <- (bnd_key g p ip j Hj) in EQ. rewrite PL in EQ. destruct (lt_dec (S j) kp) as [L1|L1].
      - rewrite (bnd_key g p ip j Hj), (bnd_key' g p ip kp) in EQ by lia. pose proof (KI j (kp - 1)%nat ltac:(lia)). lia.
      - pose proof (nd_bnd_mono HS HC (S kp) (S j) ltac:(lia) ltac:(lia)). lia. }
    assert (OUTf : outchild f kp ip ip2).
    { eapply outchild_ext; [exact OUT|auto|]. intros j Hj Nj. unfold id_z, f. symmetry. apply sig_ne. apply NK; auto. }
    assert (K1 : forall m nd, g_lay g m = Some L -> m <> n -> m <> p -> hp_node hv m = Some nd -> exists nd', hp_node h1 m = Some nd' /\ nsame id_z nd nd').
    { intros m nd Hm N1 N2 Em. destruct (K m nd Hm N1 Em) as (nd' & F1 & F2). exists nd'. split; auto. unfold h1. now rewrite hset_other by auto. }
    set (g1 := g_drop g n (fun m => f (g_lo g m)) (fun m => f (g_hi g m))).
    assert (R : exists h3 ik', (if (kp <=? 1)%nat && (0 <? in_nkeys ip2)%nat && match in_child ip2 0 with Some _ => false | None => true end
      then h3 <- redirect (hfuel h1) h1 p a (in_keys ip2 0%nat) ;; Ok (h3, in_keys ip2 0%nat) else Ok (h1, a)) = Ok (h3, ik') /\
      (in_nkeys ip2 = 0%nat -> h3 = h1 /\ ik' = a) /\ hev h1 h3 g L /\ hp_node h3 n = hp_node h1 n /\ hp_node h3 p = hp_node h1 p /\
      forall m nd, g_lay g m = Some L -> m <> n -> m <> p -> hp_node hv m = Some nd -> exists nd', hp_node h3 m = Some nd' /\ nsame f nd nd').
    { destruct ((kp <=? 1)%nat && (0 <? in_nkeys ip2)%nat && match in_child ip2 0 with Some _ => false | None => true end) eqn:EB.
      - apply andb_prop in EB. destruct EB as [EB EB3]. apply andb_prop in EB. destruct EB as [EB1 EB2]. apply Nat.leb_le in EB1. apply Nat.ltb_lt in EB2.
        assert (LK : g_lo g p = a /\ in_keys ip2 0%nat = b).
        { destruct (Nat.eq_dec kp 0) as [K0|K0].
          - destruct (ot_0 _ _ _ _ OUT K0) as (T1 & T2 & T3 & T4). rewrite K0 in PL, PH. rewrite bnd_0 in PL. split; auto. rewrite T4 by lia. rewrite (bnd_key g p ip 0) in PH by lia. unfold id_z. auto.
          - assert (kp = 1%nat) by lia. destruct (ot_s _ _ _ _ OUT ltac:(lia)) as (T1 & T2 & T3 & T4 & T5). rewrite T2 in EB3 by lia. subst kp.
            pose proof (OKc 0%nat ltac:(lia)) as Q. unfold child_ok in Q. destruct (in_child ip 0%nat); [discriminate|]. destruct Q as (_ & _ & Q1 & Q2).
            rewrite (bnd_key g p ip 0) in PL by lia. split; [congruence|]. rewrite T5 by lia. rewrite (bnd_key g p ip 1) in PH by lia. unfold id_z. auto. }
        destruct LK as [LP KEY]. rewrite KEY.
        destruct (redirect_ok hv g L (NInter ip) (fun m => m = n \/ m = p) a b a HS) with (fuel := hfuel h1) (h := h1) (q := p) (nq := NInter ip) (iq := ip2) (nr := nr) as (h3 & R1 & R2 & R3 & R4); auto.
        + intros m nd [->| ->] Em; [assert (nd = NLeaf ln) by congruence|assert (nd = NInter ip) by congruence]; subst nd; cbn; lia.
        + lia.
        + cbn. apply (ot_p _ _ _ _ OUT).
        + lia.
        + intros m nd Hm Nm Em. destruct (K1 m nd Hm ltac:(tauto) ltac:(tauto) Em) as (nd' & F1 & F2). exists nd'. split; auto. unfold rfun. destruct (Nat.leb_spec (ht nd) (ht (NInter ip))) as [HH|HH]; auto.
          destruct nd as [l|i], nd' as [l'|i']; cbn in F2 |- *; auto. apply (ksame_ext id_z); auto. intros j Hj. unfold id_z. symmetry. apply sig_ne. intros EK.
          destruct (key_elsewhere hv g L n p kp _ ip HS HC m i j Hm Em Hj EK ltac:(tauto)) as [Z1|[Z1 _]]; cbn in *; [|lia].
          pose proof (sl_inter _ _ _ _ HS m i Hm Em (fun f => f)) as OKm. destruct (child_some hv g (noexc g) L m i (nd_lt HS) OKm (S j) ltac:(lia) ltac:(lia)) as (cm & Ecm).
          pose proof OKm as (_ & _ & Q). specialize (Q (S j) ltac:(lia)). unfold child_ok in Q. rewrite Ecm in Q. destruct Q as (_ & (nc & _ & _ & Q) & _). lia.
        + unfold hfuel. change (hp_next h1) with (hp_next h). lia.
        + exists h3, b. rewrite R1. cbn [bind]. split; auto. split; [lia|]. split; [apply hev_keychg; auto|]. split; [apply R3; auto|]. split; [apply R3; auto|].
          intros m nd Hm N1 N2 Em. apply (R4 m nd Hm); auto. tauto.
      - exists h1, a. split; auto. split; auto. split; [apply hev_refl|]. split; auto. split; auto. intros m nd Hm N1 N2 Em. destruct (K1 m nd Hm N1 N2 Em) as (nd' & F1 & F2). exists nd'. split; auto.
        assert (LP : g_lo g p < a).
        { rewrite PL, <- (bnd_0 g p ip). pose proof (bnd_step hv g (noexc g) L p ip (nd_lt HS) OK 0 ltac:(lia)) as [M0 M0s].
          destruct (Nat.eq_dec kp 0) as [K0|K0].
          { exfalso. destruct (ot_0 _ _ _ _ OUT K0) as (T1 & T2 & _). rewrite T1, T2, K0 in EB. destruct (Nat.ltb_spec 0 (in_nkeys ip)); [discriminate|lia]. }
          destruct (ot_s _ _ _ _ OUT ltac:(lia)) as (T1 & T2 & _). rewrite T1, T2 in EB by lia.
          destruct (Nat.eq_dec kp 1) as [EQ1|NQ1].
          - rewrite EQ1 in *. cbn [Nat.leb andb] in EB. destruct (in_child ip 0%nat) as [c|] eqn:Ech0; [exact (M0s c eq_refl)|].
            destruct (Nat.ltb_spec 0 (in_nkeys ip - 1)); [discriminate|]. exfalso. assert (k0 = 0%nat) by lia. congruence.
          - rewrite (bnd_key g p ip 0) in M0 by lia. rewrite (bnd_key' g p ip kp) by lia. pose proof (KI 0%nat (kp - 1)%nat ltac:(lia)). lia. }
        destruct nd as [l|i], nd' as [l'|i']; cbn in F2 |- *; auto. apply (ksame_ext id_z); auto. intros j Hj. unfold id_z. symmetry. apply sig_ne. intros EK.
        destruct (key_elsewhere hv g L n p kp _ ip HS HC m i j Hm Em Hj EK N2) as [Z1|[_ Z1]]; cbn in *; [|lia].
        pose proof (sl_inter _ _ _ _ HS m i Hm Em (fun f => f)) as OKm. destruct (child_some hv g (noexc g) L m i (nd_lt HS) OKm (S j) ltac:(lia) ltac:(lia)) as (cm & Ecm).
        pose proof OKm as (_ & _ & Q). specialize (Q (S j) ltac:(lia)). unfold child_ok in Q. rewrite Ecm in Q. destruct Q as (_ & (nc & _ & _ & Q) & _). lia. }
    destruct R as (h3 & ik' & R1 & R2 & R3 & R4 & R5 & R6). rewrite R1. cbn [bind].
    assert (S3 : SL h3 g1 (noexc g1) L).
    { apply (remove_SL hv h3 g L n p ln ip ip2 kp k0 c0); auto. rewrite R5. auto. }
    assert (HV3 : hev h h3 g L) by (eapply hev_trans; eauto).
    assert (GE : gev h h3 g g1 L X).
    { constructor; auto. intros m. unfold g1, g_drop; cbn [g_lay]. destruct (Nat.eq_dec m n) as [->|N]; [|rewrite upd_other by auto; auto].
      right. split; auto. split; [apply upd_same|]. apply GONE; auto. congruence. }
    assert (GN : g_lay g1 n = None) by (unfold g1, g_drop; cbn [g_lay]; apply upd_same).
    destruct ((0 <? in_nkeys ip2)%nat || in_root ip2) eqn:EB.
    + exists h3, g1. split; auto 10.
    + apply orb_false_iff in EB. destruct EB as [EB1 EB2]. apply Nat.ltb_ge in EB1. assert (N0 : in_nkeys ip2 = 0%nat) by lia. destruct (R2 N0) as [-> ->].
      unfold hinter at 1. rewrite (hget_some _ _ _ Ep1). cbn [bind].
      assert (C0 : exists c, in_child ip2 0%nat = Some c /\ kp = 1%nat).
      { destruct (Nat.eq_dec kp 0) as [K0|K0]; [destruct (ot_0 _ _ _ _ OUT K0) as (T1 & _); lia|]. destruct (ot_s _ _ _ _ OUT ltac:(lia)) as (T1 & T2 & _).
        assert (k0 = 0%nat) by lia. subst k0. exists c0. rewrite T2 by lia. split; auto. lia. }
      destruct C0 as (c & C0 & Kp1). rewrite C0.
      set (ip4 := in_set_child 0 None (in_set_root false (in_set_deleted true ip2))). set (h4 := hset h1 p (NInter ip4)).
      assert (Lp : g_lay g1 p = Some L) by (unfold g1, g_drop; cbn [g_lay]; rewrite upd_other; auto).
      assert (NRp : p <> g_root g L). { intros EQ. apply (sl_flag _ _ _ _ HS p ip B C (fun f => f)) in EQ. rewrite (ot_r _ _ _ _ OUT) in EB2. congruence. }
      destruct (sl_root _ _ _ _ S3) as (RT1 & _ & _ & nr3 & RT2 & _).
      assert (HTR : ht nr3 = ht nr).
      { change (g_root g1 L) with (g_root g L) in RT2. unfold h1 in RT2. rewrite hset_other in RT2 by auto. destruct (sl_root _ _ _ _ HS) as (Q & _).
        destruct (K _ nr Q ltac:(auto) Er) as (nd' & F1 & F2). destruct (nsame_ht _ _ _ F2). congruence. }
      assert (HV4 : hev h1 h4 g L) by (apply (hev_inter h1 g L p ip2); auto).
      destruct (phase2_ok a L c fu h4 h1 g1 p ip2 ip4 nr3 S3 Lp Ep1 N0 C0 NRp) as (h' & g' & I1 & I2 & I3 & I4 & I5 & I6); auto.
      * unfold g1, g_drop; cbn [g_lo g_hi]. unfold f. assert (g_lo g p < a).
        { rewrite PL, <- (bnd_0 g p ip), Kp1. pose proof (bnd_step hv g (noexc g) L p ip (nd_lt HS) OK 0 ltac:(lia)) as [M0 M0s].
          destruct (ot_s _ _ _ _ OUT ltac:(lia)) as (T1 & T2 & _). rewrite T2 in C0 by lia. exact (M0s c C0). }
        rewrite !sig_ne by lia. lia.
      * intros m nd Hm Nm Em. exists nd. unfold h4. rewrite hset_other by auto. split; auto using nsame_id.
      * unfold h4. apply hset_same.
      * rewrite HTR, (ot_h _ _ _ _ OUT). destruct (sl_node _ _ _ _ HS p B) as (nd & nr2 & Z1 & Z2 & Z3 & _). assert (nr2 = nr) by congruence. assert (nd = NInter ip) by congruence. subst. cbn in Z3. lia.
      * rewrite HTR. change (hp_next h4) with (hp_next h). lia.
      * exists h', g'. assert (HV5 : hev h h4 g L) by (eapply hev_trans; eauto). split; auto. split; auto. split.
        { eapply hev_trans; eauto. intros m Hm. exact (gev_live _ _ _ _ _ _ m GE Hm). }
        assert (GE4 : gev h h4 g g1 L X).
        { constructor; auto. intros m. unfold g1, g_drop; cbn [g_lay]. destruct (Nat.eq_dec m n) as [->|N]; [|rewrite upd_other by auto; auto].
          right. split; auto. split; [apply upd_same|]. apply GONE; auto. unfold h4. rewrite hset_other; auto. }
        split; [eapply gev_trans; eauto|]. split.
        { destruct (ge_lay _ _ _ _ _ _ I4 n) as [Q|(Q & _)]; congruence. }
        rewrite I5, I6. split; reflexivity.
  - (* the parent goes too *)
    assert (N0 : in_nkeys ip2 = 0%nat /\ in_child ip2 0%nat = None).
    { destruct CASES as [[K0 K1]|(K0 & K1 & K2)].
      - destruct (ot_0 _ _ _ _ OUT K0) as (T1 & T2 & _). split; [lia|auto].
      - destruct (ot_s _ _ _ _ OUT ltac:(lia)) as (T1 & T2 & _). split; [lia|]. rewrite T2 by lia. auto. }
    destruct N0 as [N0 N1]. rewrite N0. cbn [Nat.ltb Nat.leb]. rewrite andb_false_r. cbn [andb orb bind].
    destruct (oc_bounds hv g L n p ln ip kp HS HC ONLY) as [OB1 OB2]. pose proof (oc_p_not_root hv g L n p ln ip kp HS HC ONLY Hpos) as NRp.
    assert (RF : in_root ip = false). { destruct (in_root ip) eqn:Q; auto. exfalso. apply NRp. apply (sl_flag _ _ _ _ HS p ip B C (fun f => f)). auto. }
    rewrite (ot_r _ _ _ _ OUT), RF. unfold hinter at 1. rewrite (hget_some _ _ _ Ep1). cbn [bind]. rewrite N1.
    set (ip4 := in_set_child 0 None (in_set_root false (in_set_deleted true ip2))). set (h4 := hset h1 p (NInter ip4)).
    set (lp := lf_set_parent (in_parent ip) ln). set (hv1 := hset hv p (NLeaf lp)). set (g1 := g_drop g n (g_lo g) (g_hi g)).
    pose proof (only_child_SL hv g L n p ln ip kp lp HS HC ONLY Hpos eq_refl) as S1. fold hv1 g1 in S1.
    assert (HV4 : hev h1 h4 g L) by (apply (hev_inter h1 g L p ip2); auto). assert (HV5 : hev h h4 g L) by (eapply hev_trans; eauto).
    assert (GE4 : gev h h4 g g1 L X).
    { constructor; auto. intros m. unfold g1, g_drop; cbn [g_lay]. destruct (Nat.eq_dec m n) as [->|N]; [|rewrite upd_other by auto; auto].
      right. split; auto. split; [apply upd_same|]. apply GONE; auto. unfold h4. rewrite hset_other; auto. }
    assert (Lp : g_lay g1 p = Some L) by (unfold g1, g_drop; cbn [g_lay]; rewrite upd_other; auto).
    assert (Er1 : hp_node hv1 (g_root g1 L) = Some nr) by (change (g_root g1 L) with (g_root g L); unfold hv1; now rewrite hset_other by auto).
    destruct (IH h4 hv1 g1 L p lp (NInter ip4) nr (fun _ => False)) as (h' & g' & I1 & I2 & I3 & I4 & I5 & I6 & I7); auto.
    + unfold hv1. apply hset_same.
    + change (g_lo g1 p) with (g_lo g p). lia.
    + intros m nd Hm Nm Em. unfold hv1 in Em. rewrite hset_other in Em by auto.
      assert (Nmn : m <> n). { intros ->. unfold g1, g_drop in Hm; cbn [g_lay] in Hm. rewrite upd_same in Hm. discriminate. }
      destruct (K m nd ltac:(exact (gev_live _ _ _ _ _ _ m GE4 Hm)) Nmn Em) as (nd' & F1 & F2). exists nd'. split; auto. unfold h4. rewrite hset_other by auto. unfold h1. now rewrite hset_other by auto.
    + unfold h4. apply hset_same.
    + cbn. rewrite (ot_p _ _ _ _ OUT). reflexivity.
    + intros q iq EQ Eq. cbn [lp lf_set_parent lf_parent] in EQ. change (ht (NInter ip4)) with (in_height ip2). unfold hv1 in Eq. destruct (Nat.eq_dec q p) as [->|Nq]; [rewrite hset_same in Eq; discriminate|]. rewrite hset_other in Eq by auto.
      rewrite (ot_h _ _ _ _ OUT). destruct (linked_child hv g L p _ HS B C NRp) as (pp & ipp & k & Q1 & Q2 & Q3 & Q4 & Q5). cbn in Q1.
      assert (HC2 : childof hv g L p (NInter ip) pp ipp k) by (constructor; auto). destruct (nd_child HS HC2) as (_ & Q6 & _). cbn in Q6. assert (q = pp) by congruence. subst q. congruence.
    + cbn [ht in_height]. change (in_height ip4) with (in_height ip2). rewrite (ot_h _ _ _ _ OUT).
      destruct (sl_node _ _ _ _ HS p B) as (nd & nr2 & Z1 & Z2 & Z3 & _). assert (nr2 = nr) by congruence. assert (nd = NInter ip) by congruence. subst. cbn in Z3. lia.
    + change (g_lo g1 p) with (g_lo g p) in *. change (g_hi g1 p) with (g_hi g p) in *. rewrite OB1 in I1, I6, I7. rewrite OB2 in I6, I7.
      exists h', g'. split; auto. split; auto. split; [eapply hev_trans; eauto; intros m Hm; exact (gev_live _ _ _ _ _ _ m GE4 Hm)|]. split; [eapply gev_trans; eauto|]. split; [|split; auto].
      assert (GN : g_lay g1 n = None) by (unfold g1, g_drop; cbn [g_lay]; apply upd_same). destruct (ge_lay _ _ _ _ _ _ I4 n) as [Q|(Q & _)]; congruence.
Qed.
