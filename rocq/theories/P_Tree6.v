(* Insertion, part 1: changes that leave the live part of a leaf alone, the ready-to-insert state, finishing. *)
From Verif Require Import Lib Spec_String M_Key P_Key M_Permuter P_Permuter2 M_Search P_Search M_Tree P_Tree1 P_Tree2 P_Tree3 P_Tree4 P_Tree5.

(* ---- slots with the same contents ---- *)
Definition slot_eq (l : leafn) (s : nat) (l' : leafn) (s' : nat) : Prop :=
  lf_ikey l' s' = lf_ikey l s /\ lf_klx l' s' = lf_klx l s /\ lf_lv l' s' = lf_lv l s /\
  (lf_klx l s = 64 -> lf_ksuf l' s' = lf_ksuf l s).
Lemma slot_eq_refl l s : slot_eq l s l s. Proof. repeat split; auto. Qed.
Lemma slot_eq_trans l s l' s' l2 s2 : slot_eq l s l' s' -> slot_eq l' s' l2 s2 -> slot_eq l s l2 s2.
Proof. intros (A & B & C & D) (A' & B' & C' & D'). repeat split; try congruence. intros H. rewrite D', D; auto. congruence. Qed.
Lemma slot_eq_str l s l' s' : slot_eq l s l' s' -> entry_str l' s' = entry_str l s.
Proof.
  intros (A & B & C & D). unfold entry_str. rewrite A, B. destruct (lf_klx l s <=? 8); auto. f_equal.
  destruct (Z.eqb_spec (lf_klx l s) 64); auto.
Qed.
Lemma slot_eq_val L l s l' s' : slot_eq l s l' s' -> slot_val L l s -> slot_val L l' s'.
Proof.
  intros E. pose proof (slot_eq_str _ _ _ _ E) as ES. destruct E as (A & B & C & D). unfold slot_val. rewrite ES, A, B, C.
  intros [V1 [V2|(V2 & V3)]]; split; auto. right. rewrite D by auto. auto.
Qed.
Lemma slot_eq_ok h g L l s h' g' l' s' : slot_eq l s l' s' ->
  (forall r L', lptr h g r L' -> lptr h' g' r L') -> g_pre g' = g_pre g ->
  slot_ok h g L l s -> slot_ok h' g' L l' s'.
Proof.
  intros E HL HP [V|(V1 & r & L' & V2 & V3 & V4)]; [left; eapply slot_eq_val; eauto|right].
  destruct E as (A & B & C & D). split; [congruence|]. exists r, L'. rewrite HP, A. split; [congruence|]. auto.
Qed.

(* ---- a change of one leaf that leaves its live slots alone ---- *)
Record quiet (g : ghost) (L n : nat) (l l' : leafn) : Prop := {
  qt_par : lf_parent l' = lf_parent l;
  qt_perm : perm_ok W (lf_perm l');
  qt_size : perm_size (lf_perm l') = perm_size (lf_perm l);
  qt_get : forall j, (j < perm_size (lf_perm l))%nat -> perm_get (lf_perm l') j = perm_get (lf_perm l) j;
  qt_del : lf_deleted l' = false;
  qt_mod : lf_mod l' <> MsDeletedLayer;
  qt_next : lf_next l' = lf_next l;
  qt_prev : lf_prev l' = lf_prev l;
  qt_root : n = L -> lf_root l' = lf_root l;
  qt_ik0 : lf_prev l <> None -> lf_ikey l' 0%nat = lf_ikey l 0%nat;
  qt_slot : forall s, live_slot l s -> slot_eq l s l' s
}.

Lemma quiet_live g L n l l' : quiet g L n l l' -> forall s, live_slot l' s <-> live_slot l s.
Proof.
  intros Q s. pose proof (qt_size _ _ _ _ _ Q). pose proof (qt_get _ _ _ _ _ Q) as G. split; intros (j & J & E).
  - exists j. rewrite <- G by lia. split; [lia|auto].
  - exists j. rewrite G by lia. split; [lia|auto].
Qed.
Lemma quiet_trans g L n l l1 l2 : quiet g L n l l1 -> quiet g L n l1 l2 -> quiet g L n l l2.
Proof.
  intros A B. pose proof (quiet_live _ _ _ _ _ A) as LA. destruct A as [A1 A2 A3 A4 A5 A6 A7 A8 A9 A10 A11], B as [B1 B2 B3 B4 B5 B6 B7 B8 B9 B10 B11].
  constructor; try congruence; auto.
  - intros j Hj. rewrite B4 by lia. auto.
  - intros E. rewrite B9, A9; auto.
  - intros E. rewrite B10, A10; auto. congruence.
  - intros s Hs. eapply slot_eq_trans; [apply A11; auto|apply B11; now apply LA].
Qed.

Section Quiet.
Context (h : heap) (g : ghost) (L n : nat) (l l' : leafn).
Hypothesis HI : Inv h g.
Hypothesis Hn : g_lay g n = Some L.
Hypothesis En : hp_node h n = Some (NLeaf l).
Hypothesis HQ : quiet g L n l l'.
Let h' := hset h n (NLeaf l').
Let HL := quiet_live _ _ _ _ _ HQ.

Lemma quiet_inv : Inv h' g.
Proof.
  pose proof HQ as [Q1 Q2 Q3 Q4 Q5 Q6 Q7 Q8 Q9 Q10 Q11]. pose proof (iv_leaf _ _ HI L n l Hn En) as K.
  apply (leaf_update_inv h g L n l); auto.
  - intros i j Hij. rewrite Q3 in Hij. rewrite !Q4 by lia.
    assert (SI : forall a, (a < perm_size (lf_perm l))%nat -> slot_eq l (perm_get (lf_perm l) a) l' (perm_get (lf_perm l) a)).
    { intros a Ha. apply Q11. exists a. auto. }
    destruct (SI i ltac:(lia)) as (Ei & Fi & _). destruct (SI j ltac:(lia)) as (Ej & Fj & _).
    rewrite Ei, Fi, Ej, Fj. apply (lo_sorted _ _ _ _ _ K). auto.
  - intros s Hs. apply HL in Hs. destruct (lo_slots _ _ _ _ _ K s Hs) as [A B]. pose proof (Q11 s Hs) as E. split.
    + eapply slot_eq_ok; eauto.
    + destruct E as (-> & _). auto.
  - intros s r L' A B C D. exists s, r. destruct (Q11 s A) as (_ & E2 & E3 & _). rewrite E2, E3. split; auto. now apply HL.
Qed.
Lemma quiet_holds k v : holds h' g k v <-> holds h g k v.
Proof.
  apply (lu_holds_same h g L n l); auto.
  - intros s w. rewrite HL. split; intros (A & B); split; auto; destruct (qt_slot _ _ _ _ _ HQ s A) as (_ & E2 & E3 & _); rewrite E2, E3 in *; auto.
  - intros s Hs. apply slot_eq_str. now apply (qt_slot _ _ _ _ _ HQ).
Qed.
Lemma quiet_owns M m lm s r L' : owns h g M m lm s r L' -> exists lm', owns h' g M m lm' s r L' /\ lf_ikey lm' s = lf_ikey lm s.
Proof.
  intros (O1 & O2 & O3 & O4 & O5 & O6). destruct (Nat.eq_dec m n) as [->|N].
  - assert (lm = l) by congruence. subst lm. exists l'. destruct (qt_slot _ _ _ _ _ HQ s O3) as (E1 & E2 & E3 & _).
    repeat split; auto; try congruence; [apply hset_same|now apply HL].
  - exists lm. repeat split; auto. unfold h'. now rewrite hset_other.
Qed.
Lemma quiet_owns_back M m lm s r L' : owns h' g M m lm s r L' -> exists lm', owns h g M m lm' s r L'.
Proof.
  intros (O1 & O2 & O3 & O4 & O5 & O6). destruct (Nat.eq_dec m n) as [->|N].
  - unfold h' in O2. rewrite hset_same in O2. assert (lm = l') by congruence. subst lm. apply HL in O3. exists l.
    destruct (qt_slot _ _ _ _ _ HQ s O3) as (E1 & E2 & E3 & _). repeat split; auto; congruence.
  - exists lm. unfold h' in O2. rewrite hset_other in O2 by auto. repeat split; auto.
Qed.
Lemma quiet_route k M t : route h g k M t -> route h' g k M t.
Proof.
  induction 1 as [|M t M' t' R IH (A & B & m & lm & s & r & O & E)]; [constructor|]. eapply route_S; eauto.
  destruct (quiet_owns _ _ _ _ _ _ O) as (lm' & O' & E'). split; auto. split; auto. exists m, lm', s, r. split; auto. congruence.
Qed.
Lemma quiet_at_root M : at_root h g M -> at_root h' g M.
Proof. intros A M2 m lm s r O. destruct (quiet_owns_back _ _ _ _ _ _ O) as (lm' & O'). eapply A; eauto. Qed.
Lemma quiet_stale M m : stale h g M m -> stale h' g M m.
Proof. apply (lu_stale h g n l); auto. apply HQ. Qed.
Lemma quiet_node : hp_node h' n = Some (NLeaf l'). Proof. apply hset_same. Qed.
End Quiet.

(* Writing a slot that is not live. *)
Lemma not_live_back l : perm_ok W (lf_perm l) -> (perm_size (lf_perm l) < W)%nat -> ~ live_slot l (perm_back W (lf_perm l)).
Proof.
  intros P H (j & J & E). unfold perm_back in E. pose proof HW15. apply perm_get_inj in E; auto; lia.
Qed.

Definition key_klx (s : list Z) : Z := if 8 <? len s then 64 else len s.
Lemma key_klx_class s : lenclass (key_klx s) = lenclass (len s).
Proof. unfold key_klx. destruct (Z.ltb_spec 8 (len s)); auto. unfold lenclass. lia. Qed.

(* The slot contents leaf_assign writes. *)
Lemma assign_spec p ka P s l : key_rep ka P s -> let l' := leaf_assign p ka l in
  lf_ikey l' p = slice_make_comparable s /\ lf_klx l' p = key_klx s /\ lf_lv l' p = LvEmpty /\ (8 < len s -> lf_ksuf l' p = skipn 8 s) /\
  (forall q, q <> p -> slot_eq l q l' q /\ lf_ksuf l' q = lf_ksuf l q) /\
  lf_root l' = lf_root l /\ lf_deleted l' = lf_deleted l /\ lf_mod l' = lf_mod l /\ lf_perm l' = lf_perm l /\ lf_next l' = lf_next l /\
  lf_prev l' = lf_prev l /\ lf_parent l' = lf_parent l.
Proof.
  intros R l'. unfold l', leaf_assign, key_klx. pose proof (key_has_suffix_rep _ _ _ R) as HS. pose proof (key_suffix_rep _ _ _ R) as SU.
  destruct R as (_ & _ & RL & RI). rewrite HS, SU, RL, RI. destruct (Z.ltb_spec 8 (len s)); unfold slot_eq; cbn [lf_set_slot lf_ikey lf_klx lf_lv lf_ksuf lf_root lf_deleted lf_mod lf_perm lf_next lf_prev lf_parent]; unfold upd; rewrite ?Nat.eqb_refl; repeat split; auto;
    try lia; try (destruct (Nat.eqb_spec q p); [congruence|auto]).
Qed.

(* ---- ready to insert ---- *)
Record insertable (h : heap) (g : ghost) (k : list Z) (cu : cursor) (L : nat) (s : list Z) (l : leafn) (p : nat) : Prop := {
  is_k : k = g_pre g L ++ s;
  is_bytes : bytes_ok s;
  is_ne : L <> 0%nat -> s <> [];
  is_lay : g_lay g (cu_n cu) = Some L;
  is_leaf : hp_node h (cu_n cu) = Some (NLeaf l);
  is_p : cu_p cu = Some p;
  is_back : perm_back W (lf_perm l) = p;
  is_size : (perm_size (lf_perm l) < W)%nat;
  is_ik : lf_ikey l p = slice_make_comparable s;
  is_klx : lf_klx l p = key_klx s;
  is_suf : 8 < len s -> lf_ksuf l p = skipn 8 s;
  is_in : g_lo g (cu_n cu) <= slice_make_comparable s < g_hi g (cu_n cu);
  is_i : (cu_i cu <= perm_size (lf_perm l))%nat;
  is_before : forall j, (j < cu_i cu)%nat ->
    entry_lt (lf_ikey l (perm_get (lf_perm l) j), lf_klx l (perm_get (lf_perm l) j)) (slice_make_comparable s, len s);
  is_after : forall j, (cu_i cu <= j < perm_size (lf_perm l))%nat ->
    entry_lt (slice_make_comparable s, len s) (lf_ikey l (perm_get (lf_perm l) j), lf_klx l (perm_get (lf_perm l) j));
  is_free : forall v, ~ holds h g k v
}.

Lemma slice_prefix s : bytes_ok s -> len s <= 8 -> firstn (Z.to_nat (len s)) (be_bytes 8 (slice_make_comparable s)) = s.
Proof.
  intros B H. rewrite be_bytes_slice by auto. unfold len. rewrite Nat2Z.id. rewrite padn_spec.
  rewrite firstn_app, firstn_length. unfold len in H.
  replace (Nat.min 8 (length s)) with (length s) by lia. rewrite Nat.sub_diag. rewrite firstn_O, app_nil_r.
  rewrite firstn_firstn, Nat.min_l by lia. apply firstn_all.
Qed.

(* The string a slot holds once it has the key's slice, length and suffix. *)
Lemma new_entry L l p s : bytes_ok s -> (L <> 0%nat -> s <> []) -> lf_ikey l p = slice_make_comparable s -> lf_klx l p = key_klx s ->
  (8 < len s -> lf_ksuf l p = skipn 8 s) -> entry_str l p = s /\ (forall v, lf_lv l p = LvVal v -> slot_val L l p).
Proof.
  intros B N I K S. assert (E : entry_str l p = s).
  { unfold entry_str. rewrite I, K. unfold key_klx. destruct (Z.ltb_spec 8 (len s)).
    - cbn [Z.leb Z.compare Z.eqb]. change (64 <=? 8) with false. change (64 =? 64) with true. cbn iota. rewrite S by auto.
      rewrite be_bytes_slice8 by (auto; lia). apply firstn_skipn.
    - destruct (Z.leb_spec (len s) 8); [|lia]. apply slice_prefix; auto. }
  split; auto. intros v V. split; [eauto|]. rewrite E, I, K. unfold key_klx. destruct (Z.ltb_spec 8 (len s)); [right|left].
  - split; auto. rewrite S by auto. split; [|now apply bytes_ok_skipn]. intros ZZ. apply (f_equal (@length Z)) in ZZ.
    rewrite skipn_length in ZZ. unfold len in *. cbn [length] in ZZ. lia.
  - pose proof (len_nonneg s). split; [lia|]. split; auto. intros HL. specialize (N HL). destruct s; [congruence|].
    rewrite len_cons. pose proof (len_nonneg s). lia.
Qed.

(* The value is stored and the slot made live. *)
Lemma finish_ok h g k cu L s l p v : Inv h g -> insertable h g k cu L s l p ->
  exists h2 h3, cursor_set_value h cu v = Ok h2 /\ finish_insert h2 cu = Ok h3 /\ Inv h3 g /\ hp_next h3 = hp_next h /\
    (forall M m, stale h g M m -> stale h3 g M m) /\
    (forall k' v', holds h3 g k' v' <-> (k' = k /\ v' = v) \/ (k' <> k /\ holds h g k' v')).
Proof.
  intros HI J. set (n := cu_n cu). pose proof (is_lay _ _ _ _ _ _ _ _ J) as Hn. pose proof (is_leaf _ _ _ _ _ _ _ _ J) as En.
  fold n in Hn, En. pose proof (iv_leaf _ _ HI L n l Hn En) as K. pose proof (lo_perm _ _ _ _ _ K) as PO.
  pose proof (is_size _ _ _ _ _ _ _ _ J) as SZ. pose proof (is_back _ _ _ _ _ _ _ _ J) as BK. pose proof (is_i _ _ _ _ _ _ _ _ J) as II.
  assert (NL : ~ live_slot l p) by (rewrite <- BK; now apply not_live_back).
  set (l1 := lf_set_lv p (LvVal v) l). set (h2 := hset h n (NLeaf l1)).
  assert (Q : quiet g L n l l1).
  { constructor; try reflexivity; try apply K. intros q Hq. assert (q <> p) by congruence. repeat split; auto. cbn. now rewrite upd_other. }
  pose proof (quiet_inv h g L n l l1 HI Hn En Q) as HI2. pose proof (quiet_holds h g L n l l1 HI Hn En Q) as HH2. fold h2 in HI2, HH2.
  assert (En2 : hp_node h2 n = Some (NLeaf l1)) by apply hset_same.
  set (q := perm_insert_from_back W (lf_perm l) (cu_i cu)). set (l2 := lf_set_perm q l1). set (h3 := hset h2 n (NLeaf l2)).
  destruct (doc_insert_from_back W (lf_perm l) (cu_i cu) HW15 PO SZ ltac:(lia)) as (Q1 & Q2 & Q3 & Q4 & Q5). fold q in Q1, Q2, Q3, Q4, Q5.
  rewrite BK in *.
  destruct (new_entry L l2 p s (is_bytes _ _ _ _ _ _ _ _ J) (is_ne _ _ _ _ _ _ _ _ J) (is_ik _ _ _ _ _ _ _ _ J) (is_klx _ _ _ _ _ _ _ _ J) (is_suf _ _ _ _ _ _ _ _ J)) as [NE NV].
  specialize (NV v (upd_same _ _ _)).
  assert (LS : forall t, live_slot l2 t <-> t = p \/ live_slot l t).
  { intros t. split.
    - intros (j & Hj & E). cbn [l2 lf_set_perm lf_perm] in Hj, E. rewrite Q2 in Hj.
      destruct (lt_eq_lt_dec j (cu_i cu)) as [[H|H]|H].
      + right. exists j. rewrite <- (proj1 (Q3 j H)). split; [lia|auto].
      + left. subst j. congruence.
      + right. pose proof (perm_size_le _ PO). exists (j - 1)%nat. rewrite <- (proj1 (Q5 j ltac:(lia))). split; [lia|auto].
    - intros [->|(j & Hj & E)].
      + exists (cu_i cu). cbn [l2 lf_set_perm lf_perm]. rewrite Q2. split; [lia|auto].
      + destruct (Nat.lt_ge_cases j (cu_i cu)) as [H|H].
        * exists j. cbn [l2 lf_set_perm lf_perm]. rewrite Q2. split; [lia|]. now rewrite (proj1 (Q3 j H)).
        * exists (S j). cbn [l2 lf_set_perm lf_perm]. rewrite Q2. split; [lia|]. rewrite (proj1 (Q5 (S j) ltac:(lia))). replace (S j - 1)%nat with j by lia. auto. }
  assert (PK : lf_klx l2 p <> 128) by apply (slot_val_klx _ _ _ NV).
  exists h2, h3. split; [unfold cursor_set_value; rewrite (is_p _ _ _ _ _ _ _ _ J); cbn [deref bind]; fold n; rewrite (hleaf_some _ _ _ En); reflexivity|].
  split.
  { unfold finish_insert. fold n. rewrite (hleaf_some _ _ _ En2). cbn [bind]. rewrite (is_p _ _ _ _ _ _ _ _ J). cbn [deref bind].
    cbn [l1 lf_set_lv lf_perm]. rewrite BK, Nat.eqb_refl. reflexivity. }
  split.
  { apply (leaf_update_inv h2 g L n l1); auto; try apply K.
    - intros i j Hij. cbn [l2 l1 lf_set_perm lf_set_lv lf_perm lf_ikey lf_klx] in *. rewrite Q2 in Hij. pose proof (perm_size_le _ PO).
      assert (EP : forall e, entry_lt e (slice_make_comparable s, len s) -> entry_lt e (lf_ikey l p, lf_klx l p)).
      { intros e. rewrite (is_ik _ _ _ _ _ _ _ _ J), (is_klx _ _ _ _ _ _ _ _ J). unfold entry_lt. cbn [fst snd]. rewrite key_klx_class. auto. }
      assert (EP' : forall e, entry_lt (slice_make_comparable s, len s) e -> entry_lt (lf_ikey l p, lf_klx l p) e).
      { intros e. rewrite (is_ik _ _ _ _ _ _ _ _ J), (is_klx _ _ _ _ _ _ _ _ J). unfold entry_lt. cbn [fst snd]. rewrite key_klx_class. auto. }
      pose proof (lo_sorted _ _ _ _ _ K) as SO. pose proof (is_before _ _ _ _ _ _ _ _ J) as BE. pose proof (is_after _ _ _ _ _ _ _ _ J) as AF.
      destruct (lt_eq_lt_dec i (cu_i cu)) as [[Hi|Hi]|Hi]; destruct (lt_eq_lt_dec j (cu_i cu)) as [[Hj|Hj]|Hj]; try lia.
      + rewrite (proj1 (Q3 i Hi)), (proj1 (Q3 j Hj)). apply SO. lia.
      + rewrite (proj1 (Q3 i Hi)). rewrite Hj, Q4. apply EP. apply BE. auto.
      + rewrite (proj1 (Q3 i Hi)), (proj1 (Q5 j ltac:(lia))). apply SO. lia.
      + rewrite Hi, Q4, (proj1 (Q5 j ltac:(lia))). apply EP'. apply AF. lia.
      + rewrite (proj1 (Q5 i ltac:(lia))), (proj1 (Q5 j ltac:(lia))). apply SO. lia.
    - intros t Ht. apply LS in Ht. destruct Ht as [->|Ht].
      + split; [left; auto|]. change (lf_ikey l2 p) with (lf_ikey l p). rewrite (is_ik _ _ _ _ _ _ _ _ J). apply J.
      + destruct (lo_slots _ _ _ _ _ (iv_leaf _ _ HI2 L n l1 Hn En2) t Ht) as [A B]. auto.
    - intros t r L' A B C D. exists t, r. repeat split; auto. apply LS. auto. }
  split; [reflexivity|]. split.
  { intros M m Hm. apply (lu_stale h2 g n l1); auto. apply (lu_stale h g n l); auto. }
  intros k' v'. unfold h3. rewrite (lu_holds h2 g L n l2 Hn).
  pose proof (holds_split h2 g L n l1 k' v' Hn En2) as SP. rewrite HH2 in SP.
  assert (FREE : holds h g k' v' -> k' <> k) by (intros H ->; exact (is_free _ _ _ _ _ _ _ _ J _ H)).
  split.
  - intros [A|(t & A & B & C & D)].
    + right. assert (holds h g k' v') by tauto. auto.
    + apply LS in A. destruct A as [->|A].
      * left. cbn [l2 l1 lf_set_perm lf_set_lv lf_lv] in C. rewrite upd_same in C. rewrite D, NE. split; [symmetry; apply J|congruence].
      * right. assert (holds h g k' v') by (apply SP; right; exists t; auto). auto.
  - intros [[-> ->]|[N H]].
    + right. exists p. split; [apply LS; auto|]. split; auto. split; [apply upd_same|]. rewrite NE. apply J.
    + apply SP in H. destruct H as [H|(t & A & B)]; [left; auto|right]. exists t. split; [apply LS; auto|auto].
Qed.

(* The value of a found key is replaced. *)
Lemma replace_ok h g k cu L s l p v : Inv h g -> located h g k cu L s l -> bytes_ok k -> cu_p cu = Some p -> cu_state cu <> 0 ->
  exists h2, cursor_set_value h cu v = Ok h2 /\ Inv h2 g /\ hp_next h2 = hp_next h /\
    (forall M m, stale h g M m -> stale h2 g M m) /\
    (exists v0, cursor_value h cu = Ok v0 /\ holds h g k v0) /\
    (forall k' v', holds h2 g k' v' <-> (k' = k /\ v' = v) \/ (k' <> k /\ holds h g k' v')).
Proof.
  intros HI J Hk Hp Hst. set (n := cu_n cu). pose proof (lc_lay _ _ _ _ _ _ _ J) as Hn. pose proof (lc_leaf _ _ _ _ _ _ _ J) as En. fold n in Hn, En.
  pose proof (lc_state _ _ _ _ _ _ _ J) as ST. rewrite Hp in ST. destruct ST as [LV [(E & _)|(E1 & E2 & E3 & v0 & E4 & E5)]]; [lia|].
  pose proof (iv_leaf _ _ HI L n l Hn En) as K.
  destruct (route_pre h g HI _ _ _ Hk (lc_route _ _ _ _ _ _ _ J)) as (Ek & Bs & _).
  set (l1 := lf_set_lv p (LvVal v) l). exists (hset h n (NLeaf l1)).
  split; [unfold cursor_set_value; rewrite Hp; cbn [deref bind]; fold n; rewrite (hleaf_some _ _ _ En); reflexivity|].
  split.
  { apply (leaf_update_inv h g L n l); auto; try apply K.
    - intros t Ht. destruct (lo_slots _ _ _ _ _ K t Ht) as [A B]. split; [|exact B]. destruct (Nat.eq_dec t p) as [->|N].
      + destruct A as [[A1 A2]|(A & _)]; [|congruence]. left. split; [exists v; apply upd_same|exact A2].
      + eapply slot_eq_ok; eauto. repeat split; auto. cbn. now rewrite upd_other.
    - intros t r L' A B C D. exists t, r. assert (t <> p) by congruence. repeat split; auto. cbn. now rewrite upd_other. }
  split; [reflexivity|]. split; [intros M m Hm; apply (lu_stale h g n l); auto|].
  split.
  { exists v0. split; [|now apply E5]. unfold cursor_value. rewrite Hp. cbn [deref bind]. fold n. rewrite (hleaf_some _ _ _ En). cbn [bind]. now rewrite E4. }
  intros k' v'. rewrite (lu_holds h g L n l1 Hn). pose proof (holds_split h g L n l k' v' Hn En) as SP.
  assert (EQ : forall t, live_slot l t -> lf_klx l t <> 128 -> g_pre g L ++ entry_str l t = k -> t = p).
  { intros t Ht Hx E. rewrite Ek in E. apply app_inv_head in E. rewrite <- E3 in E.
    destruct (lo_slots _ _ _ _ _ K t Ht) as [[VT|(VT & _)] _]; [|congruence].
    destruct (lo_slots _ _ _ _ _ K p LV) as [[VP|(VP & _)] _]; [|congruence].
    destruct (entry_facts L l t (inv_ikey h g HI _ _ _ _ Hn En Ht) VT) as (_ & F1 & F2 & _).
    destruct (entry_facts L l p (inv_ikey h g HI _ _ _ _ Hn En LV) VP) as (_ & G1 & G2 & _).
    apply (same_slot l); auto; [apply K| |]; congruence. }
  assert (OT : forall M m lm t, m <> n -> g_lay g m = Some M -> hp_node h m = Some (NLeaf lm) -> live_slot lm t -> lf_klx lm t <> 128 ->
     lf_lv lm t = LvVal v' -> g_pre g M ++ entry_str lm t <> k).
  { intros M m lm t N H1 H2 H3 H4 H5 H6. pose proof (proj2 (E5 v0) eq_refl) as (M1 & m1 & lm1 & t1 & P1).
    assert (HR := holds_route h g HI k v' M m lm t H1 H2 H3 H4 H5 (eq_sym H6)). destruct HR as (R1 & B1 & V1).
    assert (R2 : route h g k L (entry_str l p)) by (rewrite E3; apply J).
    destruct (lo_slots _ _ _ _ _ K p LV) as [[VP|(VP & _)] _]; [|congruence].
    assert (HL : M = L /\ entry_str lm t = entry_str l p).
    { destruct (route_linear h g HI _ _ _ _ _ R2 R1) as [[-> E]|[(L' & s' & S)|(L' & s' & S)]]; [split; auto| |].
      - exfalso. destruct S as (S8 & _ & n2 & l2 & sl & r & (Q1 & Q2 & Q3 & Q4 & Q5 & Q6) & QE).
        destruct (entry_facts L l p (inv_ikey h g HI _ _ _ _ Hn En LV) VP) as (_ & G1 & G2 & _).
        destruct (slot_unique h g HI L n l p n2 l2 sl Hn En LV Q1 Q2 Q3) as (-> & -> & ->); [congruence| |congruence].
        rewrite Q4, <- G2. unfold lenclass. lia.
      - exfalso. destruct S as (S8 & _ & n2 & l2 & sl & r & (Q1 & Q2 & Q3 & Q4 & Q5 & Q6) & QE).
        destruct (entry_facts M lm t (inv_ikey h g HI _ _ _ _ H1 H2 H3) V1) as (_ & G1 & G2 & _).
        destruct (slot_unique h g HI M m lm t n2 l2 sl H1 H2 H3 Q1 Q2 Q3) as (-> & -> & ->); [congruence| |congruence].
        rewrite Q4, <- G2. unfold lenclass. lia. }
    destruct HL as [-> HE].
    destruct (entry_facts L l p (inv_ikey h g HI _ _ _ _ Hn En LV) VP) as (_ & G1 & G2 & _).
    destruct (entry_facts L lm t (inv_ikey h g HI _ _ _ _ H1 H2 H3) V1) as (_ & F1 & F2 & _).
    destruct (slot_unique h g HI L n l p m lm t Hn En LV H1 H2 H3) as (-> & _); try congruence. }
  split.
  - intros [(M & m & lm & t & N & H1 & H2 & H3 & H4 & H5 & H6)|(t & A & B & C & D)].
    + right. split; [rewrite H6; eapply OT; eauto|]. apply SP. left. exists M, m, lm, t. auto 10.
    + change (live_slot l t) in A. change (lf_klx l t <> 128) in B. change (entry_str l1 t) with (entry_str l t) in D.
      destruct (Nat.eq_dec t p) as [->|N].
      * left. cbn [l1 lf_set_lv lf_lv] in C. rewrite upd_same in C. split; [rewrite D, E3; auto|congruence].
      * right. cbn [l1 lf_set_lv lf_lv] in C. rewrite upd_other in C by auto. split; [intros ->; apply N; apply EQ; auto|].
        apply SP. right. exists t. auto.
  - intros [[-> ->]|[N H]].
    + right. exists p. repeat split; auto; [apply upd_same|]. change (entry_str l1 p) with (entry_str l p). congruence.
    + apply SP in H. destruct H as [H|(t & A & B & C & D)]; [left; auto|right]. exists t.
      assert (t <> p) by (intros ->; apply N; rewrite D, E3; auto). repeat split; auto. cbn. now rewrite upd_other.
Qed.
