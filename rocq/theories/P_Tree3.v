(* The invariant of the whole tree, the key/value relation it represents, and lookups. *)
From Verif Require Import Lib Spec_String M_Key P_Key M_Permuter P_Permuter2 M_Search P_Search M_Tree P_Tree1 P_Tree2.

(* The key remainder stored in a slot (a layer slot stores only the slice). *)
Definition entry_str (l : leafn) (s : nat) : list Z :=
  if lf_klx l s <=? 8 then firstn (Z.to_nat (lf_klx l s)) (be_bytes 8 (lf_ikey l s))
  else be_bytes 8 (lf_ikey l s) ++ (if lf_klx l s =? 64 then lf_ksuf l s else []).

Definition live_slot (l : leafn) (s : nat) : Prop := exists j, (j < perm_size (lf_perm l))%nat /\ perm_get (lf_perm l) j = s.

(* A layer pointer names the layer's root or a former root whose parent is the root. *)
Definition lptr (h : heap) (g : ghost) (r L' : nat) : Prop :=
  g_lay g r = Some L' /\ exists nr, hp_node h r = Some nr /\ (r = g_root g L' \/ n_parent nr = Some (g_root g L')) /\
    (r = L' \/ exists i, nr = NInter i).

Definition slot_val (L : nat) (l : leafn) (s : nat) : Prop :=
  (exists v, lf_lv l s = LvVal v) /\
  ((0 <= lf_klx l s <= 8 /\ slice_make_comparable (entry_str l s) = lf_ikey l s /\ (L <> 0%nat -> 1 <= lf_klx l s)) \/
   (lf_klx l s = 64 /\ lf_ksuf l s <> [] /\ bytes_ok (lf_ksuf l s))).
Definition slot_layer (h : heap) (g : ghost) (L : nat) (l : leafn) (s : nat) : Prop :=
  lf_klx l s = 128 /\ exists r L', lf_lv l s = LvLayer r /\ lptr h g r L' /\ g_pre g L' = g_pre g L ++ be_bytes 8 (lf_ikey l s).
Definition slot_ok h g L l s : Prop := slot_val L l s \/ slot_layer h g L l s.

Record leaf_ok (h : heap) (g : ghost) (L n : nat) (l : leafn) : Prop := {
  lo_perm : perm_ok W (lf_perm l);
  lo_del : lf_deleted l = false;
  lo_mod : lf_mod l <> MsDeletedLayer;
  lo_sorted : leaf_sorted (lf_perm l) (lf_ikey l) (lf_klx l);
  lo_slots : forall s, live_slot l s -> slot_ok h g L l s /\ g_lo g n <= lf_ikey l s < g_hi g n;
  lo_prev : match lf_prev l with
            | None => n = L
            | Some q => n <> L /\ lf_ikey l 0%nat = g_lo g n /\ g_lay g q = Some L /\ g_hi g q = g_lo g n /\
                        exists lq, hp_node h q = Some (NLeaf lq) /\ lf_next lq = Some n
            end;
  lo_next : match lf_next l with
            | None => g_hi g n = U64
            | Some q => g_lay g q = Some L /\ g_hi g n = g_lo g q /\
                        exists lq, hp_node h q = Some (NLeaf lq) /\ lf_prev lq = Some n
            end;
  lo_flag : n = L -> lf_root l = true <-> g_root g L = L
}.

Definition owns (h : heap) (g : ghost) (L n : nat) (l : leafn) (s r L' : nat) : Prop :=
  g_lay g n = Some L /\ hp_node h n = Some (NLeaf l) /\ live_slot l s /\ lf_klx l s = 128 /\ lf_lv l s = LvLayer r /\
  g_lay g r = Some L'.

Record Inv (h : heap) (g : ghost) : Prop := {
  iv_heap : heap_ok h;
  iv_l0 : g_lay g 0 = Some 0%nat /\ g_pre g 0 = [];
  iv_lay : forall m L, g_lay g m = Some L -> SL h g (noexc g) L;
  iv_leaf : forall L n l, g_lay g n = Some L -> hp_node h n = Some (NLeaf l) -> leaf_ok h g L n l;
  iv_owner : forall L', g_lay g L' = Some L' -> L' <> 0%nat -> exists L n l s r, owns h g L n l s r L';
  iv_pre : forall L, g_lay g L = Some L -> bytes_ok (g_pre g L);
  iv_dead : forall m L, g_dead g m = Some L -> g_lay g L = Some L
}.

(* The relation the tree represents. *)
Definition holds (h : heap) (g : ghost) (k : list Z) (v : Z) : Prop :=
  exists L n l s, g_lay g n = Some L /\ hp_node h n = Some (NLeaf l) /\ live_slot l s /\ lf_klx l s <> 128 /\
    lf_lv l s = LvVal v /\ k = g_pre g L ++ entry_str l s.

Lemma HW15 : (1 <= W <= 15)%nat. Proof. unfold W. lia. Qed.

(* ---- entries ---- *)
Lemma slot_val_klx L l s : slot_val L l s -> lf_klx l s <> 128 /\ (0 <= lf_klx l s <= 8 \/ lf_klx l s = 64).
Proof. intros [_ [[H _]|[H _]]]; lia. Qed.


Lemma entry_facts L l s : 0 <= lf_ikey l s < U64 -> slot_val L l s ->
  bytes_ok (entry_str l s) /\ slice_make_comparable (entry_str l s) = lf_ikey l s /\
  lenclass (len (entry_str l s)) = lenclass (lf_klx l s) /\
  skipn 8 (entry_str l s) = (if lf_klx l s =? 64 then lf_ksuf l s else []) /\ (L <> 0%nat -> entry_str l s <> []).
Proof.
  intros Hi [_ [(Hk & Hc & H1)|(Hk & Hn & Hb)]].
  - rewrite Hc. revert Hc. unfold entry_str. destruct (Z.leb_spec (lf_klx l s) 8); [|lia]. intros Hc.
    assert (Hl : length (firstn (Z.to_nat (lf_klx l s)) (be_bytes 8 (lf_ikey l s))) = Z.to_nat (lf_klx l s)).
    { rewrite firstn_length, be_bytes_length. lia. }
    split; [apply bytes_ok_firstn, be_bytes_ok|]. split; auto. split.
    { unfold len. rewrite Hl. unfold lenclass. lia. }
    split.
    + destruct (Z.eqb_spec (lf_klx l s) 64); [lia|]. apply skipn_all2. lia.
    + intros HL E. specialize (H1 HL). rewrite E in Hl. cbn in Hl. lia.
  - assert (E8 : length (be_bytes 8 (lf_ikey l s)) = 8%nat) by apply be_bytes_length.
    unfold entry_str. destruct (Z.leb_spec (lf_klx l s) 8); [lia|]. destruct (Z.eqb_spec (lf_klx l s) 64); [|lia].
    assert (B : bytes_ok (be_bytes 8 (lf_ikey l s) ++ lf_ksuf l s)) by (apply bytes_ok_app; auto using be_bytes_ok).
    split; auto. split.
    { rewrite slice_make_comparable_padn by auto.
      rewrite <- (be_val_bytes 8 (lf_ikey l s)) at 2 by (rewrite U64_eq in Hi; exact Hi).
      reflexivity. }
    split.
    { rewrite len_app. unfold len at 1. rewrite E8. destruct (lf_ksuf l s); [congruence|]. rewrite len_cons.
      pose proof (len_nonneg l0). unfold lenclass. lia. }
    split; [|intros _ E; apply app_eq_nil in E; tauto].
    rewrite skipn_app, E8, skipn_all2 by lia. reflexivity.
Qed.

Lemma entry_is L l s t : 0 <= lf_ikey l s < U64 -> slot_val L l s -> bytes_ok t ->
  entry_str l s = t <-> (lf_ikey l s = slice_make_comparable t /\ lenclass (lf_klx l s) = lenclass (len t) /\
                         (lf_klx l s = 64 -> lf_ksuf l s = skipn 8 t)).
Proof.
  intros Hi Hv Ht. destruct (entry_facts L l s Hi Hv) as (B & E & Lc & Sk & _). split.
  - intros <-. repeat split; auto. intros H. rewrite Sk, H. reflexivity.
  - intros (E1 & E2 & E3). apply slice_inj; auto; try congruence.
    + fold (lenclass (len (entry_str l s))). fold (lenclass (len t)). congruence.
    + rewrite Sk. destruct (Z.eqb_spec (lf_klx l s) 64) as [H|H]; auto.
      destruct (slot_val_klx L l s Hv) as [_ [H8|]]; [|lia]. symmetry. apply skipn_all2.
      unfold lenclass, len in *. lia.
Qed.

Lemma ksuf_same_iff a b : ksuf_same a b = true <-> a = b.
Proof.
  unfold ksuf_same. rewrite andb_true_iff, Z.eqb_eq. split.
  - intros [E M]. assert (El : length a = length b) by (unfold len in E; lia).
    apply memcmp_eq_spec in M; [|lia|lia]. rewrite firstn_all in M. rewrite El, firstn_all in M. auto.
  - intros <-. split; auto. apply memcmp_eq_spec; auto.
Qed.

(* ---- consequences of the invariant ---- *)
Lemma app_inj_tail_iff' {A} (a b c d : list A) : length c = length d -> a ++ c = b ++ d -> a = b /\ c = d.
Proof.
  intros Hl E. assert (length a = length b) by (apply (f_equal (@length A)) in E; rewrite !app_length in E; lia).
  revert b H E. induction a as [|x a IH]; intros [|y b] H E; cbn in *; try lia; auto.
  inversion E; subst. destruct (IH b ltac:(lia)) as [-> ->]; auto.
Qed.
Lemma perm_get_inj x i j : perm_ok W x -> (i < W)%nat -> (j < W)%nat -> perm_get x i = perm_get x j -> i = j.
Proof. intros (_ & _ & P). apply pinj_iff in P; [|unfold W; lia]. apply P. Qed.
Lemma perm_get_lt x j : perm_ok W x -> (j < W)%nat -> (perm_get x j < W)%nat.
Proof. intros (_ & _ & P). apply pinj_iff in P; [|unfold W; lia]. apply P. Qed.
Lemma perm_size_le x : perm_ok W x -> (perm_size x <= W)%nat.
Proof. intros (_ & P & _). auto. Qed.

Section I.
Context (h : heap) (g : ghost).
Hypothesis HI : Inv h g.

Lemma inv_layer m L : g_lay g m = Some L -> g_lay g L = Some L.
Proof. intros H. exact (proj1 (sl_first _ _ _ _ (iv_lay _ _ HI m L H))). Qed.

Lemma inv_bounds m L : g_lay g m = Some L -> 0 <= g_lo g m < g_hi g m /\ g_hi g m <= U64.
Proof.
  intros H. destruct (sl_node _ _ _ _ (iv_lay _ _ HI m L H) m H) as (? & ? & _ & _ & _ & B1 & B2 & _). auto.
Qed.

Lemma inv_ikey L n l s : g_lay g n = Some L -> hp_node h n = Some (NLeaf l) -> live_slot l s -> 0 <= lf_ikey l s < U64.
Proof.
  intros H1 H2 H3. destruct (lo_slots _ _ _ _ _ (iv_leaf _ _ HI L n l H1 H2) s H3) as [_ B].
  destruct (inv_bounds n L H1). lia.
Qed.

Lemma same_slot l s1 s2 : leaf_sorted (lf_perm l) (lf_ikey l) (lf_klx l) -> live_slot l s1 -> live_slot l s2 ->
  lf_ikey l s1 = lf_ikey l s2 -> lenclass (lf_klx l s1) = lenclass (lf_klx l s2) -> s1 = s2.
Proof.
  intros S (j1 & J1 & <-) (j2 & J2 & <-) E1 E2.
  destruct (lt_eq_lt_dec j1 j2) as [[Hl| ->]|Hl]; auto; exfalso.
  - specialize (S j1 j2 ltac:(lia)). unfold entry_lt in S. cbn [fst snd] in S. lia.
  - specialize (S j2 j1 ltac:(lia)). unfold entry_lt in S. cbn [fst snd] in S. lia.
Qed.

Lemma leaf_at L n1 n2 l1 l2 y : g_lay g n1 = Some L -> hp_node h n1 = Some (NLeaf l1) -> g_lo g n1 <= y < g_hi g n1 ->
  g_lay g n2 = Some L -> hp_node h n2 = Some (NLeaf l2) -> g_lo g n2 <= y < g_hi g n2 -> n1 = n2.
Proof.
  intros. pose proof (iv_lay _ _ HI n1 L H) as S. eapply (leaf_unique h g _ L S y); eauto. apply clear_noexc.
Qed.

Lemma slot_unique L n1 l1 s1 n2 l2 s2 :
  g_lay g n1 = Some L -> hp_node h n1 = Some (NLeaf l1) -> live_slot l1 s1 ->
  g_lay g n2 = Some L -> hp_node h n2 = Some (NLeaf l2) -> live_slot l2 s2 ->
  lf_ikey l1 s1 = lf_ikey l2 s2 -> lenclass (lf_klx l1 s1) = lenclass (lf_klx l2 s2) -> n1 = n2 /\ l1 = l2 /\ s1 = s2.
Proof.
  intros A1 A2 A3 B1 B2 B3 E1 E2.
  destruct (lo_slots _ _ _ _ _ (iv_leaf _ _ HI L n1 l1 A1 A2) s1 A3) as [_ B].
  destruct (lo_slots _ _ _ _ _ (iv_leaf _ _ HI L n2 l2 B1 B2) s2 B3) as [_ B'].
  assert (n1 = n2) by (eapply leaf_at with (y := lf_ikey l1 s1); eauto; lia). subst n2.
  assert (l1 = l2) by congruence. subst l2. repeat split; auto.
  eapply same_slot; eauto. exact (lo_sorted _ _ _ _ _ (iv_leaf _ _ HI L n1 l1 A1 A2)).
Qed.

Lemma owns_pre L n l s r L' : owns h g L n l s r L' -> g_pre g L' = g_pre g L ++ be_bytes 8 (lf_ikey l s) /\ lptr h g r L'.
Proof.
  intros (O1 & O2 & O3 & O4 & O5 & O6).
  destruct (lo_slots _ _ _ _ _ (iv_leaf _ _ HI L n l O1 O2) s O3) as [[V|(_ & r' & L2 & E1 & E2 & E3)] _].
  - destruct (slot_val_klx _ _ _ V). lia.
  - assert (r' = r) by congruence. subst r'. destruct E2 as (E2 & E4). assert (L2 = L') by congruence. subst. split; auto. split; auto.
Qed.

(* ---- the layers a key passes through ---- *)
Definition rstep (L : nat) (s : list Z) (L' : nat) (s' : list Z) : Prop :=
  8 < len s /\ s' = skipn 8 s /\ exists n l sl r, owns h g L n l sl r L' /\ lf_ikey l sl = slice_make_comparable s.
Inductive route (k : list Z) : nat -> list Z -> Prop :=
| route_0 : route k 0%nat k
| route_S L s L' s' : route k L s -> rstep L s L' s' -> route k L' s'.

Lemma rstep_det L s L1 s1 L2 s2 : rstep L s L1 s1 -> rstep L s L2 s2 -> L1 = L2 /\ s1 = s2.
Proof.
  intros (A1 & A2 & n1 & l1 & sl1 & r1 & (O1 & O2 & O3 & O4 & O5 & O6) & A3)
         (B1 & B2 & n2 & l2 & sl2 & r2 & (Q1 & Q2 & Q3 & Q4 & Q5 & Q6) & B3).
  destruct (slot_unique L n1 l1 sl1 n2 l2 sl2) as (-> & -> & ->); auto; [congruence|now rewrite O4, Q4|].
  split; [|congruence]. assert (r1 = r2) by congruence. subst. congruence.
Qed.

Lemma be_bytes_slice8 t : bytes_ok t -> 8 <= len t -> be_bytes 8 (slice_make_comparable t) = firstn 8 t.
Proof. intros H L. rewrite be_bytes_slice by auto. rewrite padn_spec. rewrite firstn_length.
  replace (8 - Nat.min 8 (length t))%nat with 0%nat by (unfold len in L; lia). cbn [repeat]. apply app_nil_r. Qed.

Lemma slice_be8 ik t : 0 <= ik < U64 -> bytes_ok t -> slice_make_comparable (be_bytes 8 ik ++ t) = ik.
Proof.
  intros Hi Ht. assert (E8 : length (be_bytes 8 ik) = 8%nat) by apply be_bytes_length.
  rewrite slice_make_comparable_padn by (apply bytes_ok_app; auto using be_bytes_ok).
  rewrite <- (be_val_bytes 8 ik) at 2 by (rewrite U64_eq in Hi; exact Hi).
  reflexivity.
Qed.

Lemma route_pre k L s : bytes_ok k -> route k L s -> k = g_pre g L ++ s /\ bytes_ok s /\ g_lay g L = Some L /\ (L <> 0%nat -> s <> []).
Proof.
  intros Hk. induction 1 as [|L s L' s' R IH (H8 & -> & n & l & sl & r & O & E)].
  - destruct (iv_l0 _ _ HI) as [A B]. rewrite B. repeat split; auto.
  - destruct IH as (E1 & E2 & E3 & _). destruct (owns_pre _ _ _ _ _ _ O) as [P _]. rewrite P, E, be_bytes_slice8 by (auto; lia).
    rewrite <- app_assoc, firstn_skipn. repeat split; auto using bytes_ok_skipn.
    + destruct O as (_ & _ & _ & _ & _ & O6). eapply inv_layer; eauto.
    + intros _ N. assert (length (skipn 8 s) = 0%nat) by now rewrite N. rewrite skipn_length in H. unfold len in H8. lia.
Qed.

Lemma route_complete : forall d L t, (length (g_pre g L) <= d)%nat -> g_lay g L = Some L -> bytes_ok t -> (L <> 0%nat -> t <> []) ->
  route (g_pre g L ++ t) L t.
Proof.
  induction d as [|d IH]; intros L t Hd HL Ht Hn; (destruct (Nat.eq_dec L 0) as [->|N];
    [destruct (iv_l0 _ _ HI) as [A B]; rewrite B; constructor|]);
    destruct (iv_owner _ _ HI L HL N) as (M & n & l & s & r & O); destruct (owns_pre _ _ _ _ _ _ O) as [P _];
    pose proof (be_bytes_length 8 (lf_ikey l s)) as E8.
  - rewrite P, app_length in Hd. lia.
  - rewrite P, app_length in Hd. pose proof O as (O1 & O2 & O3 & O4 & O5 & O6).
    assert (Tn : t <> []) by auto.
    rewrite P, <- app_assoc. apply route_S with (L := M) (s := be_bytes 8 (lf_ikey l s) ++ t).
    + apply IH; [lia|eapply inv_layer; eauto|apply bytes_ok_app; auto using be_bytes_ok|]. intros _ E. apply app_eq_nil in E. tauto.
    + split; [|split].
      * rewrite len_app. unfold len. rewrite E8. destruct t; [congruence|]. cbn [length]. lia.
      * rewrite skipn_app, E8, skipn_all2 by lia. reflexivity.
      * exists n, l, s, r. split; auto. symmetry. apply slice_be8; auto. exact (inv_ikey _ _ _ _ O1 O2 O3).
Qed.


(* Two positions on one key's route: equal, or one of them goes on through a layer slot. *)
Inductive routen (k : list Z) : nat -> nat -> list Z -> Prop :=
| routen_0 : routen k 0 0%nat k
| routen_S d L s L' s' : routen k d L s -> rstep L s L' s' -> routen k (S d) L' s'.
Lemma route_routen k L s : route k L s -> exists d, routen k d L s.
Proof. induction 1 as [|L s L' s' R [d IH] Hs]; [exists 0%nat; constructor|]. exists (S d). econstructor; eauto. Qed.
Lemma routen_route k d L s : routen k d L s -> route k L s.
Proof. induction 1; econstructor; eauto. Qed.
Lemma routen_det k d : forall L1 s1 L2 s2, routen k d L1 s1 -> routen k d L2 s2 -> L1 = L2 /\ s1 = s2.
Proof.
  induction d as [|d IH]; intros L1 s1 L2 s2 R1 R2; inversion R1; inversion R2; subst; auto.
  match goal with A : routen k d ?a ?b, B : routen k d ?c ?e |- _ => destruct (IH _ _ _ _ A B) as [-> ->] end.
  eauto using rstep_det.
Qed.
Lemma routen_more k d1 L1 s1 : routen k d1 L1 s1 -> forall d2 L2 s2, routen k d2 L2 s2 -> (d1 < d2)%nat ->
  exists L' s', rstep L1 s1 L' s'.
Proof.
  intros R1 d2 L2 s2 R2. induction R2 as [|d L s L' s' R2 IH S]; intros Hlt; [lia|].
  destruct (Nat.eq_dec d d1) as [->|]; [|apply IH; lia].
  destruct (routen_det _ _ _ _ _ _ R1 R2) as [-> ->]. eauto.
Qed.
Lemma routen_len k d L s : routen k d L s -> (length k = length s + 8 * d)%nat.
Proof.
  induction 1 as [|d L s L' s' R IH (H8 & -> & _)]; [lia|]. rewrite skipn_length. unfold len in H8. lia.
Qed.
Lemma route_linear k L1 s1 L2 s2 : route k L1 s1 -> route k L2 s2 ->
  (L1 = L2 /\ s1 = s2) \/ (exists L' s', rstep L1 s1 L' s') \/ (exists L' s', rstep L2 s2 L' s').
Proof.
  intros R1 R2. destruct (route_routen _ _ _ R1) as (d1 & D1), (route_routen _ _ _ R2) as (d2 & D2).
  destruct (lt_eq_lt_dec d1 d2) as [[H| ->]|H].
  - right. left. exact (routen_more _ _ _ _ D1 _ _ _ D2 H).
  - left. eapply routen_det; eauto.
  - right. right. exact (routen_more _ _ _ _ D2 _ _ _ D1 H).
Qed.

(* Prefixes name layers, and a layer has one owner. *)
Lemma pre_inj L1 L2 : g_lay g L1 = Some L1 -> g_lay g L2 = Some L2 -> g_pre g L1 = g_pre g L2 -> L1 = L2.
Proof.
  intros H1 H2 E.
  assert (B : bytes_ok [0]) by (repeat constructor; lia).
  pose proof (route_complete _ L1 [0] (le_n _) H1 B ltac:(discriminate)) as R1.
  pose proof (route_complete _ L2 [0] (le_n _) H2 B ltac:(discriminate)) as R2. rewrite E in R1.
  destruct (route_routen _ _ _ R1) as (d1 & D1), (route_routen _ _ _ R2) as (d2 & D2).
  pose proof (routen_len _ _ _ _ D1). pose proof (routen_len _ _ _ _ D2). cbn [length] in *.
  assert (d1 = d2) by lia. subst. eapply routen_det; eauto.
Qed.
Lemma owner_unique L1 n1 l1 s1 r1 L2 n2 l2 s2 r2 L' : owns h g L1 n1 l1 s1 r1 L' -> owns h g L2 n2 l2 s2 r2 L' ->
  L1 = L2 /\ n1 = n2 /\ l1 = l2 /\ s1 = s2 /\ r1 = r2.
Proof.
  intros O1 O2. destruct (owns_pre _ _ _ _ _ _ O1) as [P1 _], (owns_pre _ _ _ _ _ _ O2) as [P2 _].
  destruct O1 as (A1 & A2 & A3 & A4 & A5 & A6), O2 as (B1 & B2 & B3 & B4 & B5 & B6).
  pose proof (be_bytes_length 8 (lf_ikey l1 s1)) as E1. pose proof (be_bytes_length 8 (lf_ikey l2 s2)) as E2.
  assert (E : g_pre g L1 = g_pre g L2 /\ be_bytes 8 (lf_ikey l1 s1) = be_bytes 8 (lf_ikey l2 s2)).
  { assert (P : g_pre g L1 ++ be_bytes 8 (lf_ikey l1 s1) = g_pre g L2 ++ be_bytes 8 (lf_ikey l2 s2)) by congruence.
    apply app_inj_tail_iff' with (2 := P). lia. }
  destruct E as [Ep Eb].
  assert (L1 = L2) by (apply pre_inj; eauto using inv_layer). subst L2.
  assert (Ei : lf_ikey l1 s1 = lf_ikey l2 s2).
  { pose proof (inv_ikey _ _ _ _ A1 A2 A3) as I1. pose proof (inv_ikey _ _ _ _ B1 B2 B3) as I2. rewrite U64_eq in I1, I2.
    rewrite <- (be_val_bytes 8 (lf_ikey l1 s1)) by exact I1. rewrite <- (be_val_bytes 8 (lf_ikey l2 s2)) by exact I2. congruence. }
  destruct (slot_unique L1 n1 l1 s1 n2 l2 s2) as (-> & -> & ->); auto; [now rewrite A4, B4|].
  repeat split; auto. congruence.
Qed.

(* ---- which slot decides a key ---- *)
Lemma holds_route k v L n l s : g_lay g n = Some L -> hp_node h n = Some (NLeaf l) -> live_slot l s -> lf_klx l s <> 128 ->
  lf_lv l s = LvVal v -> k = g_pre g L ++ entry_str l s -> route k L (entry_str l s) /\ bytes_ok (entry_str l s) /\ slot_val L l s.
Proof.
  intros H1 H2 H3 H4 H5 ->. pose proof (inv_ikey _ _ _ _ H1 H2 H3) as Hi.
  destruct (lo_slots _ _ _ _ _ (iv_leaf _ _ HI L n l H1 H2) s H3) as [[V|(E & _)] _]; [|lia].
  destruct (entry_facts L l s Hi V) as (B & _ & _ & _ & N).
  split; auto. eapply route_complete; eauto using inv_layer.
Qed.

(* If the key's remainder in layer L is s and no layer slot of L continues it, then k is held iff a slot of L is s. *)
Lemma holds_here k L s v : bytes_ok k -> route k L s -> (forall L' s', ~ rstep L s L' s') ->
  holds h g k v <-> exists n l sl, g_lay g n = Some L /\ hp_node h n = Some (NLeaf l) /\ live_slot l sl /\ lf_klx l sl <> 128 /\
    lf_lv l sl = LvVal v /\ entry_str l sl = s.
Proof.
  intros Hk R Hno. destruct (route_pre _ _ _ Hk R) as (Ek & Bs & Ll & _). split.
  - intros (L1 & n & l & sl & H1 & H2 & H3 & H4 & H5 & H6).
    destruct (holds_route _ _ _ _ _ _ H1 H2 H3 H4 H5 H6) as (R1 & B1 & V1).
    destruct (route_linear _ _ _ _ _ R R1) as [[-> ->]|[(L' & s' & S)|(L' & s' & S)]].
    + exists n, l, sl. auto 10.
    + exfalso. eapply Hno; eauto.
    + exfalso. destruct S as (S8 & _ & n2 & l2 & sl2 & r2 & (O1 & O2 & O3 & O4 & O5 & O6) & E).
      pose proof (inv_ikey _ _ _ _ H1 H2 H3) as Hi. destruct (entry_facts L1 l sl Hi V1) as (_ & F1 & F2 & _).
      assert (H9 : lenclass (lf_klx l sl) = 9) by (rewrite <- F2; unfold lenclass; lia).
      destruct (slot_unique L1 n l sl n2 l2 sl2) as (-> & -> & ->); auto; [congruence|].
      rewrite H9, O4. reflexivity.
  - intros (n & l & sl & H1 & H2 & H3 & H4 & H5 & H6). exists L, n, l, sl. rewrite H6. auto 10.
Qed.

(* What the search of one leaf tells. *)
Lemma lf_lower_ok l k : leaf_sorted (lf_perm l) (lf_ikey l) (lf_klx l) ->
  exists i p, lf_lower l k = Ok (i, p) /\ (i <= perm_size (lf_perm l))%nat /\
    (forall j, (j < i)%nat -> entry_lt (lf_ikey l (perm_get (lf_perm l) j), lf_klx l (perm_get (lf_perm l) j)) (k_ikey k, k_len k)) /\
    (forall j, (i < j < perm_size (lf_perm l))%nat -> entry_lt (k_ikey k, k_len k) (lf_ikey l (perm_get (lf_perm l) j), lf_klx l (perm_get (lf_perm l) j))) /\
    match p with
    | Some p => (i < perm_size (lf_perm l))%nat /\ p = perm_get (lf_perm l) i /\ lf_ikey l p = k_ikey k /\ lenclass (lf_klx l p) = lenclass (k_len k)
    | None => forall j, (i <= j < perm_size (lf_perm l))%nat -> entry_lt (k_ikey k, k_len k) (lf_ikey l (perm_get (lf_perm l) j), lf_klx l (perm_get (lf_perm l) j))
    end.
Proof.
  intros Hs. destruct (leaf_lower_spec (lf_perm l) (lf_ikey l) (lf_klx l) k Hs) as (A & B & C & D & E & F).
  unfold lf_lower. rewrite F. destruct (leaf_lower (lf_perm l) (lf_ikey l) (lf_klx l) k) as [i p].
  exists i, p. cbn [fst snd] in *. split; auto. split; auto. split; auto. split; auto.
  destruct p as [p|]; [|auto]. destruct (C p eq_refl) as (C1 & -> & C2 & C3). auto.
Qed.

Lemma lower_none l k : leaf_sorted (lf_perm l) (lf_ikey l) (lf_klx l) -> forall i, lf_lower l k = Ok (i, None) ->
  forall s, live_slot l s -> ~ (lf_ikey l s = k_ikey k /\ lenclass (lf_klx l s) = lenclass (k_len k)).
Proof.
  intros Hs i E s (j & Hj & <-) [E1 E2].
  destruct (lf_lower_ok l k Hs) as (i' & p & F & _ & F1 & F2 & F3). rewrite E in F. inversion F; subst i' p.
  destruct (le_lt_dec i j) as [H|H].
  - specialize (F3 j ltac:(lia)). unfold entry_lt in F3. cbn [fst snd] in F3. lia.
  - specialize (F1 j H). unfold entry_lt in F1. cbn [fst snd] in F1. lia.
Qed.

Lemma lptr_stale r L' : lptr h g r L' -> stale h g L' r.
Proof. intros (A & nr & E & _ & [->|(i & ->)]); [left; auto|right]. exists i. auto. Qed.

Lemma reach_ok L m y : g_lay g L = Some L -> stale h g L m -> 0 <= y < U64 ->
  exists n l, reach_leaf h m y = Ok n /\ g_lay g n = Some L /\ hp_node h n = Some (NLeaf l) /\ g_lo g n <= y < g_hi g n.
Proof.
  intros HL Hs Hy. apply reach_leaf_ok with (L := L); auto.
  - exact (iv_lay _ _ HI L L HL).
  - exact (iv_heap _ _ HI).
  - intros l El. exact (lo_flag _ _ _ _ _ (iv_leaf _ _ HI L L l HL El) eq_refl).
Qed.

(* One layer of a search: at leaf n for remainder s. *)
Lemma layer_search k L s ka m : bytes_ok k -> route k L s -> key_rep ka (g_pre g L) s -> stale h g L m ->
  exists n l i p, reach_leaf h m (k_ikey ka) = Ok n /\ hleaf h n = Ok l /\ g_lay g n = Some L /\
    hp_node h n = Some (NLeaf l) /\ g_lo g n <= k_ikey ka < g_hi g n /\ lf_deleted l = false /\ lf_lower l ka = Ok (i, p) /\
    match p with
    | None => (forall v, ~ holds h g k v)
    | Some p => live_slot l p /\
      ((ksuf_matches l p ka = -8 /\ exists r L', owns h g L n l p r L' /\ rstep L s L' (skipn 8 s)) \/
       (ksuf_matches l p ka = 0 /\ lf_klx l p = 64 /\ 8 < len s /\ (forall v, ~ holds h g k v)) \/
       (ksuf_matches l p ka = 1 /\ lf_klx l p <> 128 /\ entry_str l p = s /\ exists v0, lf_lv l p = LvVal v0 /\ forall v, holds h g k v <-> v = v0))
    end.
Proof.
  intros Hk R K Hst. destruct (route_pre _ _ _ Hk R) as (Ek & Bs & Ll & _). pose proof K as (_ & _ & Kl & Ki).
  assert (Hy : 0 <= k_ikey ka < U64) by (rewrite Ki, U64_eq; now apply slice_bound).
  destruct (reach_ok L m (k_ikey ka) Ll Hst Hy) as (n & l & R1 & R2 & R3 & R4).
  pose proof (iv_leaf _ _ HI L n l R2 R3) as Lok.
  destruct (lf_lower_ok l ka (lo_sorted _ _ _ _ _ Lok)) as (i & p & F & Fi & F1 & F2 & F3).
  exists n, l, i, p. split; auto. split; [now apply hleaf_some|]. split; auto. split; auto. split; auto.
  split; [exact (lo_del _ _ _ _ _ Lok)|]. split; auto.
  (* any slot of the layer matching (slice s, class) is in n *)
  assert (IN : forall n' l' sl, g_lay g n' = Some L -> hp_node h n' = Some (NLeaf l') -> live_slot l' sl ->
    lf_ikey l' sl = slice_make_comparable s -> n' = n /\ l' = l).
  { intros n' l' sl H1 H2 H3 H4. destruct (lo_slots _ _ _ _ _ (iv_leaf _ _ HI L n' l' H1 H2) sl H3) as [_ B].
    assert (n' = n) by (eapply (leaf_at L n' n l' l (k_ikey ka)); eauto; rewrite Ki, <- H4; lia). subst. split; auto. congruence. }
  destruct p as [p|].
  - destruct F3 as (F3 & Fp & F4 & F5). assert (LS : live_slot l p) by (exists i; auto).
    split; auto. destruct (lo_slots _ _ _ _ _ Lok p LS) as [[V|(V1 & r & L' & V2 & V3 & V4)] B].
    + (* a value slot *)
      assert (NO : forall L' s', ~ rstep L s L' s').
      { intros L' s' (S8 & _ & n2 & l2 & sl2 & r2 & (O1 & O2 & O3 & O4 & O5 & O6) & E).
        destruct (IN n2 l2 sl2 O1 O2 O3 E) as [-> ->].
        assert (sl2 = p).
        { eapply same_slot; eauto; [exact (lo_sorted _ _ _ _ _ Lok)|congruence|].
          rewrite O4, F5, Kl. unfold lenclass. lia. }
        subst. destruct (slot_val_klx _ _ _ V). lia. }
      pose proof (holds_here k L s) as HH.
      destruct (slot_val_klx _ _ _ V) as [V1 V2]. pose proof (entry_is L l p s ltac:(intros; lia) V Bs) as EI.
      right. unfold ksuf_matches. destruct (Z.ltb_spec (lf_klx l p) 64) as [H64|H64].
      * right. assert (EQ : entry_str l p = s) by (apply EI; rewrite F4, F5, Kl, Ki; repeat split; auto; lia).
        split; auto. split; auto. split; auto. destruct V as [[v0 Ev] _]. exists v0. split; auto. intros v. rewrite (HH v Hk R NO). split.
        -- intros (n2 & l2 & sl2 & G1 & G2 & G3 & G4 & G5 & G6).
           destruct (lo_slots _ _ _ _ _ (iv_leaf _ _ HI L n2 l2 G1 G2) sl2 G3) as [[V'|(V' & _)] B']; [|lia].
           pose proof (proj1 (entry_is L l2 sl2 s ltac:(pose proof (inv_ikey _ _ _ _ G1 G2 G3); lia) V' Bs) G6) as (G7 & G8 & G9).
           destruct (IN n2 l2 sl2 G1 G2 G3 G7) as [-> ->].
           assert (sl2 = p) by (eapply same_slot; eauto; [exact (lo_sorted _ _ _ _ _ Lok)|congruence|congruence]). subst. congruence.
        -- intros ->. exists n, l, p. auto 10.
      * destruct (Z.eqb_spec (lf_klx l p) 128) as [|_]; [lia|].
        assert (H64' : lf_klx l p = 64) by lia.
        rewrite (key_suffix_rep _ _ _ K). destruct (ksuf_same (lf_ksuf l p) (skipn 8 s)) eqn:SM.
        -- right. apply ksuf_same_iff in SM. assert (EQ : entry_str l p = s) by (apply EI; rewrite F4, F5, Kl, Ki; repeat split; auto).
           split; auto. split; auto. split; auto. destruct V as [[v0 Ev] _]. exists v0. split; auto. intros v. rewrite (HH v Hk R NO). split.
           ++ intros (n2 & l2 & sl2 & G1 & G2 & G3 & G4 & G5 & G6).
              destruct (lo_slots _ _ _ _ _ (iv_leaf _ _ HI L n2 l2 G1 G2) sl2 G3) as [[V'|(V' & _)] B']; [|lia].
              pose proof (proj1 (entry_is L l2 sl2 s ltac:(pose proof (inv_ikey _ _ _ _ G1 G2 G3); lia) V' Bs) G6) as (G7 & G8 & G9).
              destruct (IN n2 l2 sl2 G1 G2 G3 G7) as [-> ->].
              assert (sl2 = p) by (eapply same_slot; eauto; [exact (lo_sorted _ _ _ _ _ Lok)|congruence|congruence]). subst. congruence.
           ++ intros ->. exists n, l, p. auto 10.
        -- left. split; auto. split; auto. split; [rewrite <- Kl; unfold lenclass in F5; rewrite H64' in F5; lia|].
           intros v Hv. apply (HH v Hk R NO) in Hv.
           destruct Hv as (n2 & l2 & sl2 & G1 & G2 & G3 & G4 & G5 & G6).
           destruct (lo_slots _ _ _ _ _ (iv_leaf _ _ HI L n2 l2 G1 G2) sl2 G3) as [[V'|(V' & _)] B']; [|lia].
           pose proof (proj1 (entry_is L l2 sl2 s ltac:(pose proof (inv_ikey _ _ _ _ G1 G2 G3); lia) V' Bs) G6) as (G7 & G8 & G9).
           destruct (IN n2 l2 sl2 G1 G2 G3 G7) as [-> ->].
           assert (sl2 = p) by (eapply same_slot; eauto; [exact (lo_sorted _ _ _ _ _ Lok)|congruence|congruence]). subst.
           specialize (G9 H64'). apply ksuf_same_iff in G9. congruence.
    + left. unfold ksuf_matches. rewrite V1. cbn [Z.ltb Z.eqb Z.compare Pos.compare Pos.compare_cont Pos.eqb].
      split; auto. exists r, L'. 
      assert (O : owns h g L n l p r L') by (repeat split; auto; apply V3). split; auto.
      split; [|split; auto].
      * rewrite <- Kl. rewrite V1 in F5. unfold lenclass in F5. lia.
      * exists n, l, p, r. split; auto. congruence.
  - intros v Hv.
    assert (NO : forall L' s', ~ rstep L s L' s').
    { intros L' s' (S8 & _ & n2 & l2 & sl2 & r2 & (O1 & O2 & O3 & O4 & O5 & O6) & E).
      destruct (IN n2 l2 sl2 O1 O2 O3 E) as [-> ->].
      apply (lower_none l ka (lo_sorted _ _ _ _ _ Lok) i F sl2 O3). split; [congruence|].
      rewrite O4, Kl. unfold lenclass. lia. }
    apply (holds_here k L s v Hk R NO) in Hv. destruct Hv as (n2 & l2 & sl2 & G1 & G2 & G3 & G4 & G5 & G6).
    destruct (lo_slots _ _ _ _ _ (iv_leaf _ _ HI L n2 l2 G1 G2) sl2 G3) as [[V'|(V' & _)] B']; [|lia].
    pose proof (proj1 (entry_is L l2 sl2 s ltac:(pose proof (inv_ikey _ _ _ _ G1 G2 G3); lia) V' Bs) G6) as (G7 & G8 & G9).
    destruct (IN n2 l2 sl2 G1 G2 G3 G7) as [-> ->].
    apply (lower_none l ka (lo_sorted _ _ _ _ _ Lok) i F sl2 G3). split; congruence.
Qed.

Lemma find_unlocked_ok k : bytes_ok k -> forall fuel L s ka m, route k L s -> key_rep ka (g_pre g L) s -> stale h g L m ->
  (length s < fuel)%nat ->
  exists o, find_unlocked fuel h m ka = Ok o /\
    match o with None => forall v, ~ holds h g k v | Some lv => exists v0, lv = LvVal v0 /\ forall v, holds h g k v <-> v = v0 end.
Proof.
  intros Hk. induction fuel as [|f IH]; intros L s ka m R K Hst Hf; [lia|].
  destruct (layer_search k L s ka m Hk R K Hst) as (n & l & i & p & A1 & A2 & A3 & A4 & A5 & A6 & A7 & A8).
  cbn [find_unlocked]. rewrite A1. cbn [bind]. rewrite A2. cbn [bind]. rewrite A6, A7. cbn [bind].
  destruct p as [p|]; [|eexists; split; [reflexivity|]; auto].
  destruct A8 as [A8 [(M & r & L' & O & S)|[(M & _ & _ & N)|(M & _ & _ & v0 & Ev & N)]]]; rewrite M; cbn [Z.ltb Z.eqb Z.compare].
  - pose proof O as (_ & _ & _ & _ & O5 & _). rewrite O5. cbn [lv_layer bind].
    destruct (route_pre _ _ _ Hk R) as (Ek & Bs & Ll & _). pose proof S as (S8 & _).
    assert (R' : route k L' (skipn 8 s)) by (eapply route_S; eauto).
    destruct (owns_pre _ _ _ _ _ _ O) as [P Lp].
    apply (IH L' (skipn 8 s)); auto.
    + assert (E : g_pre g L' = g_pre g L ++ firstn 8 s).
      { destruct (route_pre _ _ _ Hk R') as (Ek' & _).
        rewrite <- (firstn_skipn 8 s) in Ek at 1. rewrite Ek' in Ek. rewrite app_assoc in Ek. now apply app_inv_tail in Ek. }
      rewrite E. apply key_shift_rep; auto. exact (iv_pre _ _ HI L Ll).
    + now apply lptr_stale.
    + rewrite skipn_length. unfold len in S8. lia.
  - eexists. split; [reflexivity|]. exact N.
  - eexists. split; [reflexivity|]. exists v0. split; [exact Ev|exact N].
Qed.

Theorem tree_get_ok k m : bytes_ok k -> stale h g 0 m ->
  exists o, tree_get h m k = Ok o /\ forall v, o = Some v <-> holds h g k v.
Proof.
  intros Hk Hst. destruct (iv_l0 _ _ HI) as [A B].
  destruct (find_unlocked_ok k Hk (S (length k)) 0%nat k (key_make k) m) as (o & E & H); auto using route_0.
  { rewrite B. apply key_make_rep. }
  unfold tree_get. rewrite E. cbn [bind]. destruct o as [lv|].
  - destruct H as (v0 & -> & H). cbn [lv_value bind]. exists (Some v0). split; auto. intros v. rewrite H. split; congruence.
  - exists None. split; auto. intros v. split; [discriminate|]. intros Hv. exfalso. eapply H; eauto.
Qed.
End I.
