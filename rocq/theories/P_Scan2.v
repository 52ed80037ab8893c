(* Scans: the keys below one slot, and how they are ordered. *)
From Coq Require Import Sorting.Sorted.
From Verif Require Import Lib Spec_String Spec_Map Spec_Scan M_Key P_Key M_Permuter P_Permuter2 M_Search P_Search M_Tree P_Tree1 P_Tree2 P_Tree3 M_Scan P_Scan1.

Section Layer.
Context (h : heap) (g : ghost).
Hypothesis HI : Inv h g.

(* The (remainder, value) pairs found through one slot of a leaf of layer L. *)
Definition slotkeys (l : leafn) (s : nat) (t : list Z) (v : Z) : Prop :=
  (lf_klx l s <> 128 /\ lf_lv l s = LvVal v /\ t = entry_str l s) \/
  (lf_klx l s = 128 /\ exists r L' t', lf_lv l s = LvLayer r /\ g_lay g r = Some L' /\ t' <> [] /\ t = be_bytes 8 (lf_ikey l s) ++ t' /\
    holds h g (g_pre g L' ++ t') v).

Lemma holds_bytes k v : holds h g k v -> bytes_ok k.
Proof.
  intros (L & n & l & s & H1 & H2 & H3 & H4 & H5 & ->). destruct (holds_route h g HI _ _ _ _ _ _ H1 H2 H3 H4 H5 eq_refl) as (_ & B & _).
  apply bytes_ok_app. split; auto. apply (iv_pre _ _ HI). eapply inv_layer; eauto.
Qed.

Lemma slotkeys_facts L n l s t v : g_lay g n = Some L -> hp_node h n = Some (NLeaf l) -> live_slot l s -> slotkeys l s t v ->
  bytes_ok t /\ slice_make_comparable t = lf_ikey l s /\ lenclass (len t) = lenclass (lf_klx l s) /\ (L <> 0%nat -> t <> []).
Proof.
  intros H1 H2 H3 [(K & V & ->)|(K & r & L' & t' & V & R & N & -> & Hh)].
  - pose proof (inv_ikey h g HI _ _ _ _ H1 H2 H3) as Hi.
    destruct (lo_slots _ _ _ _ _ (iv_leaf _ _ HI L n l H1 H2) s H3) as [[W|(E & _)] _]; [|lia].
    destruct (entry_facts L l s Hi W) as (A & B & C & _ & D). auto.
  - pose proof (inv_ikey h g HI _ _ _ _ H1 H2 H3) as Hi.
    assert (Bt : bytes_ok t') by (apply holds_bytes in Hh; apply bytes_ok_app in Hh; tauto).
    split; [apply bytes_ok_app; auto using be_bytes_ok|]. split; [now apply slice_be8|]. split.
    + rewrite K, len_app. unfold len at 1. rewrite be_bytes_length. destruct t'; [congruence|]. rewrite len_cons. pose proof (len_nonneg t'). unfold lenclass. lia.
    + intros _ E. apply app_eq_nil in E. tauto.
Qed.

Lemma holds_in L t v : g_lay g L = Some L -> (L <> 0%nat -> t <> []) -> holds h g (g_pre g L ++ t) v <->
  exists n l s, g_lay g n = Some L /\ hp_node h n = Some (NLeaf l) /\ live_slot l s /\ slotkeys l s t v.
Proof.
  intros HL Hn. split.
  - intros Hh. pose proof (holds_bytes _ _ Hh) as Bk. assert (Bt : bytes_ok t) by (apply bytes_ok_app in Bk; tauto).
    pose proof (route_complete h g HI _ L t (le_n _) HL Bt Hn) as R.
    pose proof Hh as (L1 & n & l & s & H1 & H2 & H3 & H4 & H5 & H6).
    destruct (holds_route h g HI _ _ _ _ _ _ H1 H2 H3 H4 H5 H6) as (R1 & B1 & V1).
    destruct (route_linear h g HI _ _ _ _ _ R R1) as [[<- ->]|[(L' & s' & S)|(L' & s' & S)]].
    + exists n, l, s. split; auto. split; auto. split; auto. left. auto.
    + destruct S as (S8 & -> & n2 & l2 & sl2 & r2 & O & E). destruct (owns_pre h g HI _ _ _ _ _ _ O) as [P _].
      destruct O as (O1 & O2 & O3 & O4 & O5 & O6).
      exists n2, l2, sl2. split; auto. split; auto. split; auto. right. split; auto. exists r2, L', (skipn 8 t).
      split; auto. split; auto. split.
      { intros Ex. assert (Q : length (skipn 8 t) = 0%nat) by now rewrite Ex. rewrite skipn_length in Q. unfold len in S8. lia. }
      rewrite P, E, be_bytes_slice8 by (auto; lia). split; [symmetry; apply firstn_skipn|].
      rewrite <- app_assoc, firstn_skipn. auto.
    + exfalso. destruct S as (S8 & _ & n2 & l2 & sl2 & r2 & (O1 & O2 & O3 & O4 & O5 & O6) & E).
      pose proof (inv_ikey h g HI _ _ _ _ H1 H2 H3) as Hi. destruct (entry_facts L1 l s Hi V1) as (_ & F1 & F2 & _).
      assert (H9 : lenclass (lf_klx l s) = 9) by (rewrite <- F2; unfold lenclass; lia).
      destruct (slot_unique h g HI L1 n l s n2 l2 sl2) as (-> & -> & ->); auto; [congruence|].
      rewrite H9, O4. reflexivity.
  - intros (n & l & s & H1 & H2 & H3 & [(K & V & ->)|(K & r & L' & t' & V & R & N & -> & Hh)]).
    + exists L, n, l, s. auto 10.
    + assert (O : owns h g L n l s r L') by (repeat split; auto). destruct (owns_pre h g HI _ _ _ _ _ _ O) as [P _].
      rewrite P, <- app_assoc in Hh. exact Hh.
Qed.

(* Entry order is key order. *)
Lemma entry_lex a b : bytes_ok a -> bytes_ok b -> entry_lt (slice_make_comparable a, len a) (slice_make_comparable b, len b) -> lex_lt a b.
Proof. intros Ha Hb H. apply key_compare_lt in H. destruct (key_compare_lex a b Ha Hb) as (A & _). now apply A. Qed.
Lemma entry_lt_class a b a' b' : fst a = fst a' -> fst b = fst b' -> lenclass (snd a) = lenclass (snd a') -> lenclass (snd b) = lenclass (snd b') ->
  entry_lt a b -> entry_lt a' b'.
Proof. unfold entry_lt. lia. Qed.
Lemma slotkeys_order L n1 l1 s1 t1 v1 n2 l2 s2 t2 v2 :
  g_lay g n1 = Some L -> hp_node h n1 = Some (NLeaf l1) -> live_slot l1 s1 -> slotkeys l1 s1 t1 v1 ->
  g_lay g n2 = Some L -> hp_node h n2 = Some (NLeaf l2) -> live_slot l2 s2 -> slotkeys l2 s2 t2 v2 ->
  entry_lt (lf_ikey l1 s1, lf_klx l1 s1) (lf_ikey l2 s2, lf_klx l2 s2) -> lex_lt t1 t2.
Proof.
  intros A1 A2 A3 A4 B1 B2 B3 B4 H. destruct (slotkeys_facts _ _ _ _ _ _ A1 A2 A3 A4) as (C1 & C2 & C3 & _).
  destruct (slotkeys_facts _ _ _ _ _ _ B1 B2 B3 B4) as (D1 & D2 & D3 & _).
  apply entry_lex; auto. eapply entry_lt_class; [| | | |exact H]; cbn [fst snd]; auto.
Qed.
Lemma lex_pre p a b : lex_lt a b <-> lex_lt (p ++ a) (p ++ b).
Proof. unfold lex_lt. now rewrite lex_app_prefix. Qed.
Lemma dlex_pre d p a b : dlex d a b <-> dlex d (p ++ a) (p ++ b).
Proof. destruct d; apply lex_pre. Qed.

(* ---- positions ---- *)
Definition ent (l : leafn) (j : nat) : Z * Z := (lf_ikey l (perm_get (lf_perm l) j), lf_klx l (perm_get (lf_perm l) j)).
Definition dent (d : sdir) (a b : Z * Z) : Prop := match d with Fwd => entry_lt a b | Rev => entry_lt b a end.
Definition dle (d : sdir) (i j : Z) : Prop := match d with Fwd => i <= j | Rev => j <= i end.
Definition later (d : sdir) (n n' : nat) : Prop := match d with Fwd => g_hi g n <= g_lo g n' | Rev => g_hi g n' <= g_lo g n end.
Definition size (l : leafn) : nat := perm_size (lf_perm l).

(* What one slot contributes, and everything from position (n,ki) of layer L on. *)
Definition EVS (L : nat) (l : leafn) (j : nat) (k : list Z) (v : Z) : Prop :=
  exists t, k = g_pre g L ++ t /\ slotkeys l (perm_get (lf_perm l) j) t v.
Definition EV (d : sdir) (L n : nat) (ki : Z) (k : list Z) (v : Z) : Prop :=
  exists n' l' j, g_lay g n' = Some L /\ hp_node h n' = Some (NLeaf l') /\ (j < size l')%nat /\
    ((n' = n /\ dle d ki (Z.of_nat j)) \/ later d n n') /\ EVS L l' j k v.

Lemma EVS_order d L n1 l1 j1 k1 v1 n2 l2 j2 k2 v2 :
  g_lay g n1 = Some L -> hp_node h n1 = Some (NLeaf l1) -> (j1 < size l1)%nat -> EVS L l1 j1 k1 v1 ->
  g_lay g n2 = Some L -> hp_node h n2 = Some (NLeaf l2) -> (j2 < size l2)%nat -> EVS L l2 j2 k2 v2 ->
  dent d (ent l1 j1) (ent l2 j2) -> dlex d k1 k2.
Proof.
  intros A1 A2 A3 (t1 & -> & A4) B1 B2 B3 (t2 & -> & B4) H. apply dlex_pre.
  assert (S1 : live_slot l1 (perm_get (lf_perm l1) j1)) by (exists j1; auto).
  assert (S2 : live_slot l2 (perm_get (lf_perm l2) j2)) by (exists j2; auto).
  destruct d; cbn [dlex dent] in *.
  - exact (slotkeys_order L _ _ _ _ _ _ _ _ _ _ A1 A2 S1 A4 B1 B2 S2 B4 H).
  - exact (slotkeys_order L _ _ _ _ _ _ _ _ _ _ B1 B2 S2 B4 A1 A2 S1 A4 H).
Qed.
Lemma ent_range L n l j : g_lay g n = Some L -> hp_node h n = Some (NLeaf l) -> (j < size l)%nat ->
  g_lo g n <= fst (ent l j) < g_hi g n.
Proof.
  intros A B C. destruct (lo_slots _ _ _ _ _ (iv_leaf _ _ HI L n l A B) (perm_get (lf_perm l) j)) as [_ R]; auto. exists j. auto.
Qed.
Lemma ent_later d L n1 l1 j1 n2 l2 j2 : g_lay g n1 = Some L -> hp_node h n1 = Some (NLeaf l1) -> (j1 < size l1)%nat ->
  g_lay g n2 = Some L -> hp_node h n2 = Some (NLeaf l2) -> (j2 < size l2)%nat -> later d n1 n2 -> dent d (ent l1 j1) (ent l2 j2).
Proof.
  intros A1 A2 A3 B1 B2 B3 H. pose proof (ent_range _ _ _ _ A1 A2 A3). pose proof (ent_range _ _ _ _ B1 B2 B3).
  destruct d; cbn [later dent] in *; left; lia.
Qed.
Lemma ent_sorted d L n l i j : g_lay g n = Some L -> hp_node h n = Some (NLeaf l) -> (i < size l)%nat -> (j < size l)%nat ->
  dle d (Z.of_nat i) (Z.of_nat j) -> i <> j -> dent d (ent l i) (ent l j).
Proof.
  intros A B C D E N. pose proof (lo_sorted _ _ _ _ _ (iv_leaf _ _ HI L n l A B)) as S.
  destruct d; cbn [dle dent] in *; [apply (S i j)|apply (S j i)]; unfold size in *; lia.
Qed.

(* Splitting off the current slot. *)
Lemma EV_slot d L n l j : g_lay g n = Some L -> hp_node h n = Some (NLeaf l) -> (j < size l)%nat ->
  forall k v, EV d L n (Z.of_nat j) k v <-> EVS L l j k v \/ EV d L n (s_next d (Z.of_nat j)) k v.
Proof.
  intros A B C k v. split.
  - intros (n' & l' & j' & H1 & H2 & H3 & H4 & H5). destruct H4 as [[-> H4]|H4].
    + assert (l' = l) by congruence. subst l'. destruct (Nat.eq_dec j' j) as [->|N]; auto. right.
      exists n, l, j'. split; auto. split; auto. split; auto. split; auto. left. split; auto. destruct d; cbn [dle s_next] in *; lia.
    + right. exists n', l', j'. auto 10.
  - intros [H|(n' & l' & j' & H1 & H2 & H3 & H4 & H5)].
    + exists n, l, j. split; auto. split; auto. split; auto. split; auto. left. split; auto. destruct d; cbn; lia.
    + exists n', l', j'. split; auto. split; auto. split; auto. split; auto. destruct H4 as [[-> H4]|]; auto. left. split; auto.
      destruct d; cbn [dle s_next] in *; lia.
Qed.
Lemma EV_slot_order d L n l j : g_lay g n = Some L -> hp_node h n = Some (NLeaf l) -> (j < size l)%nat ->
  forall k v k' v', EVS L l j k v -> EV d L n (s_next d (Z.of_nat j)) k' v' -> dlex d k k'.
Proof.
  intros A B C k v k' v' H (n' & l' & j' & H1 & H2 & H3 & H4 & H5).
  apply (EVS_order d L n l j k v n' l' j' k' v'); auto. destruct H4 as [[-> H4]|H4].
  - assert (l' = l) by congruence. subst l'. apply (ent_sorted d L n); auto; destruct d; cbn [dle s_next] in *; lia.
  - apply (ent_later d L n l j n' l' j'); auto.
Qed.

(* The neighbouring leaf in scan direction. *)
Definition d_adj (d : sdir) (l : leafn) : option nat := match d with Fwd => lf_next l | Rev => lf_prev l end.
Definition d_start (d : sdir) (l : leafn) : Z := match d with Fwd => 0 | Rev => Z.of_nat (size l) - 1 end.
Definition beyond (d : sdir) (l : leafn) (ki : Z) : Prop := match d with Fwd => ki >= Z.of_nat (size l) | Rev => ki < 0 end.
Lemma adj_some d L n l x : g_lay g n = Some L -> hp_node h n = Some (NLeaf l) -> d_adj d l = Some x ->
  g_lay g x = Some L /\ (exists lx, hp_node h x = Some (NLeaf lx)) /\ later d n x /\
  match d with Fwd => g_hi g n = g_lo g x | Rev => g_hi g x = g_lo g n end.
Proof.
  intros A B C. pose proof (iv_leaf _ _ HI L n l A B) as O. destruct d; cbn [d_adj later] in *.
  - pose proof (lo_next _ _ _ _ _ O) as H. rewrite C in H. destruct H as (H1 & H2 & lq & H3 & _). repeat split; eauto. lia.
  - pose proof (lo_prev _ _ _ _ _ O) as H. rewrite C in H. destruct H as (H0 & H1 & H2 & H3 & lq & H4 & _). repeat split; eauto. lia.
Qed.
Lemma EV_adj d L n l ki x lx : g_lay g n = Some L -> hp_node h n = Some (NLeaf l) -> beyond d l ki -> d_adj d l = Some x -> hp_node h x = Some (NLeaf lx) ->
  forall k v, EV d L n ki k v <-> EV d L x (d_start d lx) k v.
Proof.
  intros A B C D X k v. destruct (adj_some d L n l x A B D) as (E1 & _ & E3 & E4).
  pose proof (inv_bounds h g HI n L A) as Bn. pose proof (inv_bounds h g HI x L E1) as Bx. split.
  - intros (n' & l' & j & H1 & H2 & H3 & H4 & H5). pose proof (inv_bounds h g HI n' L H1) as Bn'.
    exists n', l', j. split; auto. split; auto. split; auto. split; auto. destruct H4 as [[-> H4]|H4].
    + assert (l' = l) by congruence. subst l'. destruct d; cbn [dle beyond] in *; lia.
    + destruct d; cbn [later dle d_start] in *.
      * destruct (Z_le_gt_dec (g_hi g x) (g_lo g n')); auto. left. split; [|lia].
        apply (leaf_at h g HI L n' x l' lx (g_lo g n')); auto; lia.
      * destruct (Z_le_gt_dec (g_hi g n') (g_lo g x)); auto. left. assert (n' = x) by (apply (leaf_at h g HI L n' x l' lx (g_hi g n' - 1)); auto; lia).
        subst n'. assert (l' = lx) by congruence. subst. split; auto. lia.
  - intros (n' & l' & j & H1 & H2 & H3 & H4 & H5). exists n', l', j. split; auto. split; auto. split; auto. split; auto. right.
    destruct H4 as [[-> H4]|H4]; auto. pose proof (inv_bounds h g HI n' L H1) as Bn'. destruct d; cbn [later] in *; lia.
Qed.
Lemma EV_end d L n l ki : g_lay g n = Some L -> hp_node h n = Some (NLeaf l) -> beyond d l ki -> d_adj d l = None ->
  forall k v, ~ EV d L n ki k v.
Proof.
  intros A B C D k v (n' & l' & j & H1 & H2 & H3 & H4 & H5). pose proof (iv_leaf _ _ HI L n l A B) as O.
  pose proof (inv_bounds h g HI n L A) as Bn. pose proof (inv_bounds h g HI n' L H1) as Bn'. destruct H4 as [[-> H4]|H4].
  - assert (l' = l) by congruence. subst l'. destruct d; cbn [dle beyond] in *; lia.
  - destruct d; cbn [d_adj later] in *.
    + pose proof (lo_next _ _ _ _ _ O) as H. rewrite D in H. lia.
    + pose proof (lo_prev _ _ _ _ _ O) as H. rewrite D in H. subst n.
      destruct (sl_first _ _ _ _ (iv_lay _ _ HI L L A)) as (_ & _ & E). lia.
Qed.
End Layer.
