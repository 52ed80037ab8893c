(* Routing: the border lists of all layers, and where keys are stored. *)
From Coq Require Import Zwf.
From Verif Require Import Lib Spec_Map Spec_Route M_Key P_Key M_Permuter P_Permuter2 M_Search P_Search M_Tree P_Tree1 P_Tree2 P_Tree3 P_Tree4 P_Tree7e P_Tree9 P_Tree9b P_Scan2 P_Scan5.

Section Route.
Context (h : heap) (g : ghost).
Hypothesis HI : Inv h g.

Lemma layer_sound root p r : stale h g 0 root -> layer_at h root p r -> exists L, g_lay g L = Some L /\ stale h g L r /\ g_pre g L = p.
Proof.
  intros Hr. induction 1 as [|p r n l j r' H IH R N J Hb K V].
  - exists 0%nat. destruct (iv_l0 _ _ HI). auto.
  - destruct IH as (L & HL & St & <-).
    assert (LS : live_slot l (perm_get (lf_perm l) j)) by (exists j; auto).
    rewrite <- U64_eq in Hb. destruct (reach_ok h g HI L r _ HL St Hb) as (n' & l' & R' & A & B & C). assert (n' = n) by congruence. subst n'. assert (l' = l) by congruence. subst l'.
    destruct (lo_slots _ _ _ _ _ (iv_leaf _ _ HI L n l A B) _ LS) as [[S|(S1 & r2 & L' & S2 & S3 & S4)] _].
    + destruct (slot_val_klx _ _ _ S) as [Q _]. unfold slot_len in K. congruence.
    + assert (r2 = r') by congruence. subst r2. exists L'. split; [destruct S3; eapply inv_layer; eauto|]. split; [now apply lptr_stale|exact S4].
Qed.
Lemma layer_complete root : stale h g 0 root -> forall m L, (length (g_pre g L) <= m)%nat -> g_lay g L = Some L -> exists r, layer_at h root (g_pre g L) r /\ stale h g L r.
Proof.
  intros Hr. induction m as [m IH] using lt_wf_ind. intros L Hm HL. destruct (Nat.eq_dec L 0) as [->|N].
  - exists root. rewrite (proj2 (iv_l0 _ _ HI)). split; auto. constructor.
  - destruct (iv_owner _ _ HI L HL N) as (L0 & n0 & l0 & s0 & r0 & O). destruct (owns_pre h g HI _ _ _ _ _ _ O) as [P LP].
    destruct O as (A1 & A2 & (j & A3 & <-) & A4 & A5 & A6). assert (HL0 : g_lay g L0 = Some L0) by (eapply inv_layer; eauto).
    assert (E : length (g_pre g L) = (length (g_pre g L0) + 8)%nat) by (rewrite P, app_length, be_bytes_length; lia).
    destruct (IH (length (g_pre g L0)) ltac:(lia) L0 (le_n _) HL0) as (r & R1 & R2).
    assert (LS : live_slot l0 (perm_get (lf_perm l0) j)) by (exists j; auto).
    pose proof (inv_ikey h g HI _ _ _ _ A1 A2 LS) as Hi.
    destruct (reach_ok h g HI L0 r _ HL0 R2 Hi) as (n' & l' & R' & B1 & B2 & B3).
    destruct (lo_slots _ _ _ _ _ (iv_leaf _ _ HI L0 n0 l0 A1 A2) _ LS) as [_ Bd].
    assert (n' = n0) by (eapply (leaf_at h g HI L0); eauto). subst n'.
    exists r0. split; [|now apply lptr_stale]. rewrite P. rewrite U64_eq in Hi. apply (layer_sub h root _ r n0 l0 j r0); auto.
Qed.

Lemma borders_from L r : g_lay g L = Some L -> stale h g L r -> forall d n l, U64 - g_lo g n <= d -> g_lay g n = Some L -> hp_node h n = Some (NLeaf l) ->
  exists B, border_list h r (lf_prev l) (g_lo g n) B /\ option_map b_addr (hd_error B) = Some n.
Proof.
  intros HL St d. pattern d. apply (well_founded_ind (Zwf_well_founded 0)).
  clear d. intros d IH n l Hm A B. pose proof (iv_leaf _ _ HI L n l A B) as Lok. pose proof (inv_bounds h g HI n L A) as Bn.
  assert (REST : exists B', border_list h r (Some n) (g_hi g n) B' /\ lf_next l = option_map b_addr (hd_error B')).
  { pose proof (lo_next _ _ _ _ _ Lok) as Nx. destruct (lf_next l) as [q|].
    - destruct Nx as (N1 & N2 & lq & N3 & N4). destruct (IH (d - 1)) with (n := q) (l := lq) as (B' & B1 & B2); auto; try lia.
      { unfold Zwf. lia. }
      exists B'. rewrite N4, <- N2 in B1. split; auto.
    - exists []. cbn. auto. }
  destruct REST as (B' & B1 & B2). exists (MkBorder n l (g_lo g n) (g_hi g n) :: B'). split; [|reflexivity].
  cbn [border_list b_leaf b_addr b_lo b_hi]. split; auto. split; [exact (lo_del _ _ _ _ _ Lok)|]. split; auto. split; [lia|]. split; auto. split; auto. split.
  { pose proof (lo_prev _ _ _ _ _ Lok) as Pv. destruct (lf_prev l); [tauto|congruence]. }
  split.
  { intros ik Hik. destruct (reach_ok h g HI L r ik HL St ltac:(lia)) as (n' & l' & R' & C1 & C2 & C3). rewrite R'. f_equal. eapply (leaf_at h g HI L); eauto. }
  split.
  { intros j Hj. apply (lo_slots _ _ _ _ _ Lok). exists j. auto. }
  split; auto. intros i j Hij. pose proof (lo_sorted _ _ _ _ _ Lok i j Hij) as S. unfold entry_lt, lenclass, slot_ikey, slot_len in *. cbn [fst snd] in *. lia.
Qed.

Lemma borders root p r : stale h g 0 root -> layer_at h root p r -> exists B, border_list h r None 0 B.
Proof.
  intros Hr Hl. destruct (layer_sound root p r Hr Hl) as (L & HL & St & _).
  destruct (sl_first _ _ _ _ (iv_lay _ _ HI L L HL)) as (_ & (l & El) & E0).
  destruct (borders_from L r HL St (U64 - g_lo g L) L l ltac:(lia) HL El) as (B & B1 & _). rewrite E0 in B1.
  pose proof (lo_prev _ _ _ _ _ (iv_leaf _ _ HI L L l HL El)) as Pv. destruct (lf_prev l); [tauto|]. eauto.
Qed.

Lemma stored_slot root k v n j : stale h g 0 root -> bytes_ok k -> stored_at h root k v n j ->
  exists L l, g_lay g n = Some L /\ hp_node h n = Some (NLeaf l) /\ (j < perm_size (lf_perm l))%nat /\ lf_klx l (perm_get (lf_perm l) j) <> 128 /\
    lf_lv l (perm_get (lf_perm l) j) = LvVal v /\ k = g_pre g L ++ entry_str l (perm_get (lf_perm l) j).
Proof.
  intros Hr Hk (p & r & t & l & A1 & -> & A2 & A3 & A4 & A5 & A6 & A7). destruct (layer_sound root p r Hr A1) as (L & HL & St & <-).
  apply bytes_ok_app in Hk. destruct Hk as [_ Bt]. assert (Hy : 0 <= slice_make_comparable t < U64) by (rewrite U64_eq; now apply slice_bound).
  destruct (reach_ok h g HI L r _ HL St Hy) as (n' & l' & R' & C1 & C2 & C3). assert (n' = n) by congruence. subst n'. assert (l' = l) by congruence. subst l'.
  exists L, l. split; auto. split; auto. split; auto. set (s := perm_get (lf_perm l) j) in *. unfold slot_ikey, slot_len in *. fold s in A5, A7.
  pose proof (len_nonneg t). split; [lia|]. split; auto. f_equal. symmetry.
  assert (LS : live_slot l s) by (exists j; auto).
  destruct (lo_slots _ _ _ _ _ (iv_leaf _ _ HI L n l C1 C2) s LS) as [[V|(V & _)] _]; [|lia].
  apply (entry_is L l s t); auto; [now rewrite A5|]. split; auto. destruct A7 as [(Q1 & Q2)|(Q1 & Q2 & Q3)].
  - split; [now rewrite Q2|]. intros. lia.
  - split; [unfold lenclass; lia|]. auto.
Qed.
Lemma stored_iff root k v : stale h g 0 root -> bytes_ok k -> holds h g k v <-> exists n j, stored_at h root k v n j.
Proof.
  intros Hr Hk. split.
  - intros (L & n & l & s & A1 & A2 & (j & A3 & <-) & A4 & A5 & ->). exists n, j. set (s := perm_get (lf_perm l) j) in *.
    assert (LS : live_slot l s) by (exists j; auto). assert (HL : g_lay g L = Some L) by (eapply inv_layer; eauto).
    destruct (lo_slots _ _ _ _ _ (iv_leaf _ _ HI L n l A1 A2) s LS) as [[V|(V & _)] Bd]; [|lia].
    pose proof (inv_ikey h g HI _ _ _ _ A1 A2 LS) as Hi. destruct (entry_facts L l s Hi V) as (E1 & E2 & E3 & E4 & _).
    destruct (layer_complete root Hr _ L (le_n _) HL) as (r & R1 & R2). destruct (reach_ok h g HI L r _ HL R2 Hi) as (n' & l' & R' & C1 & C2 & C3).
    assert (n' = n) by (eapply (leaf_at h g HI L); eauto). subst n'.
    exists (g_pre g L), r, (entry_str l s), l. split; auto. split; auto. split; [now rewrite E2|]. split; auto. split; auto. split; [unfold slot_ikey; fold s; congruence|]. split; auto.
    unfold slot_len. fold s. destruct (slot_val_klx _ _ _ V) as [_ [K|K]]; unfold lenclass in E3; [left|right]; [lia|]. split; [lia|]. split; [exact K|]. rewrite K in E4. symmetry. exact E4.
  - intros (n & j & St). destruct (stored_slot root k v n j Hr Hk St) as (L & l & A1 & A2 & A3 & A4 & A5 & A6). exists L, n, l, (perm_get (lf_perm l) j). split; auto. split; auto. split; [exists j; auto|auto].
Qed.
Lemma stored_once root k v n j v' n' j' : stale h g 0 root -> bytes_ok k -> stored_at h root k v n j -> stored_at h root k v' n' j' -> v = v' /\ n = n' /\ j = j'.
Proof.
  intros Hr Hk S S'. destruct (stored_slot root k v n j Hr Hk S) as (L & l & A1 & A2 & A3 & A4 & A5 & A6).
  destruct (stored_slot root k v' n' j' Hr Hk S') as (L' & l' & B1 & B2 & B3 & B4 & B5 & B6).
  destruct (holder_unique h g k v v' L n l (perm_get (lf_perm l) j) L' n' l' (perm_get (lf_perm l') j')) as [-> E]; auto; [exists j; auto|exists j'; auto|].
  assert (l' = l) by congruence. subst l'. split; [congruence|]. split; auto.
  pose proof (lo_sorted _ _ _ _ _ (iv_leaf _ _ HI L n' l A1 A2)) as So.
  destruct (Nat.lt_total j j') as [C|[C|C]]; auto; [specialize (So j j' ltac:(lia))|specialize (So j' j ltac:(lia))]; rewrite E in So; unfold entry_lt in So; cbn [fst snd] in So; lia.
Qed.
End Route.

Lemma c09_borders ops : Forall op_ok ops -> exists t rs, truns table_init ops = Ok (t, rs) /\
  forall p r, layer_at (t_heap t) (t_root t) p r -> exists B, border_list (t_heap t) r None 0 B.
Proof.
  intros F. destruct (table_run ops F) as (t & g & A & [R1 R2 R3 R4]). exists t. eexists. split; [exact A|]. intros p r. exact (borders _ g R1 _ p r R2).
Qed.
Lemma c09_keys ops : Forall op_ok ops -> exists t rs, truns table_init ops = Ok (t, rs) /\
  (forall k v, bytes_ok k -> present ops k = Some v <-> exists n j, stored_at (t_heap t) (t_root t) k v n j) /\
  (forall k v v' n n' j j', bytes_ok k -> stored_at (t_heap t) (t_root t) k v n j -> stored_at (t_heap t) (t_root t) k v' n' j' -> v = v' /\ n = n' /\ j = j').
Proof.
  intros F. destruct (table_run ops F) as (t & g & A & [R1 R2 R3 R4]). exists t. eexists. split; [exact A|]. split.
  - intros k v Hk. rewrite <- present_run, <- R4. now apply stored_iff.
  - intros k v v' n n' j j' Hk S S'. exact (stored_once _ g R1 _ k v n j v' n' j' R2 Hk S S').
Qed.
