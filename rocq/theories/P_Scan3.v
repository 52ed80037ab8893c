(* Scans: traversal of a whole layer from any position. *)
From Coq Require Import Sorting.Sorted.
From Verif Require Import Lib Spec_String Spec_Map Spec_Scan M_Key P_Key M_Permuter P_Permuter2 M_Search P_Search M_Tree P_Tree1 P_Tree2 P_Tree3 M_Scan P_Scan1 P_Scan2.

Section Trav.
Context (h : heap) (g : ghost) (d : sdir) (em : bool).
Hypothesis HI : Inv h g.
Hypothesis HB : forall L, g_lay g L = Some L -> (length (g_pre g L) + 8 <= keybuf_size)%nat.
Hypothesis HK : forall k v, holds h g k v -> (length k <= keybuf_size)%nat.

Notation steps := (steps h d em).
Notation EV := (EV h g).
Notation EVS := (EVS h g).

(* The key buffer while in layer L. *)
Definition kpos (ka : mkey) (L : nat) : Prop :=
  exists rest, k_buf ka = g_pre g L ++ rest /\ length (k_buf ka) = keybuf_size /\ k_off ka = length (g_pre g L).
Lemma kpos_rest ka L : g_lay g L = Some L -> kpos ka L -> exists rest, k_buf ka = g_pre g L ++ rest /\ k_off ka = length (g_pre g L) /\
  (length (g_pre g L) + length rest = keybuf_size)%nat /\ (8 <= length rest)%nat.
Proof. intros HL (rest & A & B & C). exists rest. rewrite A, app_length in B. specialize (HB L HL). repeat split; auto; lia. Qed.

(* From here on the entries differ from the current key, and the current key is not right of the leaf. *)
Definition ready (ub : bool) (ka : mkey) (n : nat) (l : leafn) (ki : Z) : Prop :=
  match d with
  | Fwd => 0 <= ki /\ k_ikey ka < g_hi g n /\ forall j, (j < size l)%nat -> ki <= Z.of_nat j -> entry_lt (k_ikey ka, k_len ka) (ent l j)
  | Rev => ki < Z.of_nat (size l) /\ (ub = true \/ forall j, (j < size l)%nat -> Z.of_nat j <= ki -> entry_lt (ent l j) (k_ikey ka, k_len ka))
  end.
Lemma ready_nodup ub ka n l j : ready ub ka n l (Z.of_nat j) -> (j < size l)%nat ->
  forall ka', k_ikey ka' = k_ikey ka -> k_len ka' = k_len ka -> s_duplicate d ub ka' (fst (ent l j)) (snd (ent l j)) = false.
Proof.
  unfold ready, s_duplicate. intros H Hj ka' -> ->. destruct d.
  - destruct H as (_ & _ & H). specialize (H j Hj ltac:(lia)). destruct (ent l j) as [a b]. apply key_compare_lt in H. cbn [fst snd].
    destruct (Z.leb_spec 0 (key_compare (k_ikey ka) (k_len ka) a b)); auto. lia.
  - destruct H as (_ & [->|H]); [now rewrite andb_false_r|]. specialize (H j Hj ltac:(lia)). destruct (ent l j) as [a b]. cbn [fst snd].
    destruct (Z.leb_spec (key_compare (k_ikey ka) (k_len ka) a b) 0) as [C|]; auto. exfalso.
    destruct (Z.eq_dec (key_compare (k_ikey ka) (k_len ka) a b) 0) as [E|E].
    + apply key_compare_eq in E. unfold entry_lt in H. cbn [fst snd] in H. lia.
    + assert (E' : key_compare (k_ikey ka) (k_len ka) a b < 0) by lia. apply key_compare_lt in E'. unfold entry_lt in *. cbn [fst snd] in *. lia.
Qed.
Lemma ready_next L n l j ub ka : g_lay g n = Some L -> hp_node h n = Some (NLeaf l) -> (j < size l)%nat ->
  k_ikey ka = fst (ent l j) -> lenclass (k_len ka) = lenclass (snd (ent l j)) -> ready ub ka n l (s_next d (Z.of_nat j)).
Proof.
  intros A B C E1 E2. pose proof (ent_range h g HI L n l j A B C) as R. pose proof (ent_sorted h g HI d L n l j) as S.
  unfold ready. destruct d; cbn [s_next dle dent] in *.
  - split; [lia|]. split; [lia|]. intros i Hi Hk. specialize (S i A B C Hi ltac:(lia) ltac:(lia)). unfold entry_lt in *. cbn [fst snd] in *. lia.
  - split; [lia|]. right. intros i Hi Hk. specialize (S i A B C Hi ltac:(lia) ltac:(lia)). unfold entry_lt in *. cbn [fst snd] in *. lia.
Qed.

Lemma stable_here L n l ka : g_lay g n = Some L -> hp_node h n = Some (NLeaf l) ->
  k_ikey ka < g_hi g n \/ (k_ikey ka = g_hi g n /\ k_len ka = 0) -> s_stable d h n ka = Ok n.
Proof.
  intros A B C. destruct d; cbn [s_stable]; auto. unfold hfuel. cbn [s_stable_rev].
  rewrite (hleaf_some _ _ _ B). cbn [bind]. destruct (lf_next l) as [x|] eqn:E; auto.
  pose proof (lo_next _ _ _ _ _ (iv_leaf _ _ HI L n l A B)) as H. rewrite E in H. destruct H as (H1 & H2 & lq & H3 & H4).
  pose proof (lo_prev _ _ _ _ _ (iv_leaf _ _ HI L x lq H1 H3)) as H. rewrite H4 in H. destruct H as (H5 & H6 & _).
  rewrite (hleaf_some _ _ _ H3). cbn [bind]. rewrite H6, <- H2.
  pose proof (icompare_lt (k_ikey ka) (g_hi g n)) as I1. pose proof (icompare_eq (k_ikey ka) (g_hi g n)) as I2.
  destruct C as [C|[C1 C2]].
  - assert (icompare (k_ikey ka) (g_hi g n) < 0) by (apply I1; lia). destruct (Z.ltb_spec (icompare (k_ikey ka) (g_hi g n)) 0); [reflexivity|lia].
  - assert (Q : icompare (k_ikey ka) (g_hi g n) = 0) by (apply I2; auto). rewrite Q, C2. reflexivity.
Qed.

(* Finding the current entry again. *)
Lemma lower_here L n l j ka : g_lay g n = Some L -> hp_node h n = Some (NLeaf l) -> (j < size l)%nat ->
  k_ikey ka = fst (ent l j) -> lenclass (k_len ka) = lenclass (snd (ent l j)) -> s_lower d false ka l = Ok (Z.of_nat j).
Proof.
  intros A B C E1 E2. destruct (lf_lower_ok l ka (lo_sorted _ _ _ _ _ (iv_leaf _ _ HI L n l A B))) as (i & p & F & Fi & F1 & F2 & F3).
  assert (i = j).
  { destruct (lt_eq_lt_dec i j) as [[H|H]|H]; auto; exfalso.
    - specialize (F2 j ltac:(unfold size in *; lia)). unfold entry_lt, ent in *. cbn [fst snd] in *. lia.
    - specialize (F1 j H). unfold entry_lt, ent in *. cbn [fst snd] in *. lia. }
  subst i. destruct p as [p|].
  - unfold s_lower, s_lower_pos. rewrite F. cbn [bind]. destruct d; f_equal; lia.
  - exfalso. specialize (F3 j ltac:(unfold size in *; lia)). unfold entry_lt, ent in *. cbn [fst snd] in *. lia.
Qed.

Definition layer_prop (L : nat) : Prop := forall n l st, g_lay g n = Some L -> hp_node h n = Some (NLeaf l) -> s_n st = n ->
  kpos (s_ka st) L -> ready (s_ub st) (s_ka st) n l (s_ki st) ->
  exists evs st', steps (SNext, st) evs (SUp, st') /\ lists d evs (EV d L n (s_ki st)) /\ s_stack st' = s_stack st /\
    kpos (s_ka st') L /\ s_ub st' = false.

(* Entering a layer below. *)
Lemma enter_layer L' r st : L' <> 0%nat -> g_lay g L' = Some L' -> lptr h g r L' -> s_root st = r ->
  k_off (s_ka st) = (length (g_pre g L') - 8)%nat -> (8 <= length (g_pre g L'))%nat ->
  (exists rest, k_buf (s_ka st) = g_pre g L' ++ rest /\ length (k_buf (s_ka st)) = keybuf_size) ->
  exists n l st', steps (SDown, st) [] (SNext, st') /\ g_lay g n = Some L' /\ hp_node h n = Some (NLeaf l) /\ s_n st' = n /\
    kpos (s_ka st') L' /\ ready (s_ub st') (s_ka st') n l (s_ki st') /\ s_stack st' = s_stack st /\
    forall k v, EV d L' n (s_ki st') k v <-> exists t, t <> [] /\ k = g_pre g L' ++ t /\ holds h g k v.
Proof.
  intros N0 HL HP Hr Ho H8 (rest & Hb & Hlen).
  set (y := match d with Fwd => 0 | Rev => 2 ^ 64 - 1 end).
  assert (Hy : 0 <= y < U64) by (unfold y; rewrite U64_eq; destruct d; lia).
  destruct (reach_ok h g HI L' r y HL (lptr_stale h g r L' HP) Hy) as (n & l & R1 & R2 & R3 & R4).
  pose proof (iv_leaf _ _ HI L' n l R2 R3) as Lok. pose proof (inv_bounds h g HI n L' R2) as Bn.
  set (ka' := match d with Fwd => key_shift_clear (s_ka st) | Rev => key_shift_clear_reverse (s_ka st) end).
  assert (Ek : k_ikey ka' = y) by (unfold ka', y; destruct d; reflexivity).
  assert (KP : kpos ka' L') by (exists rest; unfold ka'; destruct d; cbn; repeat split; auto; lia).
  assert (POS : forall j, (j < size l)%nat -> 1 <= snd (ent l j)).
  { intros j Hj. destruct (lo_slots _ _ _ _ _ Lok (perm_get (lf_perm l) j)) as [[[_ [(A & B & C)|(A & _)]]|(A & _)] _]; cbn; [exists j; auto|specialize (C N0); lia|lia|lia]. }
  assert (LOW : s_lower d (match d with Fwd => s_ub st | Rev => true end) ka' l = Ok (d_start d l)).
  { unfold ka', d_start, s_lower. clear ka' Ek KP. destruct d; [|reflexivity].
    destruct (lf_lower_ok l (key_shift_clear (s_ka st)) (lo_sorted _ _ _ _ _ Lok)) as (i & p & F & Fi & F1 & F2 & F3).
    unfold s_lower_pos. rewrite F. cbn [bind]. f_equal. destruct (Nat.eq_dec i 0) as [->|Ni]; [lia|]. exfalso.
    assert (S0 : (0 < size l)%nat) by (unfold size; lia). specialize (F1 0%nat ltac:(lia)). specialize (POS 0%nat S0).
    pose proof (ent_range h g HI L' n l 0 R2 R3 S0) as Q. unfold entry_lt, ent, lenclass in *. cbn [fst snd k_ikey k_len key_shift_clear] in *. lia. }
  exists n, l, (MkS (s_root st) n (d_start d l) (s_stack st) ka' (match d with Fwd => s_ub st | Rev => true end)).
  split; [|split; [auto|split; [auto|split; [reflexivity|split; [exact KP|split; [|split; [reflexivity|]]]]]]].
  - apply steps_down. cbn [s_step]. unfold s_find_retry. cbn [s_root s_ka s_stack s_ub]. fold ka'. rewrite Ek, Hr, R1. cbn [bind].
    rewrite (hleaf_some _ _ _ R3). cbn [bind]. rewrite (lo_del _ _ _ _ _ Lok).
    rewrite LOW. cbn [bind]. reflexivity.
  - unfold ready. cbn [s_ub s_ka s_ki]. rewrite Ek. unfold y in *. clear LOW. unfold ka' in *. destruct d; cbn [d_start].
    + split; [lia|]. split; [lia|]. intros j Hj _. specialize (POS j Hj). pose proof (ent_range h g HI L' n l j R2 R3 Hj).
      unfold entry_lt, lenclass. cbn [fst snd k_len key_shift_clear]. lia.
    + split; [lia|]. auto.
  - cbn [s_ki]. intros k v. split.
    + intros (n' & l' & j & A1 & A2 & A3 & A4 & t & -> & A5).
      assert (LS : live_slot l' (perm_get (lf_perm l') j)) by (exists j; auto).
      destruct (slotkeys_facts h g HI L' _ _ _ _ _ A1 A2 LS A5) as (_ & _ & _ & Nt). exists t. split; auto. split; auto.
      apply (holds_in h g HI L' t v HL Nt). exists n', l', (perm_get (lf_perm l') j). auto.
    + intros (t & Nt & -> & Hh). apply (holds_in h g HI L' t v HL (fun _ => Nt)) in Hh.
      destruct Hh as (n' & l' & s & A1 & A2 & (j & A3 & <-) & A4). exists n', l', j. split; auto. split; auto. split; auto.
      split; [|exists t; auto]. pose proof (inv_bounds h g HI n' L' A1) as Bn'. unfold y in R4. destruct d; cbn [dle later d_start].
      * destruct (Z_le_gt_dec (g_hi g n) (g_lo g n')); auto. left. split; [|lia]. apply (leaf_at h g HI L' n' n l' l (g_lo g n')); auto; lia.
      * destruct (Z_le_gt_dec (g_hi g n') (g_lo g n)); auto. left.
        assert (n' = n) by (rewrite U64_eq in *; apply (leaf_at h g HI L' n' n l' l (g_hi g n' - 1)); auto; lia).
        subst n'. assert (l' = l) by congruence. subst l'. split; auto. unfold size. lia.
Qed.

(* One slot. *)
Lemma slot_step L n l j st : (forall L', g_lay g L' = Some L' -> (length (g_pre g L) < length (g_pre g L'))%nat -> layer_prop L') ->
  g_lay g n = Some L -> hp_node h n = Some (NLeaf l) -> s_n st = n -> s_ki st = Z.of_nat j -> (j < size l)%nat ->
  kpos (s_ka st) L -> ready (s_ub st) (s_ka st) n l (s_ki st) ->
  exists evs st', steps (SNext, st) evs (SNext, st') /\ lists d evs (EVS L l j) /\ s_n st' = n /\ s_ki st' = s_next d (Z.of_nat j) /\
    s_stack st' = s_stack st /\ kpos (s_ka st') L /\ k_ikey (s_ka st') = fst (ent l j) /\ lenclass (k_len (s_ka st')) = lenclass (snd (ent l j)).
Proof.
  intros IH A B Hn Hki Hj KP RD. pose proof (iv_leaf _ _ HI L n l A B) as Lok. rewrite Hki in RD.
  pose proof (inv_layer h g HI n L A) as HL. destruct (kpos_rest _ _ HL KP) as (rest & Kb & Ko & Kl & K8).
  set (p := perm_get (lf_perm l) j). assert (LS : live_slot l p) by (exists j; auto).
  pose proof (inv_ikey h g HI L n l p A B LS) as Hi. assert (Hi' : 0 <= lf_ikey l p < 2 ^ 64) by (rewrite U64_eq in Hi; exact Hi).
  pose proof (ready_nodup _ _ _ _ _ RD Hj) as ND. unfold ent in ND. cbn [fst snd] in ND. fold p in ND.
  assert (IN : (0 <=? Z.of_nat j) && (Z.of_nat j <? Z.of_nat (perm_size (lf_perm l))) = true).
  { unfold size in Hj. apply andb_true_intro. split; [apply Z.leb_le|apply Z.ltb_lt]; lia. }
  assert (STEP : forall c, (
    ka1 <- (if lf_klx l p =? 64 then key_store_suffix (lf_ksuf l p) (s_ka st) else Ok (s_ka st)) ;;
    (if s_duplicate d (s_ub st) ka1 (lf_ikey l p) (lf_klx l p) then
      Ok (SNext, MkS (s_root st) (s_n st) (s_next d (s_ki st)) (s_stack st) ka1 (s_ub st))
    else
      ka2 <- key_store_ikey (lf_ikey l p) ka1 ;;
      if 127 <? lf_klx l p then
        r <- lv_layer (lf_lv l p) ;;
        Ok (SDown, MkS r (s_n st) (s_ki st) ((s_root st, s_n st) :: s_stack st) ka2 false)
      else
        v <- lv_value (lf_lv l p) ;;
        Ok (SEmit v, MkS (s_root st) (s_n st) (s_ki st) (s_stack st) (key_store_length (if lf_klx l p =? 64 then 8 + len (lf_ksuf l p) else lf_klx l p) ka2) false)))
    = Ok c -> steps (SNext, st) [] c).
  { intros c E. apply steps_next. cbn [s_step]. unfold s_find_next. rewrite Hn, (hleaf_some _ _ _ B). cbn [bind].
    rewrite (lo_del _ _ _ _ _ Lok), Hki, IN, Nat2Z.id. fold p. rewrite Hn, Hki in E. exact E. }
  destruct (lo_slots _ _ _ _ _ Lok p LS) as [[V|(V1 & r & L' & V2 & V3 & V4)] Bk].
  - (* a value: one event *)
    destruct V as ((v & Ev) & V). destruct (slot_val_klx L l p (conj (ex_intro _ v Ev) V)) as [K128 Kx].
    assert (HH : holds h g (g_pre g L ++ entry_str l p) v) by (exists L, n, l, p; auto 10).
    pose proof (HK _ _ HH) as HKl. rewrite app_length in HKl.
    assert (SK : forall k v', EVS L l j k v' <-> k = g_pre g L ++ entry_str l p /\ v' = v).
    { intros k v'. unfold P_Scan2.EVS, slotkeys. fold p. split.
      - intros (t & -> & [(_ & E & ->)|(E & _)]); [|lia]. split; auto. congruence.
      - intros [-> ->]. exists (entry_str l p). auto. }
    assert (L127 : (127 <? lf_klx l p) = false) by (apply Z.ltb_ge; lia).
    destruct (Z.eqb_spec (lf_klx l p) 64) as [K64|K64].
    + assert (Es : entry_str l p = be_bytes 8 (lf_ikey l p) ++ lf_ksuf l p).
      { unfold entry_str. destruct (Z.leb_spec (lf_klx l p) 8); [lia|]. destruct (Z.eqb_spec (lf_klx l p) 64); [auto|lia]. }
      assert (Ls : (8 + length (lf_ksuf l p) <= length rest)%nat) by (rewrite Es, app_length, be_bytes_length in HKl; lia).
      set (ka1 := MkKey (k_ikey (s_ka st)) (k_len (s_ka st)) (g_pre g L ++ firstn 8 rest ++ lf_ksuf l p ++ skipn (8 + length (lf_ksuf l p)) rest) (k_off (s_ka st))).
      set (ka2 := MkKey (lf_ikey l p) (k_len (s_ka st)) (g_pre g L ++ be_bytes 8 (lf_ikey l p) ++ lf_ksuf l p ++ skipn (8 + length (lf_ksuf l p)) rest) (k_off (s_ka st))).
      assert (E2 : key_store_ikey (lf_ikey l p) ka1 = Ok ka2).
      { rewrite (store_ikey_ok ka1 (g_pre g L) (firstn 8 rest ++ lf_ksuf l p ++ skipn (8 + length (lf_ksuf l p)) rest)); auto.
        - unfold ka2. f_equal. f_equal. f_equal. f_equal. assert (E8 : length (firstn 8 rest) = 8%nat) by (rewrite firstn_length; lia).
          rewrite skipn_app, E8, Nat.sub_diag, (skipn_all2 (firstn 8 rest)) by lia. reflexivity.
        - rewrite app_length, firstn_length. lia. }
      set (ka3 := key_store_length (8 + len (lf_ksuf l p)) ka2).
      assert (FS : key_full_string ka3 = g_pre g L ++ entry_str l p).
      { unfold key_full_string, ka3, ka2, key_store_length. cbn [k_off k_len k_buf]. rewrite Ko, Es.
        replace (length (g_pre g L) + Z.to_nat (8 + len (lf_ksuf l p)))%nat with (length (g_pre g L ++ be_bytes 8 (lf_ikey l p) ++ lf_ksuf l p)) by (rewrite !app_length, be_bytes_length; unfold len; lia).
        rewrite !app_assoc. rewrite firstn_app, firstn_all, Nat.sub_diag, firstn_O. apply app_nil_r. }
      exists [(g_pre g L ++ entry_str l p, v)]. eexists. split.
      { change [(g_pre g L ++ entry_str l p, v)] with ([] ++ [(g_pre g L ++ entry_str l p, v)]). eapply steps_trans.
        - apply STEP. rewrite (store_suffix_ok (s_ka st) (g_pre g L) rest (lf_ksuf l p) Kb Ko Ls). cbn [bind]. fold ka1.
          rewrite (ND ka1) by reflexivity. rewrite E2. cbn [bind]. rewrite L127, Ev. cbn [lv_value bind]. fold ka3. reflexivity.
        - rewrite <- FS. apply steps_emit. }
      split; [apply lists_one; exact SK|]. cbn [s_n s_ki s_stack s_ka]. split; auto. split; [now rewrite Hki|]. split; auto.
      split; [|split; [reflexivity|]].
      * eexists. split; [reflexivity|]. split; [|exact Ko]. unfold ka3, ka2, key_store_length. cbn [k_buf]. rewrite !app_length, be_bytes_length, skipn_length. lia.
      * unfold ka3, key_store_length, ent. cbn [s_ka k_len snd]. fold p. rewrite K64. destruct V as [(V & _)|(_ & V & _)]; [lia|]. destruct (lf_ksuf l p) as [|x y]; [congruence|]. rewrite len_cons in *. pose proof (len_nonneg y). unfold lenclass. lia.
    + assert (K8' : 0 <= lf_klx l p <= 8) by lia.
      assert (Es : entry_str l p = firstn (Z.to_nat (lf_klx l p)) (be_bytes 8 (lf_ikey l p))).
      { unfold entry_str. destruct (Z.leb_spec (lf_klx l p) 8); [auto|lia]. }
      set (ka2 := MkKey (lf_ikey l p) (k_len (s_ka st)) (g_pre g L ++ be_bytes 8 (lf_ikey l p) ++ skipn 8 rest) (k_off (s_ka st))).
      assert (E2 : key_store_ikey (lf_ikey l p) (s_ka st) = Ok ka2) by (apply store_ikey_ok; auto).
      set (ka3 := key_store_length (lf_klx l p) ka2).
      assert (FS : key_full_string ka3 = g_pre g L ++ entry_str l p).
      { unfold key_full_string, ka3, ka2, key_store_length. cbn [k_off k_len k_buf]. rewrite Ko, Es.
        rewrite firstn_app, (firstn_all2 (g_pre g L)) by lia. f_equal.
        replace (length (g_pre g L) + Z.to_nat (lf_klx l p) - length (g_pre g L))%nat with (Z.to_nat (lf_klx l p)) by lia.
        rewrite firstn_app. replace (Z.to_nat (lf_klx l p) - length (be_bytes 8 (lf_ikey l p)))%nat with 0%nat by (rewrite be_bytes_length; lia).
        rewrite firstn_O. apply app_nil_r. }
      exists [(g_pre g L ++ entry_str l p, v)]. eexists. split.
      { change [(g_pre g L ++ entry_str l p, v)] with ([] ++ [(g_pre g L ++ entry_str l p, v)]). eapply steps_trans.
        - apply STEP. cbn [bind].
          rewrite (ND (s_ka st)) by reflexivity. rewrite E2. cbn [bind]. rewrite L127, Ev. cbn [lv_value bind]. fold ka3. reflexivity.
        - rewrite <- FS. apply steps_emit. }
      split; [apply lists_one; exact SK|]. cbn [s_n s_ki s_stack s_ka]. split; auto. split; [now rewrite Hki|]. split; auto.
      split; [|split; [reflexivity|]].
      * eexists. split; [reflexivity|]. split; [|exact Ko]. unfold ka3, ka2, key_store_length. cbn [k_buf]. rewrite !app_length, be_bytes_length, skipn_length. lia.
      * cbn. fold p. reflexivity.
  - (* a layer *)
    assert (O : owns h g L n l p r L') by (repeat split; auto; apply V3).
    assert (HL' : g_lay g L' = Some L') by (destruct V3; eapply inv_layer; eauto).
    assert (PL : length (g_pre g L') = (length (g_pre g L) + 8)%nat) by (rewrite V4, app_length, be_bytes_length; lia).
    assert (N0 : L' <> 0%nat). { intros ->. destruct (iv_l0 _ _ HI) as [_ E]. rewrite E in PL. cbn in PL. lia. }
    set (ka2 := MkKey (lf_ikey l p) (k_len (s_ka st)) (g_pre g L ++ be_bytes 8 (lf_ikey l p) ++ skipn 8 rest) (k_off (s_ka st))).
    assert (E2 : key_store_ikey (lf_ikey l p) (s_ka st) = Ok ka2) by (apply store_ikey_ok; auto).
    set (st1 := MkS r (s_n st) (s_ki st) ((s_root st, s_n st) :: s_stack st) ka2 false).
    assert (S1 : steps (SNext, st) [] (SDown, st1)).
    { apply STEP. rewrite V1. cbn [Z.eqb Pos.eqb bind]. rewrite V1 in ND. rewrite (ND (s_ka st)) by reflexivity. rewrite E2. cbn [bind]. cbn [Z.ltb Z.compare Pos.compare Pos.compare_cont]. rewrite V2. reflexivity. }
    destruct (enter_layer L' r st1 N0 HL' V3 eq_refl) as (n2 & l2 & st2 & S2 & D1 & D2 & D3 & D4 & D5 & D6 & D7).
    { cbn. rewrite Ko. lia. } { lia. }
    { exists (skipn 8 rest). unfold st1, ka2. cbn [s_ka k_buf]. rewrite V4, app_assoc. split; auto. rewrite !app_length, be_bytes_length, skipn_length. lia. }
    destruct (IH L' HL' ltac:(lia) n2 l2 st2 D1 D2 D3 D4 D5) as (evs & st3 & S3 & Ls & F1 & (rest3 & F2 & F3 & F4) & F5).
    cbn [s_stack] in D6. rewrite D6 in F1. unfold st1 in F1. cbn [s_stack] in F1. rewrite Hn in F1.
    set (ka4 := MkKey (lf_ikey l p) 9 (k_buf (s_ka st3)) (length (g_pre g L))).
    assert (U : key_unshift (s_ka st3) = Ok ka4) by (apply (unshift_ok _ _ _ rest3); auto; [now rewrite <- V4|now rewrite F4, PL]).
    set (st4 := MkS (s_root st) n (Z.of_nat j) (s_stack st) ka4 false).
    assert (S4 : steps (SUp, st3) [] (SNext, st4)).
    { apply steps_up. cbn [s_step]. rewrite F1, U. cbn [bind]. unfold key_empty. cbn [k_ikey k_len ka4]. rewrite andb_false_r.
      rewrite (stable_here L n l); auto; [|left; cbn; lia]. cbn [bind]. rewrite (hleaf_some _ _ _ B). cbn [bind]. rewrite F5.
      rewrite (lower_here L n l j ka4 A B Hj); [cbn [bind]; reflexivity|reflexivity|]. unfold ent, ka4. cbn [snd k_len]. fold p. now rewrite V1. }
    set (st5 := MkS (s_root st) n (s_next d (Z.of_nat j)) (s_stack st) ka4 false).
    assert (S5 : steps (SNext, st4) [] (SNext, st5)).
    { apply steps_next. cbn [s_step]. unfold s_find_next, st4. cbn [s_n s_ki s_ka s_ub s_root s_stack]. rewrite (hleaf_some _ _ _ B). cbn [bind].
      rewrite (lo_del _ _ _ _ _ Lok), IN, Nat2Z.id. fold p. rewrite V1. cbn [Z.eqb Pos.eqb bind].
      assert (Q : s_duplicate d false ka4 (lf_ikey l p) 128 = true).
      { assert (Q : key_compare (k_ikey ka4) (k_len ka4) (lf_ikey l p) 128 = 0) by (apply key_compare_eq; split; reflexivity).
        unfold s_duplicate. rewrite Q. destruct d; reflexivity. }
      rewrite Q. reflexivity. }
    exists evs, st5. split.
    { change evs with ([] ++ evs). eapply steps_trans; [exact S1|]. change evs with ([] ++ evs). eapply steps_trans; [exact S2|].
      rewrite <- (app_nil_r evs). eapply steps_trans; [exact S3|]. change (@nil event) with (@nil event ++ @nil event). eapply steps_trans; eauto. }
    split.
    { eapply lists_ext; [exact Ls|]. intros k v. rewrite D7. unfold P_Scan2.EVS, slotkeys. fold p. split.
      - intros (t & Nt & -> & Hh). exists (be_bytes 8 (lf_ikey l p) ++ t). rewrite V4, <- app_assoc. split; auto. right. split; auto.
        exists r, L', t. split; auto. split; [apply V3|]. split; auto.
      - intros (t & -> & [(E & _)|(_ & r' & L2 & t' & E1 & E3 & E4 & -> & Hh)]); [congruence|].
        assert (r' = r) by congruence. subst r'. assert (L2 = L') by (destruct V3; congruence). subst L2.
        exists t'. split; auto. rewrite V4 in *. rewrite <- app_assoc in *. auto. }
    split; auto. split; auto. split; auto. split.
    { exists (be_bytes 8 (lf_ikey l p) ++ rest3). cbn [s_ka st5 ka4 k_buf k_off]. rewrite F2, V4, <- app_assoc in *. auto. }
    split; [reflexivity|]. cbn. fold p. now rewrite V1.
Qed.

(* The rest of a layer. *)
Lemma ready_range ub ka n l ki : ready ub ka n l ki -> beyond d l ki \/ exists j, ki = Z.of_nat j /\ (j < size l)%nat.
Proof.
  unfold ready, beyond. destruct d; intros H.
  - destruct (Z_lt_le_dec ki (Z.of_nat (size l))); [right|left; lia]. exists (Z.to_nat ki). lia.
  - destruct (Z_lt_le_dec ki 0); [left; lia|right]. exists (Z.to_nat ki). lia.
Qed.
Definition dmeas (n : nat) : Z := match d with Fwd => U64 - g_lo g n | Rev => g_lo g n + 1 end.
Lemma beyond_out l ki : beyond d l ki -> (0 <=? ki) && (ki <? Z.of_nat (perm_size (lf_perm l))) = false.
Proof. unfold beyond, size. intros H. apply andb_false_iff. destruct d; [right; apply Z.ltb_ge; lia|left; apply Z.leb_gt; lia]. Qed.
Lemma store_ikey_any ka p rest ik : k_buf ka = p ++ rest -> k_off ka = length p -> (8 <= length rest)%nat ->
  exists b8, length b8 = 8%nat /\ key_store_ikey ik ka = Ok (MkKey ik (k_len ka) (p ++ b8 ++ skipn 8 rest) (k_off ka)).
Proof.
  intros B O H8. exists (le_bytes 8 (bswap 8 ik)). split; [apply le_bytes_length|]. unfold key_store_ikey. rewrite B, O.
  rewrite <- (firstn_skipn 8 rest) at 1. rewrite buf_write_mid; [reflexivity|]. rewrite le_bytes_length, firstn_length. lia.
Qed.
Lemma advance_ok L n l ka : g_lay g n = Some L -> kpos ka L -> exists ka1, s_advance d l ka = Ok (d_adj d l, ka1) /\ kpos ka1 L /\
  match d with Fwd => ka1 = ka | Rev => k_ikey ka1 = lf_ikey l 0%nat /\ k_len ka1 = 0 end.
Proof.
  intros A KP. pose proof (inv_layer h g HI n L A) as HL. unfold s_advance, d_adj. destruct d; [eauto|].
  destruct (kpos_rest _ _ HL KP) as (rest & Kb & Ko & Kl & K8).
  destruct (store_ikey_any ka (g_pre g L) rest (lf_ikey l 0%nat) Kb Ko K8) as (b8 & E8 & E). rewrite E. cbn [bind].
  eexists. split; [reflexivity|]. split; [|auto]. exists (b8 ++ skipn 8 rest). cbn [key_store_length k_buf k_off]. split; auto. split; auto.
  rewrite !app_length, E8, skipn_length. lia.
Qed.
Lemma lower_adj L n l x lx ub ka ki ka1 : g_lay g n = Some L -> hp_node h n = Some (NLeaf l) -> d_adj d l = Some x -> hp_node h x = Some (NLeaf lx) ->
  ready ub ka n l ki -> match d with Fwd => ka1 = ka | Rev => k_ikey ka1 = lf_ikey l 0%nat /\ k_len ka1 = 0 end ->
  s_stable d h x ka1 = Ok x /\ s_lower d ub ka1 lx = Ok (d_start d lx) /\ ready ub ka1 x lx (d_start d lx).
Proof.
  intros A B D X RD K. destruct (adj_some h g HI d L n l x A B D) as (E1 & _ & E3 & E4).
  pose proof (iv_leaf _ _ HI L x lx E1 X) as Xok. pose proof (iv_leaf _ _ HI L n l A B) as Lok. pose proof (inv_bounds h g HI x L E1) as Bx.
  destruct (lf_lower_ok lx ka1 (lo_sorted _ _ _ _ _ Xok)) as (i & p & F & Fi & F1 & F2 & F3).
  pose proof (ent_range h g HI L x lx) as ER. pose proof (stable_here L x lx ka1 E1 X) as SH.
  unfold ready, s_lower, s_lower_pos in *. destruct d; cbn [d_adj d_start] in *.
  - subst ka1. destruct RD as (R1 & R2 & R3). split; [reflexivity|]. rewrite F. cbn [bind].
    assert (forall j, (j < size lx)%nat -> entry_lt (k_ikey ka, k_len ka) (ent lx j)) by (intros j Hj; specialize (ER j E1 X Hj); left; cbn [fst]; lia).
    split; [|split; [lia|split; [lia|auto]]]. f_equal. destruct (Nat.eq_dec i 0) as [->|Ni]; [lia|]. exfalso. specialize (F1 0%nat ltac:(lia)).
    specialize (H 0%nat ltac:(unfold size; lia)). unfold entry_lt, ent in *. cbn [fst snd] in *. lia.
  - destruct K as [K1 K2]. pose proof (lo_prev _ _ _ _ _ Lok) as P. rewrite D in P. destruct P as (_ & P & _). rewrite P in K1.
    split; [apply SH; right; split; [lia|auto]|].
    assert (forall j, (j < size lx)%nat -> entry_lt (ent lx j) (k_ikey ka1, k_len ka1)) by (intros j Hj; specialize (ER j E1 X Hj); left; cbn [fst]; lia).
    split; [|split; [lia|auto]]. destruct ub; [reflexivity|]. rewrite F. cbn [bind].
    destruct p as [p|]; [exfalso|].
    + destruct F3 as (F3 & -> & F4 & F5). specialize (H i F3). unfold entry_lt, ent in H. cbn [fst snd] in H. lia.
    + f_equal. unfold size in *. destruct (Nat.eq_dec i (perm_size (lf_perm lx))) as [->|Ni]; [lia|]. exfalso. specialize (F3 i ltac:(lia)). specialize (H i ltac:(lia)).
      unfold entry_lt, ent in *. cbn [fst snd] in *. lia.
Qed.
Lemma layer_step L : (forall L', g_lay g L' = Some L' -> (length (g_pre g L) < length (g_pre g L'))%nat -> layer_prop L') -> layer_prop L.
Proof.
  intros IH.
  assert (LEAF : forall (X : Z -> Prop), (forall n l st, g_lay g n = Some L -> hp_node h n = Some (NLeaf l) -> s_n st = n ->
      kpos (s_ka st) L -> ready (s_ub st) (s_ka st) n l (s_ki st) -> beyond d l (s_ki st) -> X (dmeas n) ->
      exists evs st', steps (SNext, st) evs (SUp, st') /\ lists d evs (EV d L n (s_ki st)) /\ s_stack st' = s_stack st /\ kpos (s_ka st') L /\ s_ub st' = false) ->
    forall m n l st, g_lay g n = Some L -> hp_node h n = Some (NLeaf l) -> s_n st = n ->
      kpos (s_ka st) L -> ready (s_ub st) (s_ka st) n l (s_ki st) -> X (dmeas n) ->
      match d with Fwd => Z.of_nat (size l) - s_ki st | Rev => s_ki st + 1 end <= Z.of_nat m ->
      exists evs st', steps (SNext, st) evs (SUp, st') /\ lists d evs (EV d L n (s_ki st)) /\ s_stack st' = s_stack st /\ kpos (s_ka st') L /\ s_ub st' = false).
  { intros X END. induction m as [|m IHm]; intros n l st A B C KP RD HX Hm; destruct (ready_range _ _ _ _ _ RD) as [BY|(j & Ej & Hj)].
    - eauto.
    - exfalso. destruct d; lia.
    - eauto.
    - destruct (slot_step L n l j st IH A B C Ej Hj KP RD) as (e1 & st1 & S1 & L1 & F1 & F2 & F3 & F4 & F5 & F6).
      destruct (IHm n l st1 A B F1 F4) as (e2 & st2 & S2 & L2 & G1 & G2 & G3); auto.
      { rewrite F2. apply (ready_next L); auto. }
      { rewrite F2. rewrite Ej in Hm. destruct d; cbn [s_next]; lia. }
      exists (e1 ++ e2), st2. split; [eapply steps_trans; eauto|]. split; [|split; [congruence|auto]].
      rewrite F2 in L2. rewrite Ej. eapply lists_app; [exact L1|exact L2| |].
      + exact (EV_slot_order h g HI d L n l j A B Hj).
      + exact (EV_slot h g d L n l j A B Hj). }
  assert (ALL : forall q n l st, g_lay g n = Some L -> hp_node h n = Some (NLeaf l) -> s_n st = n ->
      kpos (s_ka st) L -> ready (s_ub st) (s_ka st) n l (s_ki st) -> dmeas n <= Z.of_nat q ->
      exists evs st', steps (SNext, st) evs (SUp, st') /\ lists d evs (EV d L n (s_ki st)) /\ s_stack st' = s_stack st /\ kpos (s_ka st') L /\ s_ub st' = false).
  { induction q as [|q IHq]; intros n l st A B C KP RD Hq; pose proof (inv_bounds h g HI n L A) as Bn; [exfalso; unfold dmeas in Hq; destruct d; lia|].
    apply (LEAF (fun z => z <= Z.of_nat (S q))) with (l := l) (m := Z.to_nat (match d with Fwd => Z.of_nat (size l) - s_ki st | Rev => s_ki st + 1 end)); auto; [|lia].
    clear n l st A B C KP RD Hq Bn. intros n l st A B C KP RD BY Hq.
    pose proof (iv_leaf _ _ HI L n l A B) as Lok. destruct (advance_ok L n l (s_ka st) A KP) as (ka1 & E1 & KP1 & EK).
    destruct (d_adj d l) as [x|] eqn:AD.
    - destruct (adj_some h g HI d L n l x A B AD) as (X1 & (lx & X2) & X3 & X4).
      destruct (lower_adj L n l x lx (s_ub st) (s_ka st) (s_ki st) ka1 A B AD X2 RD EK) as (Y1 & Y2 & Y3).
      pose proof (inv_bounds h g HI n L A) as Bn. pose proof (inv_bounds h g HI x L X1) as Bx.
      destruct (IHq x lx (MkS (s_root st) x (d_start d lx) (s_stack st) ka1 (s_ub st)) X1 X2 eq_refl KP1 Y3) as (evs & st' & S1 & S2 & S3).
      { unfold dmeas in *. destruct d; lia. }
      exists evs, st'. split; [|split; [|exact S3]].
      + change evs with ([] ++ evs). eapply steps_trans; [|exact S1]. apply steps_next. cbn [s_step]. unfold s_find_next. rewrite C, (hleaf_some _ _ _ B). cbn [bind].
        rewrite (lo_del _ _ _ _ _ Lok), (beyond_out l _ BY), E1. cbn [bind]. rewrite Y1. cbn [bind]. rewrite (hleaf_some _ _ _ X2). cbn [bind]. rewrite Y2. reflexivity.
      + cbn [s_ki] in S2. eapply lists_ext; [exact S2|]. intros k v. symmetry. exact (EV_adj h g HI d L n l (s_ki st) x lx A B BY AD X2 k v).
    - exists [], (MkS (s_root st) n (s_ki st) (s_stack st) ka1 false).
      split; [|split; [apply lists_nil; exact (EV_end h g HI d L n l _ A B BY AD)|auto]].
      apply steps_next. cbn [s_step]. unfold s_find_next. rewrite C, (hleaf_some _ _ _ B). cbn [bind]. rewrite (lo_del _ _ _ _ _ Lok), (beyond_out l _ BY), E1.
      cbn [bind]. reflexivity. }
  intros n l st A B C KP RD. apply (ALL (Z.to_nat (dmeas n)) n l st A B C KP RD).
  pose proof (inv_bounds h g HI n L A). unfold dmeas. destruct d; lia.
Qed.
Theorem layer_traversal L : g_lay g L = Some L -> layer_prop L.
Proof.
  assert (H : forall m L, g_lay g L = Some L -> (keybuf_size < m + length (g_pre g L))%nat -> layer_prop L).
  { induction m as [|m IH]; intros L' HL Hm; [specialize (HB L' HL); lia|].
    apply layer_step. intros L2 H2 Hlt. apply IH; auto. lia. }
  intros HL. apply (H (S keybuf_size) L HL). lia.
Qed.
End Trav.
