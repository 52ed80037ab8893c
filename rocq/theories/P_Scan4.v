(* Scans: from the start key, and the whole scan. *)
From Coq Require Import Sorting.Sorted.
From Verif Require Import Lib Spec_String Spec_Map Spec_Scan M_Key P_Key M_Permuter P_Permuter2 M_Search P_Search M_Tree P_Tree1 P_Tree2 P_Tree3 M_Scan P_Scan1 P_Scan2 P_Scan3.

Section Init.
Context (h : heap) (g : ghost) (d : sdir) (em : bool).
Hypothesis HI : Inv h g.
Hypothesis HB : forall L, g_lay g L = Some L -> (length (g_pre g L) + 8 <= keybuf_size)%nat.
Hypothesis HK : forall k v, holds h g k v -> (length k <= keybuf_size)%nat.
Hypothesis HM : forall k v, holds h g k v -> (length k <= maxkeylen)%nat.

Notation steps := (steps h d em).
Notation EV := (EV h g).
Notation EVS := (EVS h g).
Notation kpos := (kpos g).
Notation ready := (ready g d).

(* Back from a layer. *)
Lemma leave_layer L n l j L' rt stk st : g_lay g n = Some L -> hp_node h n = Some (NLeaf l) -> (j < size l)%nat ->
  snd (ent l j) = 128 -> g_pre g L' = g_pre g L ++ be_bytes 8 (fst (ent l j)) -> kpos (s_ka st) L' -> s_stack st = (rt, n) :: stk -> s_ub st = false ->
  exists st', steps (SUp, st) [] (SNext, st') /\ s_n st' = n /\ s_ki st' = s_next d (Z.of_nat j) /\ s_stack st' = stk /\ kpos (s_ka st') L /\
    k_ikey (s_ka st') = fst (ent l j) /\ k_len (s_ka st') = 9 /\ s_ub st' = false.
Proof.
  intros A B Hj V1 V4 (rest3 & F2 & F3 & F4) F1 F5. pose proof (iv_leaf _ _ HI L n l A B) as Lok.
  unfold ent in *. cbn [fst snd] in *. set (p := perm_get (lf_perm l) j) in *.
  assert (LS : live_slot l p) by (exists j; auto).
  pose proof (inv_ikey h g HI L n l p A B LS) as Hi. assert (Hi' : 0 <= lf_ikey l p < 2 ^ 64) by (rewrite U64_eq in Hi; exact Hi).
  destruct (lo_slots _ _ _ _ _ Lok p LS) as [_ Bk].
  assert (PL : length (g_pre g L') = (length (g_pre g L) + 8)%nat) by (rewrite V4, app_length, be_bytes_length; lia).
  assert (IN : (0 <=? Z.of_nat j) && (Z.of_nat j <? Z.of_nat (perm_size (lf_perm l))) = true).
  { unfold size in Hj. apply andb_true_intro. split; [apply Z.leb_le|apply Z.ltb_lt]; lia. }
  set (ka4 := MkKey (lf_ikey l p) 9 (k_buf (s_ka st)) (length (g_pre g L))).
  assert (U : key_unshift (s_ka st) = Ok ka4) by (apply (unshift_ok _ _ _ rest3); auto; [now rewrite <- V4|now rewrite F4, PL]).
  set (st4 := MkS rt n (Z.of_nat j) stk ka4 false).
  assert (S4 : steps (SUp, st) [] (SNext, st4)).
  { apply steps_up. cbn [s_step]. rewrite F1, U. cbn [bind]. unfold key_empty. cbn [k_ikey k_len ka4]. rewrite andb_false_r.
    rewrite (stable_here h g d HI HB L n l); auto; [|left; cbn; lia]. cbn [bind]. rewrite (hleaf_some _ _ _ B). cbn [bind]. rewrite F5.
    rewrite (lower_here h g d HI HB L n l j ka4 A B Hj); [cbn [bind]; reflexivity|reflexivity|]. unfold ent, ka4. cbn [snd k_len]. fold p. now rewrite V1. }
  set (st5 := MkS rt n (s_next d (Z.of_nat j)) stk ka4 false).
  assert (S5 : steps (SNext, st4) [] (SNext, st5)).
  { apply steps_next. cbn [s_step]. unfold s_find_next, st4. cbn [s_n s_ki s_ka s_ub s_root s_stack]. rewrite (hleaf_some _ _ _ B). cbn [bind].
    rewrite (lo_del _ _ _ _ _ Lok), IN, Nat2Z.id. fold p. rewrite V1. cbn [Z.eqb Pos.eqb bind].
    assert (Q : s_duplicate d false ka4 (lf_ikey l p) 128 = true).
    { assert (Q : key_compare (k_ikey ka4) (k_len ka4) (lf_ikey l p) 128 = 0) by (apply key_compare_eq; split; reflexivity).
      unfold s_duplicate. rewrite Q. destruct d; reflexivity. }
    rewrite Q. reflexivity. }
  exists st5. split; [change (@nil event) with (@nil event ++ @nil event); eapply steps_trans; eauto|].
  split; auto. split; auto. split; auto. split; [|auto].
  exists (be_bytes 8 (lf_ikey l p) ++ rest3). cbn [s_ka st5 ka4 k_buf k_off]. rewrite F2, V4, <- app_assoc in *. auto.
Qed.

Lemma entry_total (a b : Z * Z) : entry_lt a b \/ (fst a = fst b /\ lenclass (snd a) = lenclass (snd b)) \/ entry_lt b a.
Proof. unfold entry_lt. lia. Qed.

Lemma dlex_dent s t : bytes_ok s -> bytes_ok t ->
  let a := (slice_make_comparable s, len s) in let b := (slice_make_comparable t, len t) in
  dlex d s t <-> dent d a b \/ (fst a = fst b /\ lenclass (snd a) = lenclass (snd b) /\ dlex d s t).
Proof.
  intros Hs Ht a b. destruct (entry_total a b) as [H|[[H1 H2]|H]].
  - assert (lex_lt s t) by (apply entry_lex; auto). destruct d; cbn [dlex dent]; [tauto|]. split.
    + intros Q. destruct (lex_lt_irrefl s). eapply lex_lt_trans; eauto.
    + intros [Q|[_ [_ Q]]]; auto. unfold entry_lt in *. lia.
  - split; [intros Q; auto|]. intros [Q|[_ [_ Q]]]; auto. destruct d; cbn [dent] in Q; unfold entry_lt in Q; lia.
  - assert (lex_lt t s) by (apply entry_lex; auto). destruct d; cbn [dlex dent]; [|tauto]. split.
    + intros Q. destruct (lex_lt_irrefl s). eapply lex_lt_trans; eauto.
    + intros [Q|[_ [_ Q]]]; auto. unfold entry_lt in *. lia.
Qed.

Section Here.
Context (L n : nat) (l : leafn) (s : list Z) (i : nat) (p : option nat).
Hypothesis HL : g_lay g L = Some L.
Hypothesis A : g_lay g n = Some L.
Hypothesis B : hp_node h n = Some (NLeaf l).
Hypothesis Bs : bytes_ok s.
Hypothesis Hy : g_lo g n <= slice_make_comparable s < g_hi g n.
Hypothesis Fi : (i <= size l)%nat.
Hypothesis F1 : forall j, (j < i)%nat -> entry_lt (ent l j) (slice_make_comparable s, len s).
Hypothesis F2 : forall j, (i < j < size l)%nat -> entry_lt (slice_make_comparable s, len s) (ent l j).
Hypothesis F3 : match p with
  | Some q => (i < size l)%nat /\ q = perm_get (lf_perm l) i /\ fst (ent l i) = slice_make_comparable s /\ lenclass (snd (ent l i)) = lenclass (len s)
  | None => forall j, (i <= j < size l)%nat -> entry_lt (slice_make_comparable s, len s) (ent l j) end.
(* The first position after the start key. *)
Definition after : Z := match d, p with Fwd, None => Z.of_nat i | Fwd, Some _ => Z.of_nat i + 1 | Rev, _ => Z.of_nat i - 1 end.

Lemma after_dent j : (j < size l)%nat -> dle d after (Z.of_nat j) -> dent d (slice_make_comparable s, len s) (ent l j).
Proof.
  intros Hj H. unfold after, dle in H. unfold dent. destruct d; [|apply F1; lia]. destruct p as [q|]; [apply F2; lia|apply F3; lia].
Qed.
Lemma dent_after j : (j < size l)%nat -> dent d (slice_make_comparable s, len s) (ent l j) -> dle d after (Z.of_nat j).
Proof.
  intros Hj H. unfold after, dle. unfold dent in H. destruct d.
  - destruct (le_lt_dec i j) as [C|C]; [|specialize (F1 j C); unfold entry_lt in *; lia].
    destruct p as [q|]; [|lia]. destruct F3 as (_ & _ & G1 & G2). destruct (Nat.eq_dec j i) as [->|]; [unfold entry_lt in H; cbn [fst snd] in H; lia|lia].
  - destruct (le_lt_dec i j) as [C|C]; [exfalso|lia]. destruct (Nat.eq_dec j i) as [->|].
    + destruct p as [q|]; [destruct F3 as (_ & _ & G1 & G2)|specialize (F3 i ltac:(lia))]; unfold entry_lt in *; cbn [fst snd] in *; lia.
    + specialize (F2 j ltac:(lia)). unfold entry_lt in *; lia.
Qed.
Lemma ready_after ka : k_ikey ka = slice_make_comparable s -> lenclass (k_len ka) = lenclass (len s) -> ready false ka n l after.
Proof.
  intros E1 E2. pose proof after_dent as AD. unfold P_Scan3.ready, after, dle, dent in *. destruct d.
  - split; [destruct p; lia|]. split; [lia|]. intros j Hj Hk. specialize (AD j Hj Hk). unfold entry_lt in *. cbn [fst snd] in *. lia.
  - split; [lia|]. right. intros j Hj Hk. specialize (AD j Hj Hk). unfold entry_lt in *. cbn [fst snd] in *. lia.
Qed.
(* What comes after the start key's own slot. *)
Lemma EV_after k v : EV d L n after k v <-> exists t, k = g_pre g L ++ t /\ (L <> 0%nat -> t <> []) /\ holds h g k v /\
  dent d (slice_make_comparable s, len s) (slice_make_comparable t, len t).
Proof.
  split.
  - intros (n' & l' & j & A1 & A2 & A3 & A4 & t & -> & A5). exists t. split; auto.
    assert (LS : live_slot l' (perm_get (lf_perm l') j)) by (exists j; auto).
    destruct (slotkeys_facts h g HI L _ _ _ _ _ A1 A2 LS A5) as (Bt & Q1 & Q2 & Nt). split; auto. split.
    { apply (holds_in h g HI L t v HL Nt). exists n', l', (perm_get (lf_perm l') j). auto. }
    assert (D : dent d (slice_make_comparable s, len s) (ent l' j)).
    { destruct A4 as [[-> A4]|A4].
      - assert (l' = l) by congruence. subst l'. now apply after_dent.
      - pose proof (ent_range h g HI L n' l' j A1 A2 A3) as R. unfold dent, later in *. destruct d; left; cbn [fst]; lia. }
    clear - D Q1 Q2. unfold dent, ent, entry_lt in *. cbn [fst snd] in *. destruct d; lia.
  - intros (t & -> & Nt & Hh & D). apply (holds_in h g HI L t v HL Nt) in Hh.
    destruct Hh as (n' & l' & sl & A1 & A2 & (j & A3 & <-) & A4). exists n', l', j. split; auto. split; auto. split; auto.
    split; [|exists t; auto]. assert (LS : live_slot l' (perm_get (lf_perm l') j)) by (exists j; auto).
    destruct (slotkeys_facts h g HI L _ _ _ _ _ A1 A2 LS A4) as (Bt & Q1 & Q2 & _).
    assert (D' : dent d (slice_make_comparable s, len s) (ent l' j)) by (clear - D Q1 Q2; unfold dent, ent, entry_lt in *; cbn [fst snd] in *; destruct d; lia).
    pose proof (ent_range h g HI L n' l' j A1 A2 A3) as R. pose proof (inv_bounds h g HI n' L A1) as Bn'. pose proof (inv_bounds h g HI n L A) as Bn.
    destruct (Nat.eq_dec n' n) as [->|N].
    + assert (l' = l) by congruence. subst l'. left. split; auto. now apply dent_after.
    + right. unfold later, dent, entry_lt in *. cbn [fst snd] in *.
      destruct (Z_le_gt_dec (g_hi g n) (g_lo g n')) as [C|C].
      * destruct d; auto; try lia.
      * destruct (Z_le_gt_dec (g_hi g n') (g_lo g n)) as [C'|C']; [destruct d; auto; lia|]. exfalso. apply N.
        apply (leaf_at h g HI L n' n l' l (Z.max (g_lo g n) (g_lo g n'))); auto; lia.
Qed.
End Here.

(* What a scan from s sees in layer L. *)
Definition FROM (L : nat) (s : list Z) (k : list Z) (v : Z) : Prop :=
  exists t, k = g_pre g L ++ t /\ (L <> 0%nat -> t <> []) /\ holds h g k v /\ (dlex d s t \/ (t = s /\ em = true)).

Lemma init_ok : forall m L s st, (length s <= m)%nat -> g_lay g L = Some L -> stale h g L (s_root st) ->
  key_repj (s_ka st) (g_pre g L) s -> length (k_buf (s_ka st)) = keybuf_size -> bytes_ok s -> (L <> 0%nat -> s <> []) -> s_ub st = false ->
  exists evs st', steps (SInit, st) evs (SUp, st') /\ lists d evs (FROM L s) /\ s_stack st' = s_stack st /\ kpos (s_ka st') L /\ s_ub st' = false.
Proof.
  induction m as [m IH] using lt_wf_ind. intros L s st Hm HL Hst KR KL Bs Ns Hub.
  pose proof KR as ((junk & Kb) & Ko & Kl & Ki).
  assert (KP : kpos (s_ka st) L) by (exists (s ++ junk); auto).
  assert (Hy : 0 <= k_ikey (s_ka st) < U64) by (rewrite Ki, U64_eq; now apply slice_bound).
  destruct (reach_ok h g HI L (s_root st) (k_ikey (s_ka st)) HL Hst Hy) as (n & l & R1 & A & B & R4).
  pose proof (iv_leaf _ _ HI L n l A B) as Lok.
  destruct (lf_lower_ok l (s_ka st) (lo_sorted _ _ _ _ _ Lok)) as (i & p & F & Fi & F1 & F2 & F3).
  rewrite Ki in R4. rewrite Ki, Kl in F1, F2, F3. fold (size l) in Fi, F2, F3.
  assert (F3' : match p with
  | Some q => (i < size l)%nat /\ q = perm_get (lf_perm l) i /\ fst (ent l i) = slice_make_comparable s /\ lenclass (snd (ent l i)) = lenclass (len s)
  | None => forall j, (i <= j < size l)%nat -> entry_lt (slice_make_comparable s, len s) (ent l j) end).
  { destruct p as [q|]; auto. destruct F3 as (G1 & -> & G2 & G3). auto. }
  set (ki := Z.of_nat i - match d, p with Rev, None => 1 | _, _ => 0 end).
  assert (LP : s_lower_pos d (s_ka st) l = Ok (ki, p)) by (unfold s_lower_pos; rewrite F; reflexivity).
  assert (KA : match p with None => ki | Some _ => s_next d ki end = after i p).
  { unfold ki, after, s_next. destruct d, p; lia. }
  (* the rest of the layer from `after` *)
  assert (REST : forall st1, s_n st1 = n -> s_ki st1 = after i p -> s_stack st1 = s_stack st -> kpos (s_ka st1) L -> s_ub st1 = false ->
    k_ikey (s_ka st1) = slice_make_comparable s -> lenclass (k_len (s_ka st1)) = lenclass (len s) ->
    exists evs st', steps (SNext, st1) evs (SUp, st') /\ lists d evs (EV d L n (after i p)) /\ s_stack st' = s_stack st /\ kpos (s_ka st') L /\ s_ub st' = false).
  { intros st1 E1 E2 E3 E4 E5 E6 E7.
    destruct (layer_traversal h g d em HI HB HK L HL n l st1 A B E1 E4) as (evs & st' & S1 & S2 & S3 & S4 & S5).
    { rewrite E5, E2. apply (ready_after n l s i p); auto. }
    exists evs, st'. rewrite E2 in S2. split; auto. split; auto. split; [congruence|auto]. }
  (* put together: SAME is what the start key's own slot contributes *)
  assert (GLUE : forall (SAME : list Z -> Z -> Prop) e1 st1, steps (SInit, st) e1 (SNext, st1) -> lists d e1 SAME ->
    (forall k v, SAME k v <-> exists t, k = g_pre g L ++ t /\ (L <> 0%nat -> t <> []) /\ holds h g k v /\
       slice_make_comparable t = slice_make_comparable s /\ lenclass (len t) = lenclass (len s) /\ (dlex d s t \/ (t = s /\ em = true))) ->
    s_n st1 = n -> s_ki st1 = after i p -> s_stack st1 = s_stack st -> kpos (s_ka st1) L -> s_ub st1 = false ->
    k_ikey (s_ka st1) = slice_make_comparable s -> lenclass (k_len (s_ka st1)) = lenclass (len s) ->
    exists evs st', steps (SInit, st) evs (SUp, st') /\ lists d evs (FROM L s) /\ s_stack st' = s_stack st /\ kpos (s_ka st') L /\ s_ub st' = false).
  { intros SAME e1 st1 S1 L1 HS E1 E2 E3 E4 E5 E6 E7. destruct (REST st1 E1 E2 E3 E4 E5 E6 E7) as (e2 & st' & S2 & L2 & T).
    exists (e1 ++ e2), st'. split; [eapply steps_trans; eauto|]. split; [|exact T].
    eapply lists_app; [exact L1|exact L2| |].
    - intros k v k' v' H1 H2. apply HS in H1. destruct H1 as (t & -> & _ & Hh & Q1 & Q2 & _).
      apply (EV_after L n l s i p HL A B) in H2; auto. destruct H2 as (t' & -> & _ & Hh' & Q3).
      apply dlex_pre. apply holds_bytes in Hh; auto. apply holds_bytes in Hh'; auto. apply bytes_ok_app in Hh, Hh'.
      apply dlex_dent; try tauto. left. clear - Q1 Q2 Q3. unfold dent, entry_lt in *. cbn [fst snd] in *. destruct d; lia.
    - intros k v. rewrite HS, (EV_after L n l s i p HL A B) by auto. unfold FROM. split.
      + intros (t & -> & Nt & Hh & Q). pose proof Hh as Bk. apply holds_bytes in Bk; auto. apply bytes_ok_app in Bk.
        destruct Q as [Q|[-> Q]].
        * apply dlex_dent in Q; try tauto. cbn [fst snd] in Q. destruct Q as [Q|(Q1 & Q2 & Q3)]; [right|left]; exists t; auto 10.
        * left. exists s. auto 10.
      + intros [(t & -> & Nt & Hh & _ & _ & Q)|(t & -> & Nt & Hh & Q)]; exists t; auto.
        split; auto. split; auto. split; auto. left. apply dlex_dent; auto. apply holds_bytes in Hh; auto. apply bytes_ok_app in Hh. tauto. }
  (* a key of the same slice and length class as s is in slot p *)
  assert (SLOT : forall t v, (L <> 0%nat -> t <> []) -> holds h g (g_pre g L ++ t) v -> slice_make_comparable t = slice_make_comparable s -> lenclass (len t) = lenclass (len s) ->
    match p with None => False | Some q => slotkeys h g l q t v end).
  { intros t v Nt Hh Q1 Q2. apply (holds_in h g HI L t v HL Nt) in Hh. destruct Hh as (n' & l' & sl & A1 & A2 & A3 & A4).
    destruct (slotkeys_facts h g HI L _ _ _ _ _ A1 A2 A3 A4) as (Bt & Q3 & Q4 & _).
    assert (n' = n). { destruct (lo_slots _ _ _ _ _ (iv_leaf _ _ HI L n' l' A1 A2) sl A3) as [_ B']. apply (leaf_at h g HI L n' n l' l (slice_make_comparable s)); auto. lia. }
    subst n'. assert (l' = l) by congruence. subst l'. destruct p as [q|].
    - destruct F3 as (G1 & G2 & G3 & G4). assert (sl = q); [|now subst]. apply (same_slot l); auto; try lia. exact (lo_sorted _ _ _ _ _ Lok). exists i; auto.
    - apply (lower_none l (s_ka st) (lo_sorted _ _ _ _ _ Lok) i F sl A3). rewrite Ki, Kl. split; congruence. }
  assert (STEP : forall c, match p with
    | None => Ok (SNext, MkS (s_root st) n ki (s_stack st) (s_ka st) (s_ub st))
    | Some q =>
      let skip := Ok (SNext, MkS (s_root st) n (s_next d ki) (s_stack st) (s_ka st) (s_ub st)) in
      if 127 <? lf_klx l q then
        r <- lv_layer (lf_lv l q) ;; Ok (SInit, MkS r n ki ((s_root st, n) :: s_stack st) (key_shift (s_ka st)) (s_ub st))
      else if lf_klx l q =? 64 then
        if (maxkeylen <? length (lf_ksuf l q))%nat then Err BadWrite
        else if s_ksuf_match d (str_compare (lf_ksuf l q) (key_suffix (s_ka st))) em then
          ka1 <- key_store_suffix (lf_ksuf l q) (s_ka st) ;;
          v <- lv_value (lf_lv l q) ;;
          Ok (SEmit v, MkS (s_root st) n ki (s_stack st) (key_store_length (8 + len (lf_ksuf l q)) ka1) (s_ub st))
        else skip
      else if em then v <- lv_value (lf_lv l q) ;; Ok (SEmit v, MkS (s_root st) n ki (s_stack st) (s_ka st) (s_ub st))
      else skip end = Ok c -> steps (SInit, st) [] c).
  { intros c E. apply steps_init. cbn [s_step]. unfold s_find_initial. rewrite R1. cbn [bind]. rewrite (hleaf_some _ _ _ B). cbn [bind].
    rewrite (lo_del _ _ _ _ _ Lok), LP. cbn [bind]. exact E. }
  destruct p as [q|].
  2: { (* no entry for the start key *)
    apply (GLUE (fun _ _ => False) [] (MkS (s_root st) n ki (s_stack st) (s_ka st) (s_ub st))); cbn [s_n s_ki s_stack s_ka s_ub]; auto.
    - apply lists_nil; auto.
    - intros k v. split; [tauto|]. intros (t & -> & Nt & Hh & Q1 & Q2 & _). exact (SLOT t v Nt Hh Q1 Q2).
    - now rewrite Kl. }
  destruct F3' as (Hj & Eq & G3 & G4).
  assert (LS : live_slot l q) by (exists i; auto). assert (Ent : ent l i = (lf_ikey l q, lf_klx l q)) by (unfold ent; now rewrite <- Eq).
  rewrite Ent in G3, G4. cbn [fst snd] in G3, G4.
  pose proof (inv_ikey h g HI L n l q A B LS) as Hi. assert (Hi' : 0 <= lf_ikey l q < 2 ^ 64) by (rewrite U64_eq in Hi; exact Hi).
  destruct (lo_slots _ _ _ _ _ Lok q LS) as [[V|(V1 & r & L' & V2 & V3 & V4)] Bk].
  - destruct V as ((v & Ev) & V). pose proof (conj (ex_intro _ v Ev) V : slot_val L l q) as SV. destruct (slot_val_klx L l q SV) as [K128 Kx].
    assert (L127 : (127 <? lf_klx l q) = false) by (apply Z.ltb_ge; lia). rewrite L127 in STEP.
    assert (HH : holds h g (g_pre g L ++ entry_str l q) v) by (exists L, n, l, q; auto 10).
    pose proof (HM _ _ HH) as HMl. pose proof (HK _ _ HH) as HKl. rewrite app_length in HMl, HKl.
    destruct (entry_facts L l q Hi SV) as (Be & Es & Ec & Esk & Ene).
    (* the only key of this class is the slot's *)
    assert (ONLY : forall t v', (L <> 0%nat -> t <> []) -> holds h g (g_pre g L ++ t) v' -> slice_make_comparable t = slice_make_comparable s -> lenclass (len t) = lenclass (len s) -> t = entry_str l q /\ v' = v).
    { intros t v' Nt Hh Q1 Q2. destruct (SLOT t v' Nt Hh Q1 Q2) as [(_ & E1 & E2)|(E1 & _)]; [|lia]. split; auto. congruence. }
    assert (SAME : forall b : bool, (b = true <-> dlex d s (entry_str l q) \/ (entry_str l q = s /\ em = true)) ->
      forall k v', (if b then k = g_pre g L ++ entry_str l q /\ v' = v else False) <-> exists t, k = g_pre g L ++ t /\ (L <> 0%nat -> t <> []) /\ holds h g k v' /\
       slice_make_comparable t = slice_make_comparable s /\ lenclass (len t) = lenclass (len s) /\ (dlex d s t \/ (t = s /\ em = true))).
    { intros b Hb k v'. split.
      - destruct b; [|tauto]. intros [-> ->]. exists (entry_str l q). split; auto. split; auto. split; auto. split; [congruence|]. split; [congruence|]. now apply Hb.
      - intros (t & -> & Nt & Hh & Q1 & Q2 & Q3). destruct (ONLY t v' Nt Hh Q1 Q2) as [-> ->]. apply Hb in Q3. rewrite Q3. auto. }
    assert (SKIP : steps (SInit, st) [] (SNext, MkS (s_root st) n (s_next d ki) (s_stack st) (s_ka st) (s_ub st)) -> ~ (dlex d s (entry_str l q) \/ (entry_str l q = s /\ em = true)) ->
      exists evs st', steps (SInit, st) evs (SUp, st') /\ lists d evs (FROM L s) /\ s_stack st' = s_stack st /\ kpos (s_ka st') L /\ s_ub st' = false).
    { intros S1 Hb. eapply (GLUE (fun _ _ => False)); [exact S1|apply lists_nil; auto| | | | | | | |]; cbn [s_n s_ki s_stack s_ka s_ub]; auto.
      - apply (SAME false). split; [discriminate|tauto].
      - now rewrite Kl. }
    destruct (Z.eqb_spec (lf_klx l q) 64) as [K64|K64].
    + (* a suffix *)
      assert (Es' : entry_str l q = be_bytes 8 (lf_ikey l q) ++ lf_ksuf l q).
      { unfold entry_str. destruct (Z.leb_spec (lf_klx l q) 8); [lia|]. destruct (Z.eqb_spec (lf_klx l q) 64); [auto|lia]. }
      assert (S9 : 8 < len s) by (rewrite K64 in G4; unfold lenclass in G4; lia).
      rewrite Es', app_length, be_bytes_length in HMl, HKl.
      destruct (Nat.ltb_spec maxkeylen (length (lf_ksuf l q))) as [X|_]; [lia|].
      assert (Lq : 8 < len (entry_str l q)) by (rewrite K64 in Ec; unfold lenclass in Ec; lia).
      assert (CMP : (str_compare (lf_ksuf l q) (key_suffix (s_ka st)) ?= 0) = lex_compare (entry_str l q) s).
      { rewrite str_compare_lex, (key_suffix_repj _ _ _ KR), (lex_slices (entry_str l q) s Be Bs), Es, G3, Z.compare_refl.
        assert (E1 : (8 <? len (entry_str l q)) = true) by (apply Z.ltb_lt; lia). assert (E2 : (8 <? len s) = true) by (apply Z.ltb_lt; lia).
        rewrite E1, E2, Esk. reflexivity. }
      set (c := str_compare (lf_ksuf l q) (key_suffix (s_ka st))) in *.
      assert (MATCH : s_ksuf_match d c em = true <-> dlex d s (entry_str l q) \/ (entry_str l q = s /\ em = true)).
      { unfold s_ksuf_match, dlex, lex_lt. rewrite (lex_compare_antisym (entry_str l q) s), <- (lex_compare_eq (entry_str l q) s), <- CMP.
        destruct (Z.compare_spec c 0) as [E|E|E]; cbn [CompOpp]; destruct d, em;
          destruct (Z.ltb_spec 0 c), (Z.ltb_spec c 0), (Z.eqb_spec c 0); cbn; try lia; intuition congruence. }
      destruct (s_ksuf_match d c em) eqn:EM.
      * assert (L8 : (8 + length (lf_ksuf l q) <= length (s ++ junk))%nat).
        { rewrite Kb, app_length in KL. lia. }
        assert (E8 : firstn 8 (s ++ junk) = be_bytes 8 (lf_ikey l q)).
        { rewrite firstn_app. replace (8 - length s)%nat with 0%nat by (unfold len in S9; lia). rewrite firstn_O, app_nil_r, G3, be_bytes_slice8 by (auto; lia). reflexivity. }
        set (ka1 := MkKey (k_ikey (s_ka st)) (8 + len (lf_ksuf l q)) (g_pre g L ++ be_bytes 8 (lf_ikey l q) ++ lf_ksuf l q ++ skipn (8 + length (lf_ksuf l q)) (s ++ junk)) (k_off (s_ka st))).
        assert (FS : key_full_string ka1 = g_pre g L ++ entry_str l q).
        { unfold key_full_string, ka1. cbn [k_off k_len k_buf]. rewrite Ko, Es'.
          replace (length (g_pre g L) + Z.to_nat (8 + len (lf_ksuf l q)))%nat with (length (g_pre g L ++ be_bytes 8 (lf_ikey l q) ++ lf_ksuf l q)) by (rewrite !app_length, be_bytes_length; unfold len; lia).
          rewrite !app_assoc. rewrite firstn_app, firstn_all, Nat.sub_diag, firstn_O. apply app_nil_r. }
        assert (S1 : steps (SInit, st) [(g_pre g L ++ entry_str l q, v)] (SNext, MkS (s_root st) n (s_next d ki) (s_stack st) ka1 (s_ub st))).
        { change [(g_pre g L ++ entry_str l q, v)] with ([] ++ [(g_pre g L ++ entry_str l q, v)]). eapply steps_trans.
          - apply STEP. rewrite (store_suffix_ok (s_ka st) (g_pre g L) (s ++ junk) (lf_ksuf l q) Kb Ko L8). cbn [bind]. rewrite Ev. cbn [lv_value bind].
            rewrite E8. unfold key_store_length. cbn [k_ikey k_buf k_off]. fold ka1. reflexivity.
          - rewrite <- FS. apply (steps_emit h d em v (MkS (s_root st) n ki (s_stack st) _ (s_ub st))). }
        eapply (GLUE (fun k v' => k = g_pre g L ++ entry_str l q /\ v' = v)); [exact S1|apply lists_one; tauto|apply (SAME true); tauto| | | | | | |]; cbn [s_n s_ki s_stack s_ka s_ub]; auto.
        -- eexists. unfold ka1. cbn [k_buf k_off]. split; [reflexivity|]. split; auto. rewrite Kb, app_length in KL. rewrite !app_length, be_bytes_length, skipn_length. lia.
        -- unfold ka1. cbn [k_len]. pose proof (len_nonneg (lf_ksuf l q)). rewrite Es', len_app in Lq. unfold len at 1 in Lq. rewrite be_bytes_length in Lq. unfold lenclass. lia.
      * apply SKIP; [apply STEP; reflexivity|]. intros Q. apply MATCH in Q. discriminate.
    + (* at most eight bytes *)
      assert (K8 : 0 <= lf_klx l q <= 8) by lia.
      assert (Eqs : entry_str l q = s).
      { apply (entry_is L l q s Hi SV Bs). split; auto. split; auto. tauto. }
      assert (IRR : ~ dlex d s s) by (destruct d; apply lex_lt_irrefl).
      destruct (bool_dec em true) as [Em|Em].
      * assert (FS : key_full_string (s_ka st) = g_pre g L ++ entry_str l q).
        { unfold key_full_string. rewrite Kb, Ko, Kl, Eqs. rewrite app_assoc.
          replace (length (g_pre g L) + Z.to_nat (len s))%nat with (length (g_pre g L ++ s)) by (rewrite app_length; unfold len; lia).
          rewrite firstn_app, firstn_all, Nat.sub_diag, firstn_O. apply app_nil_r. }
        assert (S1 : steps (SInit, st) [(g_pre g L ++ entry_str l q, v)] (SNext, MkS (s_root st) n (s_next d ki) (s_stack st) (s_ka st) (s_ub st))).
        { change [(g_pre g L ++ entry_str l q, v)] with ([] ++ [(g_pre g L ++ entry_str l q, v)]). eapply steps_trans.
          - apply STEP. rewrite Em, Ev. cbn [lv_value bind]. reflexivity.
          - rewrite <- FS. apply (steps_emit h d em v (MkS (s_root st) n ki (s_stack st) _ (s_ub st))). }
        eapply (GLUE (fun k v' => k = g_pre g L ++ entry_str l q /\ v' = v)); [exact S1|apply lists_one; tauto|apply (SAME true); tauto| | | | | | |]; cbn [s_n s_ki s_stack s_ka s_ub]; auto.
        now rewrite Kl.
      * apply SKIP; [|rewrite Eqs; tauto]. apply STEP. destruct em; [congruence|reflexivity].
  - (* a layer *)
    assert (HL' : g_lay g L' = Some L') by (destruct V3; eapply inv_layer; eauto).
    assert (PL : length (g_pre g L') = (length (g_pre g L) + 8)%nat) by (rewrite V4, app_length, be_bytes_length; lia).
    assert (S9 : 8 < len s) by (rewrite V1 in G4; unfold lenclass in G4; lia).
    assert (P8 : be_bytes 8 (lf_ikey l q) = firstn 8 s) by (rewrite G3; apply be_bytes_slice8; auto; lia).
    destruct (key_shift_repj (s_ka st) (g_pre g L) s (iv_pre _ _ HI L HL) Bs KR S9) as (KR' & KB').
    rewrite <- P8, <- V4 in KR'.
    set (st1 := MkS r n ki ((s_root st, n) :: s_stack st) (key_shift (s_ka st)) (s_ub st)).
    assert (N8 : skipn 8 s <> []).
    { intros E. assert (X : length (skipn 8 s) = 0%nat) by now rewrite E. rewrite skipn_length in X. unfold len in S9. lia. }
    assert (LT8 : (length (skipn 8 s) < m)%nat) by (rewrite skipn_length; unfold len in S9; lia).
    destruct (IH (length (skipn 8 s)) LT8 L' (skipn 8 s) st1 (le_n _) HL' (lptr_stale h g r L' V3) KR' ltac:(cbn [s_ka st1]; now rewrite KB') (bytes_ok_skipn 8 s Bs) (fun _ => N8) Hub)
      as (e1 & st2 & S2 & L2 & T1 & T2 & T3).
    cbn [s_stack st1] in T1.
    destruct (leave_layer L n l i L' (s_root st) (s_stack st) st2 A B Hj) as (st3 & S3 & U1 & U2 & U3 & U4 & U5 & U6 & U7); auto; [now rewrite Ent|now rewrite Ent|].
    assert (S1 : steps (SInit, st) [] (SInit, st1)).
    { apply STEP. rewrite V1. cbn [Z.ltb Z.compare Pos.compare Pos.compare_cont]. rewrite V2. reflexivity. }
    rewrite Ent in U5. cbn [fst] in U5.
    assert (N0 : L' <> 0%nat). { intros ->. destruct (iv_l0 _ _ HI) as [_ E]. rewrite E in PL. cbn in PL. lia. }
    apply (GLUE (FROM L' (skipn 8 s)) e1 st3); auto.
    + change e1 with ([] ++ e1). eapply steps_trans; [exact S1|]. rewrite <- (app_nil_r e1). eapply steps_trans; eauto.
    + intros k v. unfold FROM. split.
      * intros (t & -> & Nt & Hh & Q). pose proof (holds_bytes h g HI _ _ Hh) as Bk2. apply bytes_ok_app in Bk2. exists (be_bytes 8 (lf_ikey l q) ++ t).
        rewrite V4, <- app_assoc in *. split; auto. split; [intros _ E; apply app_eq_nil in E; apply Nt; tauto|]. split; auto.
        split; [rewrite slice_be8 by (auto; tauto); auto|]. split.
        { rewrite <- G4, V1, len_app. unfold len at 1. rewrite be_bytes_length. specialize (Nt N0). destruct t; [congruence|]. rewrite len_cons. pose proof (len_nonneg t). unfold lenclass. lia. }
        destruct Q as [Q|[-> Q]].
        -- left. rewrite <- (firstn_skipn 8 s), P8. now apply dlex_pre.
        -- right. split; auto. rewrite P8. apply firstn_skipn.
      * intros (t & -> & Nt & Hh & Q1 & Q2 & Q3). destruct (SLOT t v Nt Hh Q1 Q2) as [(E1 & _)|(E1 & r' & L2' & t' & E2 & E3 & E4 & -> & E5)]; [congruence|].
        assert (r' = r) by congruence. subst r'. assert (L2' = L') by (destruct V3; congruence). subst L2'.
        exists t'. split; [rewrite V4, <- app_assoc; auto|]. split; auto. split; auto.
        destruct Q3 as [Q3|[Q3 Q4]].
        -- left. rewrite <- (firstn_skipn 8 s), P8 in Q3. now apply dlex_pre in Q3.
        -- right. split; auto. rewrite <- Q3. assert (E8 := be_bytes_length 8 (lf_ikey l q)). rewrite skipn_app, E8, Nat.sub_diag, (skipn_all2 (be_bytes 8 (lf_ikey l q))) by lia. reflexivity.
    + congruence.
    + rewrite U6. unfold lenclass. lia.
Qed.

(* The whole scan. *)
Theorem scan_ok root first mem : stale h g 0 root -> bytes_ok first -> (length first <= keybuf_size)%nat ->
  length mem = keybuf_size ->
  exists L, lists d L (fun k v => holds h g k v /\ (dlex d first k \/ (k = first /\ em = true))) /\
    forall (A : Type) (vis : A -> list Z -> Z -> A * bool), exists N, forall fuel a, (N <= fuel)%nat -> tree_scan fuel h root d first em mem vis a = Ok (visit_list vis a L).
Proof.
  intros Hr Bf Hf Hm. destruct (iv_l0 _ _ HI) as [L0 P0].
  set (b := first ++ skipn (length first) mem).
  assert (EW : buf_write mem 0 first = Ok b).
  { unfold buf_write. cbn [Nat.add firstn app]. destruct (Nat.leb_spec (length first) (length mem)); [reflexivity|lia]. }
  set (ka := MkKey (slice_make_comparable first) (len first) b 0).
  destruct (init_ok (length first) 0 first (MkS root 0%nat 0 [] ka false) (le_n _) L0 Hr) as (evs & st' & S & Ls & T1 & _).
  - rewrite P0. split; [exists (skipn (length first) mem); reflexivity|]. auto.
  - cbn [s_ka ka k_buf]. unfold b. rewrite app_length, skipn_length. lia.
  - auto.
  - congruence.
  - reflexivity.
  - exists evs. split.
    { eapply lists_ext; [exact Ls|]. intros k v. unfold FROM. rewrite P0. cbn [app]. split.
      - intros (t & -> & _ & H1 & H2). split; auto.
      - intros [H1 H2]. exists k. split; auto. }
    assert (S2 : steps (SInit, MkS root 0%nat 0 [] ka false) evs (SDone, st')).
    { rewrite <- (app_nil_r evs). eapply steps_trans; [exact S|]. apply steps_up. cbn [s_step]. rewrite T1. reflexivity. }
    intros A vis. destruct (run_steps h d em vis _ _ _ S2 eq_refl) as (N & HN). exists N. intros fuel a Hfu. unfold tree_scan, ensure.
    destruct (Nat.leb_spec (length first) keybuf_size); [|lia]. cbn [bind]. rewrite EW. cbn [bind]. fold ka. rewrite HN by auto.
    destruct (visit_list vis a evs). reflexivity.
Qed.
End Init.

(* Layers sit at multiples of eight bytes. *)
Lemma pre_mult8 h g : Inv h g -> forall m L, (length (g_pre g L) <= m)%nat -> g_lay g L = Some L -> exists c, length (g_pre g L) = (8 * c)%nat.
Proof.
  intros HI. induction m as [m IH] using lt_wf_ind. intros L Hm HL. destruct (Nat.eq_dec L 0) as [->|N].
  - exists 0%nat. rewrite (proj2 (iv_l0 _ _ HI)). reflexivity.
  - destruct (iv_owner _ _ HI L HL N) as (L0 & n0 & l0 & s0 & r0 & O). destruct (owns_pre h g HI _ _ _ _ _ _ O) as [P _].
    destruct O as (A1 & _). assert (HL0 : g_lay g L0 = Some L0) by (eapply inv_layer; eauto).
    assert (E : length (g_pre g L) = (length (g_pre g L0) + 8)%nat) by (rewrite P, app_length, be_bytes_length; lia).
    destruct (IH (length (g_pre g L0)) ltac:(lia) L0 (le_n _) HL0) as (c & Ec). exists (S c). lia.
Qed.
