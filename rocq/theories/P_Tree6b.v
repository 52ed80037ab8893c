(* Insertion, part 2: how leaf::split_into distributes the entries of a full leaf. *)
From Verif Require Import Lib Spec_String M_Key P_Key M_Permuter P_Permuter P_Permuter2 M_Search P_Search M_Tree P_Tree1 P_Tree2 P_Tree3 P_Tree4 P_Tree5 P_Tree6.

(* The outward search succeeds when the positions around the start share a slice and some position differs. *)
Lemma split_adjust_ok key mk width : forall fuel ml mr,
  (forall j, (ml <= j < mr)%nat -> (j <= width)%nat -> key j = mk) -> (ml < mr)%nat -> (ml <= width)%nat ->
  (exists j, (j <= width)%nat /\ key j <> mk /\ (ml <= fuel + j)%nat /\ (j < mr + fuel)%nat) ->
  exists mid, split_adjust fuel key mk width ml mr = Ok mid /\ (0 < mid <= width)%nat /\
    ((key mid <> mk /\ key (mid - 1)%nat = mk) \/ (key mid = mk /\ key (mid - 1)%nat <> mk)).
Proof.
  induction fuel as [|f IH]; intros ml mr H1 H2 H3 (j & J1 & J2 & J3 & J4).
  - exfalso. apply J2. apply H1; lia.
  - cbn [split_adjust]. destruct (Nat.leb_spec mr width) as [R|R]; cbn [andb].
    + destruct (Z.eqb_spec mk (key mr)) as [E|E]; cbn [negb].
      2:{ exists mr. split; [auto|]. split; [lia|]. left. split; [congruence|]. apply H1; lia. }
      destruct (Nat.leb_spec 1 ml) as [R2|R2]; cbn [andb].
      * destruct (Z.eqb_spec mk (key (ml - 1)%nat)) as [E2|E2]; cbn [negb].
        2:{ exists ml. split; [auto|]. split; [lia|]. right. split; [apply H1; lia|congruence]. }
        apply IH; try lia.
        -- intros a A1 A2. destruct (Nat.eq_dec a mr) as [->|]; [auto|]. destruct (Nat.eq_dec a (ml - 1)) as [->|]; [auto|]. apply H1; lia.
        -- exists j. repeat split; auto; lia.
      * apply IH; try lia.
        -- intros a A1 A2. destruct (Nat.eq_dec a mr) as [->|]; [auto|]. apply H1; lia.
        -- exists j. repeat split; auto; lia.
    + destruct (Nat.leb_spec 1 ml) as [R2|R2]; cbn [andb].
      * destruct (Z.eqb_spec mk (key (ml - 1)%nat)) as [E2|E2]; cbn [negb].
        2:{ exists ml. split; [auto|]. split; [lia|]. right. split; [apply H1; lia|congruence]. }
        apply IH; try lia.
        -- intros a A1 A2. destruct (Nat.eq_dec a (ml - 1)) as [->|]; [auto|]. apply H1; lia.
        -- exists j. repeat split; auto; lia.
      * exfalso. apply J2. apply H1; lia.
Qed.

(* A strictly increasing run of more than ten entries does not share one slice. *)
Lemma run_bound (ve : nat -> Z * Z) w : (forall i j, (i < j <= w)%nat -> entry_lt (ve i) (ve j)) ->
  (forall j, (j <= w)%nat -> 0 <= snd (ve j)) ->
  forall d i, (i + d <= w)%nat -> fst (ve i) = fst (ve (i + d)%nat) -> lenclass (snd (ve i)) + Z.of_nat d <= lenclass (snd (ve (i + d)%nat)).
Proof.
  intros HS HP. assert (M : forall i j, (i <= j <= w)%nat -> fst (ve i) <= fst (ve j)).
  { intros i j H. destruct (Nat.eq_dec i j) as [->|]; [lia|]. specialize (HS i j ltac:(lia)). unfold entry_lt in HS. lia. }
  induction d as [|d IH]; intros i H E.
  - rewrite Nat.add_0_r. lia.
  - assert (A := M i (i + d)%nat ltac:(lia)). assert (B := M (i + d)%nat (i + S d)%nat ltac:(lia)).
    specialize (IH i ltac:(lia) ltac:(lia)). specialize (HS (i + d)%nat (i + S d)%nat ltac:(lia)). unfold entry_lt in HS. lia.
Qed.
Lemma run_short ve w : (forall i j, (i < j <= w)%nat -> entry_lt (ve i) (ve j)) ->
  (forall j, (j <= w)%nat -> 0 <= snd (ve j)) -> (10 <= w)%nat -> fst (ve 0%nat) <> fst (ve w).
Proof.
  intros HS HP Hw E. pose proof (run_bound ve w HS HP w 0 ltac:(lia)) as R. cbn [Nat.add] in R. specialize (R E).
  pose proof (HP 0%nat ltac:(lia)). unfold lenclass in R. lia.
Qed.

Section Split.
Context (l : leafn) (ka : mkey) (P s : list Z) (ki : nat).
Hypothesis HK : key_rep ka P s.
Hypothesis HPO : perm_ok W (lf_perm l).
Let perm := lf_perm l.
Let w := perm_size perm.
Hypothesis Hw : (W - 1 <= w)%nat.
Hypothesis Hki : (ki <= w)%nat.
Let e j := (lf_ikey l (perm_get perm j), lf_klx l (perm_get perm j)).
Let ke := (slice_make_comparable s, len s).
Hypothesis HS : leaf_sorted perm (lf_ikey l) (lf_klx l).
Hypothesis Hbefore : forall j, (j < ki)%nat -> entry_lt (e j) ke.
Hypothesis Hafter : forall j, (ki <= j < w)%nat -> entry_lt ke (e j).
Hypothesis Hpos : forall j, (j < w)%nat -> 0 <= snd (e j).

Definition ve (j : nat) : Z * Z := if (j <? ki)%nat then e j else if (j =? ki)%nat then ke else e (j - 1)%nat.
Lemma w_le : (w <= W)%nat. Proof. apply perm_size_le. exact HPO. Qed.
Lemma ve_sorted i j : (i < j <= w)%nat -> entry_lt (ve i) (ve j).
Proof.
  intros H. unfold ve.
  destruct (Nat.ltb_spec i ki), (Nat.ltb_spec j ki), (Nat.eqb_spec i ki), (Nat.eqb_spec j ki); try lia.
  - apply HS. fold w. lia.
  - apply Hbefore. auto.
  - apply HS. fold w. lia.
  - apply Hafter. lia.
  - apply HS. fold w. lia.
Qed.
Lemma ve_pos j : (j <= w)%nat -> 0 <= snd (ve j).
Proof.
  intros H. unfold ve. destruct (Nat.ltb_spec j ki), (Nat.eqb_spec j ki); try (apply Hpos; lia); cbn [ke snd]; apply len_nonneg.
Qed.
Lemma ve_mono i j : (i <= j <= w)%nat -> fst (ve i) <= fst (ve j).
Proof. intros H. destruct (Nat.eq_dec i j) as [->|]; [lia|]. pose proof (ve_sorted i j ltac:(lia)) as A. unfold entry_lt in A. lia. Qed.

Lemma key_ve j : ikey_after_insert l perm j ki (k_ikey ka) = fst (ve j).
Proof.
  destruct HK as (_ & _ & _ & KI). unfold ikey_after_insert, ve. rewrite KI.
  destruct (j <? ki)%nat; [reflexivity|]. destruct (j =? ki)%nat; reflexivity.
Qed.

Let key j := ikey_after_insert l perm j ki (k_ikey ka).
Lemma split_point mid0 : (0 < mid0 <= w)%nat ->
  exists mid, (if key mid0 =? key (mid0 - 1)%nat then split_adjust (S w) key (key mid0) w (mid0 - 1) (mid0 + 1) else Ok mid0) = Ok mid /\
    (0 < mid <= w)%nat /\ fst (ve (mid - 1)%nat) < fst (ve mid).
Proof.
  intros H. destruct (Z.eqb_spec (key mid0) (key (mid0 - 1)%nat)) as [E|E].
  - pose proof (run_short ve w ve_sorted ve_pos) as RS. rewrite W_eq in Hw. specialize (RS ltac:(lia)).
    assert (D : exists j, (j <= w)%nat /\ key j <> key mid0).
    { unfold key. destruct (Z.eq_dec (fst (ve 0%nat)) (fst (ve mid0))) as [E0|E0].
      - exists w. rewrite !key_ve. split; [lia|congruence].
      - exists 0%nat. rewrite !key_ve. split; [lia|congruence]. }
    destruct D as (j & J1 & J2).
    destruct (split_adjust_ok key (key mid0) w (S w) (mid0 - 1) (mid0 + 1)) as (mid & A & B & C).
    + intros a A1 A2. destruct (Nat.eq_dec a mid0) as [->|]; auto. replace a with (mid0 - 1)%nat by lia. auto.
    + lia.
    + lia.
    + exists j. repeat split; auto; lia.
    + exists mid. split; auto. split; auto. pose proof (ve_mono (mid - 1) mid ltac:(lia)) as M. unfold key in C. rewrite !key_ve in C. lia.
  - exists mid0. split; auto. split; auto. pose proof (ve_mono (mid0 - 1) mid0 ltac:(lia)). unfold key in E. rewrite !key_ve in E. lia.
Qed.

(* What the moving loop leaves in the slots of the new leaf. *)
Definition key_slot (r : leafn) (t : nat) : Prop :=
  lf_ikey r t = slice_make_comparable s /\ lf_klx r t = key_klx s /\ (8 < len s -> lf_ksuf r t = skipn 8 s).
Definition head_eq (a b : leafn) : Prop := lf_root b = lf_root a /\ lf_deleted b = lf_deleted a /\ lf_mod b = lf_mod a /\ lf_perm b = lf_perm a /\
  lf_next b = lf_next a /\ lf_prev b = lf_prev a /\ lf_parent b = lf_parent a.
Lemma head_trans a b c : head_eq a b -> head_eq b c -> head_eq a c.
Proof. intros (A1 & A2 & A3 & A4 & A5 & A6 & A7) (B1 & B2 & B3 & B4 & B5 & B6 & B7). repeat split; congruence. Qed.

Definition vpos (y : nat) : nat := if (y <? ki)%nat then y else (y - 1)%nat.
Lemma assign_from_spec p x xp r : let r' := leaf_assign_from p x xp r in
  slot_eq x xp r' p /\ (forall q, q <> p -> slot_eq r q r' q /\ lf_ksuf r' q = lf_ksuf r q) /\ head_eq r r'.
Proof.
  cbn. unfold leaf_assign_from, slot_eq, head_eq. cbn [lf_set_slot lf_ikey lf_klx lf_lv lf_ksuf lf_root lf_deleted lf_mod lf_perm lf_next lf_prev lf_parent].
  unfold upd. rewrite Nat.eqb_refl. repeat split; auto.
  - intros E. rewrite E. reflexivity.
  - destruct (Nat.eqb_spec q p); congruence.
  - destruct (Nat.eqb_spec q p); congruence.
  - destruct (Nat.eqb_spec q p); congruence.
  - intros _. destruct (Nat.eqb_spec q p); congruence.
  - destruct (Nat.eqb_spec q p); congruence.
Qed.

Lemma shr_nib pm a : Z.shiftr (pshr pm (a * 4)) 4 = pshr pm (S a * 4).
Proof. unfold pshr. rewrite Z.shiftr_shiftr by lia. f_equal. lia. Qed.
Lemma nib_get pm a : Z.to_nat (Z.land (pshr pm (S a * 4)) 15) = perm_get pm a.
Proof. unfold perm_get. do 3 f_equal. lia. Qed.

Definition nx (x : nat) : nat := if (ki <? x)%nat then (x - 1)%nat else x.
Lemma move_items_ok mid : forall k x r, (mid <= x)%nat ->
  let r' := move_items k x mid ki ka (pshr perm (S (nx x) * 4)) l r in
  head_eq r r' /\
  (forall q, ~ (x - mid <= q < x - mid + k)%nat -> slot_eq r q r' q /\ lf_ksuf r' q = lf_ksuf r q) /\
  (forall y, (x <= y < x + k)%nat -> if (y =? ki)%nat then key_slot r' (y - mid) else slot_eq l (perm_get perm (vpos y)) r' (y - mid)).
Proof.
  induction k as [|k IH]; intros x r Hx.
  - cbn [move_items]. split; [repeat split|]. split; [intros; split; auto using slot_eq_refl|intros; lia].
  - cbn [move_items]. destruct (Nat.eqb_spec x ki) as [E|E].
    + assert (EN : nx x = nx (S x)) by (unfold nx; destruct (Nat.ltb_spec ki x), (Nat.ltb_spec ki (S x)); lia). rewrite EN.
      set (r1 := leaf_assign (x - mid) ka r). destruct (assign_spec (x - mid) ka P s r HK) as (A1 & A2 & _ & A4 & A5 & AH). fold r1 in A1, A2, A4, A5, AH.
      destruct (IH (S x) r1 ltac:(lia)) as (B1 & B2 & B3). split; [|split].
      * eapply head_trans; [|exact B1]. destruct AH as (C1 & C2 & C3 & C4 & C5 & C6 & C7). repeat split; auto.
      * intros q Hq. destruct (A5 q ltac:(lia)) as [C1 C2]. destruct (B2 q ltac:(lia)) as [D1 D2]. split; [eapply slot_eq_trans; eauto|congruence].
      * intros y Hy. destruct (Nat.eq_dec y x) as [->|N]; [|apply B3; lia]. destruct (Nat.eqb_spec x ki); [|contradiction].
        destruct (B2 (x - mid)%nat ltac:(lia)) as [(D1 & D2 & _) D3]. unfold key_slot. rewrite D1, D2, D3. auto.
    + assert (EN : nx (S x) = S (nx x)) by (unfold nx; destruct (Nat.ltb_spec ki x), (Nat.ltb_spec ki (S x)); lia).
      rewrite shr_nib, nib_get, <- EN.
      assert (EV : nx x = vpos x) by (unfold nx, vpos; destruct (Nat.ltb_spec ki x), (Nat.ltb_spec x ki); lia). rewrite EV.
      set (r1 := leaf_assign_from (x - mid) l (perm_get perm (vpos x)) r).
      destruct (assign_from_spec (x - mid) l (perm_get perm (vpos x)) r) as (A1 & A2 & A3). fold r1 in A1, A2, A3.
      destruct (IH (S x) r1 ltac:(lia)) as (B1 & B2 & B3). split; [|split].
      * exact (head_trans _ _ _ A3 B1).
      * intros q Hq. destruct (A2 q ltac:(lia)) as [C1 C2]. destruct (B2 q ltac:(lia)) as [D1 D2]. split; [eapply slot_eq_trans; eauto|congruence].
      * intros y Hy. destruct (Nat.eq_dec y x) as [->|N]; [|apply B3; lia]. destruct (Nat.eqb_spec x ki); [contradiction|].
        destruct (B2 (x - mid)%nat ltac:(lia)) as [D1 _]. eapply slot_eq_trans; eauto.
Qed.

Record split_spec (nr : leafn) (r : leafn) (xk st : Z) (base : nat) : Prop := {
  ss_perm : perm_ok W (lf_perm r);
  ss_size : perm_size (lf_perm r) = (w - base)%nat;
  ss_base : (base <= w)%nat;
  ss_slot : forall j, (j < w - base)%nat -> slot_eq l (perm_get perm (base + j)) r (perm_get (lf_perm r) j);
  ss_low : forall j, (j < base)%nat -> lf_ikey l (perm_get perm j) < xk;
  ss_high : forall j, (base <= j < w)%nat -> xk <= lf_ikey l (perm_get perm j);
  ss_xk : lf_ikey r 0%nat = xk;
  ss_st : if st =? 0 then (ki <= base)%nat /\ (base < w)%nat /\ slice_make_comparable s < xk
          else (base <= ki)%nat /\ xk <= slice_make_comparable s /\ (w - base < W)%nat /\
               perm_back W (lf_perm r) = (ki - base)%nat /\ key_slot r (ki - base);
  ss_head : lf_root r = lf_root nr /\ lf_deleted r = lf_deleted nr /\ lf_mod r = lf_mod nr /\ lf_next r = lf_next nr /\ lf_prev r = lf_prev nr /\ lf_parent r = lf_parent nr;
  ss_bound : (exists j, (j < base)%nat) \/ slice_make_comparable s < xk;
  ss_in : (exists j, (j < w)%nat /\ xk = lf_ikey l (perm_get perm j)) \/ xk = slice_make_comparable s
}.

Lemma ve_low j : (j < w)%nat -> exists y, (y <= w)%nat /\ y <> ki /\ vpos y = j /\ ve y = e j /\ (y = j /\ (j < ki)%nat \/ y = S j /\ (ki <= j)%nat).
Proof.
  intros H. destruct (Nat.lt_ge_cases j ki) as [C|C].
  - exists j. unfold vpos, ve. destruct (Nat.ltb_spec j ki); [|lia]. repeat split; auto; lia.
  - exists (S j). unfold vpos, ve. destruct (Nat.ltb_spec (S j) ki); [lia|]. destruct (Nat.eqb_spec (S j) ki); [lia|].
    replace (S j - 1)%nat with j by lia. repeat split; auto; lia.
Qed.
Lemma ve_ki : ve ki = ke.
Proof. unfold ve. rewrite Nat.ltb_irrefl, Nat.eqb_refl. reflexivity. Qed.

Lemma leaf_split_ok nr : exists r xk st base, leaf_split_into l nr ki ka = Ok (r, xk, st) /\ split_spec nr r xk st base.
Proof.
  unfold leaf_split_into. fold perm. fold w. pose proof w_le as HWle. pose proof HW15 as HW0.
  destruct (Nat.leb_spec (W - 1) w) as [_|]; [|lia]. cbn [ensure bind].
  set (mid0 := if (ki =? 0)%nat && _ then 1%nat else _).
  assert (M0 : (0 < mid0 <= w)%nat).
  { unfold mid0. rewrite W_eq in *. destruct ((ki =? 0)%nat && _); [lia|]. destruct ((ki =? w)%nat && _); [lia|]. cbn. lia. }
  destruct (split_point mid0 M0) as (mid & EM & HM & HV). unfold key in EM. rewrite EM. cbn [bind].
  destruct (Nat.ltb_spec 0 mid); [|lia]. destruct (Nat.leb_spec mid w); [|lia]. cbn [andb ensure bind].
  set (base := if (ki <? mid)%nat then (mid - 1)%nat else mid).
  assert (EB : ((mid - (if (ki <? mid)%nat then 1 else 0) + 1) * 4 = S (nx mid) * 4)%nat).
  { unfold nx. destruct (ki <? mid)%nat; lia. }
  rewrite EB. destruct (move_items_ok mid (w + 1 - mid) mid nr ltac:(lia)) as (A1 & _ & A3).
  set (r1 := move_items _ _ _ _ _ _ _ _) in *.
  destruct (make_sorted_spec W (w + 1 - mid) HW15 ltac:(lia)) as (S1 & S2 & S3 & S4).
  set (ps := perm_make_sorted W (w + 1 - mid)) in *.
  set (pr := if (mid <=? ki)%nat then perm_remove_to_back W ps (ki - mid) else ps).
  assert (LOW : forall j, (j < base)%nat -> fst (e j) < fst (ve mid)).
  { intros j Hj. assert (j < w)%nat by (unfold base in Hj; destruct (ki <? mid)%nat; lia).
    destruct (ve_low j H1) as (y & Y1 & Y2 & Y3 & Y4 & Y5). rewrite <- Y4.
    assert (y <= mid - 1)%nat by (unfold base in Hj; destruct (Nat.ltb_spec ki mid); lia).
    pose proof (ve_mono y (mid - 1) ltac:(lia)). lia. }
  assert (HIGH : forall j, (base <= j < w)%nat -> fst (ve mid) <= fst (e j)).
  { intros j Hj. destruct (ve_low j ltac:(lia)) as (y & Y1 & Y2 & Y3 & Y4 & Y5). rewrite <- Y4. apply ve_mono.
    unfold base in Hj; destruct (Nat.ltb_spec ki mid); lia. }
  assert (IK0 : lf_ikey r1 0%nat = fst (ve mid)).
  { specialize (A3 mid ltac:(lia)). rewrite Nat.sub_diag in A3. destruct (Nat.eqb_spec mid ki) as [->|N].
    - rewrite ve_ki. apply A3.
    - destruct A3 as (-> & _). unfold ve, vpos. destruct (Nat.ltb_spec mid ki); [reflexivity|]. destruct (Nat.eqb_spec mid ki); [contradiction|]. reflexivity. }
  exists (lf_set_perm pr r1), (fst (ve mid)), (if (ki <? mid)%nat then 0 else if (mid =? w)%nat then 2 else 1), base.
  split; [cbn [lf_set_perm lf_ikey]; rewrite IK0; reflexivity|].
  assert (SLOT : forall j, (j < w - base)%nat -> slot_eq l (perm_get perm (base + j)) r1 (perm_get pr j)).
  { intros j Hj. unfold base, pr in *. destruct (Nat.ltb_spec ki mid) as [C|C].
    - destruct (Nat.leb_spec mid ki); [lia|]. rewrite S3 by lia. specialize (A3 (mid + j)%nat ltac:(lia)).
      destruct (Nat.eqb_spec (mid + j) ki); [lia|]. unfold vpos in A3. destruct (Nat.ltb_spec (mid + j) ki); [lia|].
      replace (mid + j - mid)%nat with j in A3 by lia. replace (mid - 1 + j)%nat with (mid + j - 1)%nat by lia. auto.
    - destruct (Nat.leb_spec mid ki); [|lia].
      destruct (doc_remove_to_back W ps (ki - mid) HW15 S1 ltac:(lia)) as (D1 & D2 & D3 & D4 & D5).
      destruct (Nat.lt_ge_cases j (ki - mid)) as [C2|C2].
      + rewrite D3, S3 by lia. specialize (A3 (mid + j)%nat ltac:(lia)). destruct (Nat.eqb_spec (mid + j) ki); [lia|].
        unfold vpos in A3. destruct (Nat.ltb_spec (mid + j) ki); [|lia]. replace (mid + j - mid)%nat with j in A3 by lia. auto.
      + rewrite D4, S3 by lia. specialize (A3 (mid + S j)%nat ltac:(lia)). destruct (Nat.eqb_spec (mid + S j) ki); [lia|].
        unfold vpos in A3. destruct (Nat.ltb_spec (mid + S j) ki); [lia|]. replace (mid + S j - mid)%nat with (S j) in A3 by lia.
        replace (mid + S j - 1)%nat with (mid + j)%nat in A3 by lia. auto. }
  assert (PERM : perm_ok W pr /\ perm_size pr = (w - base)%nat /\ (mid <= ki -> perm_back W pr = (ki - mid))%nat).
  { unfold pr, base. destruct (Nat.ltb_spec ki mid) as [C|C]; destruct (Nat.leb_spec mid ki); try lia.
    - split; [auto|]. split; [lia|lia].
    - destruct (doc_remove_to_back W ps (ki - mid) HW15 S1 ltac:(lia)) as (D1 & D2 & D3 & D4 & D5). split; auto. split; [lia|].
      intros _. rewrite D5, S3 by lia. auto. }
  destruct PERM as (P1 & P2 & P3).
  constructor; auto; try exact SLOT; try exact LOW; try exact HIGH.
  - unfold base. destruct (ki <? mid)%nat; lia.
  - unfold base. destruct (Nat.ltb_spec ki mid) as [C|C].
    + cbn [Z.eqb]. split; [lia|]. split; [lia|]. pose proof (ve_mono ki (mid - 1) ltac:(lia)) as M. rewrite ve_ki in M. cbn [ke fst] in M. lia.
    + assert (Z : ((if (mid =? w)%nat then 2 else 1) =? 0) = false) by (destruct (mid =? w)%nat; reflexivity). rewrite Z.
      split; [lia|]. split. { pose proof (ve_mono mid ki ltac:(lia)) as M. rewrite ve_ki in M. exact M. }
      split; [lia|]. split; [apply P3; lia|]. specialize (A3 ki ltac:(lia)). rewrite Nat.eqb_refl in A3. exact A3.
  - destruct A1 as (B1 & B2 & B3 & B4 & B5 & B6 & B7). cbn [lf_set_perm lf_root lf_deleted lf_mod lf_next lf_prev lf_parent]. auto 10.
  - destruct (Nat.ltb_spec ki mid) as [C|C].
    + right. pose proof (ve_mono ki (mid - 1) ltac:(lia)) as M. rewrite ve_ki in M. cbn [ke fst] in M. lia.
    + left. exists 0%nat. unfold base. destruct (Nat.ltb_spec ki mid); lia.
  - destruct (Nat.eq_dec mid ki) as [->|N]; [right; rewrite ve_ki; reflexivity|left]. exists (vpos mid).
    unfold vpos, ve. destruct (Nat.ltb_spec mid ki); [split; [lia|reflexivity]|]. destruct (Nat.eqb_spec mid ki); [contradiction|]. split; [lia|reflexivity].
Qed.
End Split.
