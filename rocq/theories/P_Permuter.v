(* Proofs about kpermuter. *)
From Verif Require Import Lib M_Permuter.
From Coq Require Import Permutation.

Section P.
Context (W : nat) (HW : (1 <= W <= 15)%nat).

Notation B := (pbits W).

Lemma pbits_ge : 4 * Z.of_nat W + 4 <= B.
Proof. unfold pbits. destruct (Nat.leb_spec W 7); lia. Qed.
Lemma pbits_cases : B = 32 \/ B = 64.
Proof. unfold pbits. destruct (W <=? 7)%nat; auto. Qed.
Lemma pbits_pos : 0 < B.
Proof. destruct pbits_cases as [-> | ->]; lia. Qed.

Definition pword (x : Z) : Prop := 0 <= x < 2 ^ B.

Lemma pwrap_word a : pword (pwrap W a).
Proof. unfold pword, pwrap. apply Z.mod_pos_bound. apply Z.pow_pos_nonneg; [lia|pose proof pbits_pos; lia]. Qed.

Lemma tb_pwrap a n : 0 <= n -> Z.testbit (pwrap W a) n = (n <? B) && Z.testbit a n.
Proof.
  intros. unfold pwrap. destruct (Z.ltb_spec n B) as [H1|H1]; cbn [andb].
  - apply Z.mod_pow2_bits_low. lia.
  - apply Z.mod_pow2_bits_high. pose proof pbits_pos. lia.
Qed.

Lemma tb_pshl a k n : 0 <= n -> Z.testbit (pshl W a k) n = (n <? B) && Z.testbit a (n - Z.of_nat k).
Proof. intros. unfold pshl. rewrite tb_pwrap by auto. now rewrite Z.shiftl_spec. Qed.

Lemma tb_pshr a k n : 0 <= n -> Z.testbit (pshr a k) n = Z.testbit a (n + Z.of_nat k).
Proof. intros. unfold pshr. now rewrite Z.shiftr_spec. Qed.

Lemma tb_pnot a n : 0 <= n -> Z.testbit (pnot W a) n = (n <? B) && negb (Z.testbit a n).
Proof. intros. unfold pnot. rewrite tb_pwrap by auto. now rewrite Z.lnot_spec. Qed.

Lemma tb_ones m n : 0 <= n -> 0 <= m -> Z.testbit (2 ^ m - 1) n = (n <? m).
Proof.
  intros. replace (2 ^ m - 1) with (Z.ones m) by (rewrite Z.ones_equiv; lia).
  rewrite Z.testbit_ones_nonneg by auto. reflexivity.
Qed.

Lemma tb_neg1 n : 0 <= n -> Z.testbit (-1) n = true.
Proof. intros. apply Z.bits_m1. auto. Qed.

Lemma tb_mask m n : 0 <= n -> 0 <= m -> Z.testbit (psub1 W (pwrap W (2 ^ m))) n = (n <? B) && (n <? m).
Proof.
  intros Hn Hm. unfold psub1. rewrite tb_pwrap by auto.
  destruct (Z.ltb_spec n B) as [H1|H1]; cbn [andb]; auto.
  unfold pwrap. destruct (Z.ltb_spec m B) as [H2|H2].
  - rewrite Z.mod_small. now apply tb_ones.
    split; [apply Z.pow_nonneg; lia|apply Z.pow_lt_mono_r; lia].
  - replace (2 ^ m mod 2 ^ B) with 0.
    + rewrite tb_neg1 by auto. symmetry. apply Z.ltb_lt. lia.
    + symmetry. apply Z.mod_divide. { apply Z.pow_nonzero; pose proof pbits_pos; lia. }
      exists (2 ^ (m - B)). rewrite <- Z.pow_add_r by (pose proof pbits_pos; lia). f_equal. lia.
Qed.

Lemma tb_mask16 i n : 0 <= n ->
  Z.testbit (psub1 W (pshl W 16 (i * 4))) n = (n <? B) && (n <? 4 * Z.of_nat i + 4).
Proof.
  intros. unfold pshl. rewrite Z.shiftl_mul_pow2 by lia.
  change 16 with (2 ^ 4). rewrite <- Z.pow_add_r by lia.
  rewrite tb_mask by lia. f_equal. f_equal. lia.
Qed.

Lemma tb_mask256 i n : 0 <= n ->
  Z.testbit (psub1 W (pshl W 256 (i * 4))) n = (n <? B) && (n <? 4 * Z.of_nat i + 8).
Proof.
  intros. unfold pshl. rewrite Z.shiftl_mul_pow2 by lia.
  change 256 with (2 ^ 8). rewrite <- Z.pow_add_r by lia.
  rewrite tb_mask by lia. f_equal. f_equal. lia.
Qed.

Lemma tb_15 n : 0 <= n -> Z.testbit 15 n = (n <? 4).
Proof. intros. change 15 with (2 ^ 4 - 1). apply tb_ones; lia. Qed.

Lemma tb_240 n : 0 <= n -> Z.testbit 240 n = (4 <=? n) && (n <? 8).
Proof.
  intros. change 240 with (Z.shiftl (2 ^ 4 - 1) 4). rewrite Z.shiftl_spec by auto.
  destruct (Z.leb_spec 4 n).
  - rewrite tb_ones by lia. cbn [andb]. lia.
  - rewrite Z.testbit_neg_r by lia. reflexivity.
Qed.

(* words have no bits above B *)
Lemma tb_high x n : pword x -> B <= n -> Z.testbit x n = false.
Proof.
  intros Hx Hn. unfold pword in Hx. rewrite <- (Z.mod_small x (2 ^ B)) by lia.
  apply Z.mod_pow2_bits_high. pose proof pbits_pos. lia.
Qed.

Lemma tb_small x k n : 0 <= x < 2 ^ k -> 0 <= k <= n -> Z.testbit x n = false.
Proof. intros. rewrite <- (Z.mod_small x (2 ^ k)) by lia. apply Z.mod_pow2_bits_high. lia. Qed.

(* nibble access *)
Lemma nib_land x k : Z.land (Z.shiftr x (Z.of_nat k)) 15 = Z.shiftr x (Z.of_nat k) mod 16.
Proof. change 15 with (Z.ones 4). rewrite Z.land_ones by lia. reflexivity. Qed.

Lemma perm_get_bound x i : (perm_get x i < 16)%nat.
Proof. unfold perm_get, pshr. rewrite nib_land. lia. Qed.

Lemma tb_perm_get x i b : 0 <= b ->
  Z.testbit (Z.of_nat (perm_get x i)) b = (b <? 4) && Z.testbit x (4 * Z.of_nat i + 4 + b).
Proof.
  intros. unfold perm_get. rewrite Z2Nat.id.
  - rewrite Z.land_spec, tb_15, tb_pshr by auto. rewrite andb_comm. f_equal. f_equal. lia.
  - unfold pshr. rewrite nib_land. lia.
Qed.

Lemma tb_perm_size x b : 0 <= b ->
  Z.testbit (Z.of_nat (perm_size x)) b = (b <? 4) && Z.testbit x b.
Proof.
  intros. unfold perm_size. rewrite Z2Nat.id.
  - rewrite Z.land_spec, tb_15 by auto. apply andb_comm.
  - apply Z.land_nonneg. lia.
Qed.

Lemma nat_bits_ext a b : (forall n, 0 <= n -> Z.testbit (Z.of_nat a) n = Z.testbit (Z.of_nat b) n) -> a = b.
Proof. intros H. apply Nat2Z.inj. apply Z.bits_inj'. auto. Qed.

Lemma perm_get_ext x y i j :
  (forall b, 0 <= b < 4 -> Z.testbit x (4 * Z.of_nat i + 4 + b) = Z.testbit y (4 * Z.of_nat j + 4 + b)) ->
  perm_get x i = perm_get y j.
Proof.
  intros H. apply nat_bits_ext. intros n Hn. rewrite !tb_perm_get by auto.
  destruct (Z.ltb_spec n 4); cbn [andb]; auto.
Qed.

Lemma perm_get_val x i v : (v < 16)%nat ->
  (forall b, 0 <= b < 4 -> Z.testbit x (4 * Z.of_nat i + 4 + b) = Z.testbit (Z.of_nat v) b) ->
  perm_get x i = v.
Proof.
  intros Hv H. apply nat_bits_ext. intros n Hn. rewrite !tb_perm_get by auto.
  destruct (Z.ltb_spec n 4); cbn [andb]; auto.
  symmetry. apply tb_small with (k := 4); lia.
Qed.

Lemma perm_size_ext x y :
  (forall b, 0 <= b < 4 -> Z.testbit x b = Z.testbit y b) -> perm_size x = perm_size y.
Proof.
  intros H. apply nat_bits_ext. intros n Hn. rewrite !tb_perm_size by auto.
  destruct (Z.ltb_spec n 4); cbn [andb]; auto.
Qed.

Lemma size_val x : perm_size x = Z.to_nat (x mod 16).
Proof. unfold perm_size. change 15 with (Z.ones 4). rewrite Z.land_ones by lia. reflexivity. Qed.

Lemma div16_bits x y n : x / 16 = y / 16 -> 4 <= n -> Z.testbit x n = Z.testbit y n.
Proof.
  intros H Hn. replace n with ((n - 4) + 4) by lia.
  rewrite <- !Z.shiftr_spec by lia. rewrite !Z.shiftr_div_pow2 by lia.
  change (2 ^ 4) with 16. now rewrite H.
Qed.

Lemma pword_plus1 x : pword x -> (perm_size x < 15)%nat -> pwrap W (x + 1) = x + 1.
Proof.
  intros Hx Hs. unfold pwrap. apply Z.mod_small. rewrite size_val in Hs. unfold pword in Hx.
  assert (Hm : x mod 16 < 15) by lia. clear Hs.
  assert (E : 2 ^ B = 16 * 2 ^ (B - 4)).
  { change 16 with (2 ^ 4). rewrite <- Z.pow_add_r by (destruct pbits_cases; lia). f_equal. lia. }
  rewrite E in *. lia.
Qed.
Lemma pword_minus1 x : pword x -> (0 < perm_size x)%nat -> psub1 W x = x - 1.
Proof.
  intros Hx Hs. unfold psub1, pwrap. apply Z.mod_small. rewrite size_val in Hs. unfold pword in Hx. lia.
Qed.

Lemma tb_plus1 x n : pword x -> (perm_size x < 15)%nat -> 4 <= n -> Z.testbit (pwrap W (x + 1)) n = Z.testbit x n.
Proof.
  intros Hx Hs Hn. rewrite pword_plus1 by auto. apply div16_bits; auto. rewrite size_val in Hs. lia.
Qed.
Lemma tb_minus1 x n : pword x -> (0 < perm_size x)%nat -> 4 <= n -> Z.testbit (psub1 W x) n = Z.testbit x n.
Proof.
  intros Hx Hs Hn. rewrite pword_minus1 by auto. apply div16_bits; auto. rewrite size_val in Hs. lia.
Qed.
Lemma size_plus1 x : pword x -> (perm_size x < 15)%nat -> perm_size (pwrap W (x + 1)) = S (perm_size x).
Proof. intros Hx Hs. rewrite pword_plus1 by auto. rewrite !size_val in *. lia. Qed.
Lemma size_minus1 x : pword x -> (0 < perm_size x)%nat -> perm_size (psub1 W x) = (perm_size x - 1)%nat.
Proof. intros Hx Hs. rewrite pword_minus1 by auto. rewrite !size_val in *. lia. Qed.

(* Evaluate the bits of an expression, then decide the comparisons. *)
Ltac tb :=
  repeat (rewrite ?Z.land_spec, ?Z.lor_spec, ?Z.lxor_spec,
    ?tb_mask16, ?tb_mask256, ?tb_pnot, ?tb_pshl, ?tb_pshr, ?tb_15, ?tb_240 by lia).
Ltac decide_cmp :=
  repeat match goal with
  | |- context [?a <? ?b] =>
      first [ replace (a <? b) with true by (symmetry; apply Z.ltb_lt; lia)
            | replace (a <? b) with false by (symmetry; apply Z.ltb_ge; lia) ]
  | |- context [?a <=? ?b] =>
      first [ replace (a <=? b) with true by (symmetry; apply Z.leb_le; lia)
            | replace (a <=? b) with false by (symmetry; apply Z.leb_gt; lia) ]
  end; cbn [andb orb negb];
  rewrite ?andb_false_r, ?andb_true_r, ?orb_false_r, ?orb_true_r, ?xorb_false_r, ?xorb_false_l; cbn [andb orb negb].
Ltac tbneg := repeat match goal with |- context [Z.testbit ?a ?n] => rewrite (Z.testbit_neg_r a n) by lia end; cbn [andb orb negb];
  rewrite ?andb_false_r, ?andb_true_r, ?orb_false_r, ?orb_true_r; cbn [andb orb negb].
Ltac eqpos := match goal with |- Z.testbit ?a ?m = Z.testbit ?a ?n => replace m with n by lia; reflexivity end.

Lemma pword_lor a b : pword a -> pword b -> pword (Z.lor a b).
Proof.
  intros Ha Hb. unfold pword in *. split; [apply Z.lor_nonneg; lia|].
  destruct (Z.eq_dec (Z.lor a b) 0) as [E|E]; [rewrite E; apply Z.pow_pos_nonneg; pose proof pbits_pos; lia|].
  assert (0 <= Z.lor a b) by (apply Z.lor_nonneg; lia).
  apply Z.log2_lt_pow2; [lia|].
  rewrite Z.log2_lor by lia.
  pose proof pbits_pos.
  apply Z.max_lub_lt.
  - destruct (Z.eq_dec a 0) as [->|]; [cbn; lia|]. apply Z.log2_lt_pow2; lia.
  - destruct (Z.eq_dec b 0) as [->|]; [cbn; lia|]. apply Z.log2_lt_pow2; lia.
Qed.

Lemma pword_land a b : pword a -> pword b -> pword (Z.land a b).
Proof.
  intros Ha Hb. unfold pword. pose proof pbits_pos.
  assert (E : Z.land a b = Z.land a b mod 2 ^ B).
  { apply Z.bits_inj'. intros n Hn. destruct (Z.ltb_spec n B).
    - now rewrite Z.mod_pow2_bits_low by lia.
    - rewrite Z.mod_pow2_bits_high by lia. rewrite Z.land_spec, !tb_high by (auto; lia). reflexivity. }
  rewrite E. apply Z.mod_pos_bound. apply Z.pow_pos_nonneg; lia.
Qed.

Lemma pword_lxor a b : pword a -> pword b -> pword (Z.lxor a b).
Proof.
  intros Ha Hb. unfold pword. pose proof pbits_pos.
  assert (E : Z.lxor a b = Z.lxor a b mod 2 ^ B).
  { apply Z.bits_inj'. intros n Hn. destruct (Z.ltb_spec n B).
    - now rewrite Z.mod_pow2_bits_low by lia.
    - rewrite Z.mod_pow2_bits_high by lia. rewrite Z.lxor_spec, !tb_high by (auto; lia). reflexivity. }
  rewrite E. apply Z.mod_pos_bound. apply Z.pow_pos_nonneg; lia.
Qed.

Lemma pword_shr a k : pword a -> pword (pshr a k).
Proof.
  intros Ha. unfold pshr, pword in *. split; [apply Z.shiftr_nonneg; lia|].
  apply Z.le_lt_trans with a; [|lia].
  rewrite Z.shiftr_div_pow2 by lia.
  pose proof (Z.pow_pos_nonneg 2 (Z.of_nat k)). apply Z.div_le_upper_bound; nia.
Qed.

Lemma pword_nonneg a : pword a -> 0 <= a. Proof. unfold pword. lia. Qed.
Lemma small_word n : 0 <= n < 2 ^ 32 -> pword n.
Proof.
  intros. unfold pword. destruct pbits_cases as [-> | ->]; [lia|].
  change (2 ^ 32) with 4294967296 in *. change (2 ^ 64) with 18446744073709551616. lia.
Qed.
Lemma word15 : pword 15. Proof. apply small_word. split; [lia|reflexivity]. Qed.
Lemma word240 : pword 240. Proof. apply small_word. split; [lia|reflexivity]. Qed.
Hint Resolve word15 word240 pwrap_word pword_lor pword_land pword_lxor pword_shr pword_nonneg : pw.
Lemma pshl_word a k : pword (pshl W a k). Proof. apply pwrap_word. Qed.
Lemma pnot_word a : pword (pnot W a). Proof. apply pwrap_word. Qed.
Lemma psub1_word a : pword (psub1 W a). Proof. apply pwrap_word. Qed.
Hint Resolve pshl_word pnot_word psub1_word : pw.

(* ---- insert_from_back ---- *)
Section InsertBack.
Context (x : Z) (i : nat) (Hx : pword x) (Hs : (perm_size x < W)%nat) (Hi : (i < W)%nat).
Let y := perm_insert_from_back W x i.

Lemma ifb_word : pword y.
Proof. unfold y, perm_insert_from_back. auto 8 with pw. Qed.

Lemma ifb_size : perm_size y = S (perm_size x).
Proof.
  rewrite <- size_plus1 by (auto; lia). apply perm_size_ext. intros b Hb.
  unfold y, perm_insert_from_back. pose proof pbits_ge. tb. decide_cmp. tbneg. reflexivity.
Qed.

Lemma ifb_low j : (j < i)%nat -> perm_get y j = perm_get x j.
Proof.
  intros Hj. apply perm_get_ext. intros b Hb. unfold y, perm_insert_from_back. pose proof pbits_ge. tb.
  decide_cmp. tbneg. rewrite tb_plus1 by (auto; lia). reflexivity.
Qed.

Lemma ifb_at : perm_get y i = perm_back W x.
Proof.
  apply perm_get_val. { apply perm_get_bound. } intros b Hb. unfold y, perm_insert_from_back.
  pose proof pbits_ge. tb. decide_cmp.
  replace (4 * Z.of_nat i + 4 + b - Z.of_nat (i * 4 + 4)) with b by lia. reflexivity.
Qed.

Lemma ifb_high j : (i < j < W)%nat -> perm_get y j = perm_get x (j - 1).
Proof.
  intros Hj. apply perm_get_ext. intros b Hb. unfold y, perm_insert_from_back. pose proof pbits_ge. tb.
  decide_cmp. unfold perm_back. rewrite tb_perm_get by lia. decide_cmp. eqpos.
Qed.
End InsertBack.

(* ---- insert_selected ---- *)
Section InsertSel.
Context (x : Z) (di si : nat) (Hx : pword x) (Hs : (perm_size x < W)%nat) (Hd : (di <= si)%nat) (Hsi : (si < W)%nat).
Let y := perm_insert_selected W x di si.
Lemma isel_word : pword y.
Proof. unfold y, perm_insert_selected. auto 10 with pw. Qed.
Lemma isel_size : perm_size y = S (perm_size x).
Proof.
  rewrite <- size_plus1 by (auto; lia). apply perm_size_ext. intros b Hb.
  unfold y, perm_insert_selected. pose proof pbits_ge. tb. decide_cmp. tbneg. reflexivity.
Qed.
Lemma isel_low j : (j < di)%nat -> perm_get y j = perm_get x j.
Proof.
  intros Hj. apply perm_get_ext. intros b Hb. unfold y, perm_insert_selected. pose proof pbits_ge. tb.
  decide_cmp. tbneg. rewrite tb_plus1 by (auto; lia). reflexivity.
Qed.
Lemma isel_at : perm_get y di = perm_get x si.
Proof.
  apply perm_get_val. { apply perm_get_bound. } intros b Hb. unfold y, perm_insert_selected.
  pose proof pbits_ge. tb. decide_cmp.
  replace (4 * Z.of_nat di + 4 + b - Z.of_nat (di * 4 + 4)) with b by lia. reflexivity.
Qed.
Lemma isel_mid j : (di < j <= si)%nat -> perm_get y j = perm_get x (j - 1).
Proof.
  intros Hj. apply perm_get_ext. intros b Hb. unfold y, perm_insert_selected. pose proof pbits_ge. tb.
  decide_cmp. rewrite tb_perm_get by lia. decide_cmp. eqpos.
Qed.
Lemma isel_high j : (si < j < W)%nat -> perm_get y j = perm_get x j.
Proof.
  intros Hj. apply perm_get_ext. intros b Hb. unfold y, perm_insert_selected. pose proof pbits_ge. tb.
  decide_cmp. rewrite tb_perm_get by lia. decide_cmp. reflexivity.
Qed.
End InsertSel.

(* ---- remove ---- *)
Section Remove.
Context (x : Z) (i : nat) (Hx : pword x) (Hs : (perm_size x <= W)%nat) (Hi : (i < perm_size x)%nat).
Let y := perm_remove W x i.
Local Notation s := (perm_size x).

Lemma rm_word : pword y.
Proof. unfold y, perm_remove. destruct (_ =? _)%nat; auto 10 with pw. Qed.

Lemma tb_rotmask n : 0 <= n -> (i + 1 < s)%nat ->
  Z.testbit (pshl W (psub1 W (pshl W 16 ((perm_size x - i - 1) * 4))) ((i + 1) * 4)) n
  = (n <? B) && (4 * Z.of_nat i + 4 <=? n) && (n <? 4 * Z.of_nat s + 4).
Proof.
  intros Hn Hlt. rewrite tb_pshl by auto. pose proof pbits_ge.
  destruct (Z.leb_spec (4 * Z.of_nat i + 4) n).
  - rewrite tb_mask16 by lia. destruct (Z.ltb_spec n B); cbn [andb]; auto.
    replace (n - Z.of_nat ((i + 1) * 4) <? B) with true by (symmetry; apply Z.ltb_lt; lia).
    cbn [andb]. lia.
  - rewrite Z.testbit_neg_r by lia. rewrite !andb_false_r. reflexivity.
Qed.

Ltac rmset M HM :=
  match goal with |- context [pshl W (psub1 W (pshl W 16 ((s - i - 1) * 4))) ((i + 1) * 4)] =>
    pose proof tb_rotmask as HM;
    set (M := pshl W (psub1 W (pshl W 16 ((s - i - 1) * 4))) ((i + 1) * 4)) in *; clearbody M end.
Ltac hm HM := repeat match goal with |- context [Z.testbit ?M ?n] => rewrite (HM n) by lia end.

Lemma rm_size : perm_size y = (s - 1)%nat.
Proof.
  unfold y, perm_remove. destruct (Nat.eqb_spec s (i + 1)) as [E|E].
  - apply size_minus1; auto; lia.
  - transitivity (perm_size (psub1 W x)); [|apply size_minus1; auto; lia].
    apply perm_size_ext. intros b Hb. pose proof pbits_ge.
    rmset M HM. tb. hm HM. decide_cmp. reflexivity.
Qed.

Lemma rm_low j : (j < i)%nat -> perm_get y j = perm_get x j.
Proof.
  intros Hj. apply perm_get_ext. intros b Hb. unfold y, perm_remove. pose proof pbits_ge.
  destruct (Nat.eqb_spec s (i + 1)) as [E|E].
  - apply tb_minus1; auto; lia.
  - rmset M HM. tb. hm HM. decide_cmp.
    rewrite tb_minus1 by (auto; lia). reflexivity.
Qed.

Lemma rm_mid j : (i <= j)%nat -> (j < s - 1)%nat -> perm_get y j = perm_get x (S j).
Proof.
  intros Hj Hj2. apply perm_get_ext. intros b Hb. unfold y, perm_remove. pose proof pbits_ge.
  destruct (Nat.eqb_spec s (i + 1)) as [E|E]; [lia|].
  rmset M HM. tb. hm HM. decide_cmp.
  destruct (Z.leb_spec 0 (4 * Z.of_nat j + 4 + b - Z.of_nat ((s - i - 1) * 4))).
  - hm HM. decide_cmp. eqpos.
  - tbneg. eqpos.
Qed.

Lemma rm_at : perm_get y (s - 1) = perm_get x i.
Proof.
  apply perm_get_ext. intros b Hb. unfold y, perm_remove. pose proof pbits_ge.
  destruct (Nat.eqb_spec s (i + 1)) as [E|E].
  - rewrite tb_minus1 by (auto; lia). eqpos.
  - rmset M HM. tb. hm HM. decide_cmp. eqpos.
Qed.

Lemma rm_high j : (s <= j < W)%nat -> perm_get y j = perm_get x j.
Proof.
  intros Hj. apply perm_get_ext. intros b Hb. unfold y, perm_remove. pose proof pbits_ge.
  destruct (Nat.eqb_spec s (i + 1)) as [E|E].
  - rewrite tb_minus1 by (auto; lia). reflexivity.
  - rmset M HM. tb. hm HM. decide_cmp.
    rewrite tb_minus1 by (auto; lia). reflexivity.
Qed.
End Remove.

(* ---- remove_to_back ---- *)
Section RemoveBack.
Context (x : Z) (i : nat) (Hx : pword x) (Hs : (perm_size x <= W)%nat) (Hi : (i < perm_size x)%nat).
Let y := perm_remove_to_back W x i.
Let x' := Z.land x (psub1 W (pshl W 16 (W * 4))).

Lemma rtb_x'_bits n : 0 <= n -> Z.testbit x' n = Z.testbit x n && (n <? 4 * Z.of_nat W + 4).
Proof.
  intros. unfold x'. rewrite Z.land_spec, tb_mask16 by auto. pose proof pbits_ge.
  destruct (Z.ltb_spec n (4 * Z.of_nat W + 4)); decide_cmp; auto.
Qed.
Lemma rtb_x'_word : pword x'.
Proof. unfold x'. auto with pw. Qed.
Lemma rtb_x'_size : perm_size x' = perm_size x.
Proof.
  apply perm_size_ext. intros b Hb. rewrite rtb_x'_bits by lia. decide_cmp. reflexivity.
Qed.
Lemma rtb_word : pword y.
Proof. unfold y, perm_remove_to_back. auto 10 with pw. Qed.

Lemma rtb_size : perm_size y = (perm_size x - 1)%nat.
Proof.
  rewrite <- rtb_x'_size at 1. rewrite <- (size_minus1 x') by (auto using rtb_x'_word; rewrite rtb_x'_size; lia).
  apply perm_size_ext. intros b Hb. unfold y, perm_remove_to_back. fold x'. pose proof pbits_ge.
  tb. decide_cmp.
  destruct (Z.leb_spec 0 (b - Z.of_nat ((W - i - 1) * 4))).
  - rewrite tb_pnot, tb_mask16 by lia. decide_cmp. reflexivity.
  - tbneg. reflexivity.
Qed.

Lemma rtb_low j : (j < i)%nat -> perm_get y j = perm_get x j.
Proof.
  intros Hj. apply perm_get_ext. intros b Hb. unfold y, perm_remove_to_back. fold x'. pose proof pbits_ge.
  tb. decide_cmp.
  rewrite tb_minus1 by (auto using rtb_x'_word; try lia; rewrite rtb_x'_size; lia).
  rewrite rtb_x'_bits by lia. decide_cmp.
  destruct (Z.leb_spec 0 (4 * Z.of_nat j + 4 + b - Z.of_nat ((W - i - 1) * 4))).
  - rewrite tb_pnot, tb_mask16 by lia. decide_cmp. reflexivity.
  - tbneg. reflexivity.
Qed.

Lemma rtb_mid j : (i <= j)%nat -> (j < W - 1)%nat -> perm_get y j = perm_get x (S j).
Proof.
  intros Hj Hj2. apply perm_get_ext. intros b Hb. unfold y, perm_remove_to_back. fold x'. pose proof pbits_ge.
  tb. decide_cmp.
  destruct (Z.leb_spec 0 (4 * Z.of_nat j + 4 + b - Z.of_nat ((W - i - 1) * 4))).
  - rewrite tb_pnot, tb_mask16 by lia. decide_cmp. rewrite rtb_x'_bits by lia. decide_cmp. eqpos.
  - tbneg. rewrite rtb_x'_bits by lia. decide_cmp. eqpos.
Qed.

Lemma rtb_back : perm_back W y = perm_get x i.
Proof.
  apply perm_get_ext. intros b Hb. unfold y, perm_remove_to_back. fold x'. pose proof pbits_ge.
  tb. decide_cmp. rewrite !rtb_x'_bits by lia. decide_cmp. eqpos.
Qed.
End RemoveBack.

(* ---- rotate: what the code does (over the full width) ---- *)
Section Rotate.
Context (x : Z) (i j : nat) (Hx : pword x) (Hij : (i <= j)%nat) (Hj : (j <= W)%nat) (Hs : (perm_size x <= W)%nat).
Let y := perm_rotate W x i j.
Let x' := Z.land x (psub1 W (pshl W 16 (W * 4))).

Lemma rot_mask_bits n : 0 <= n ->
  Z.testbit (psub1 W (if (i =? W)%nat then 0 else pshl W 16 (i * 4))) n
  = (n <? B) && ((i =? W)%nat || (n <? 4 * Z.of_nat i + 4)).
Proof.
  intros. destruct (Nat.eqb_spec i W).
  - unfold psub1. rewrite tb_pwrap by auto. rewrite tb_neg1 by auto. reflexivity.
  - rewrite tb_mask16 by auto. reflexivity.
Qed.

Lemma rotx_bits n : 0 <= n -> Z.testbit x' n = Z.testbit x n && (n <? 4 * Z.of_nat W + 4).
Proof.
  intros. unfold x'. rewrite Z.land_spec, tb_mask16 by auto. pose proof pbits_ge.
  destruct (Z.ltb_spec n (4 * Z.of_nat W + 4)); decide_cmp; auto.
Qed.

Lemma rot_word : pword y.
Proof. unfold y, perm_rotate. auto 10 with pw. Qed.

Ltac rotset M HM HX :=
  unfold y, perm_rotate; fold x'; pose proof rot_mask_bits as HM; pose proof rotx_bits as HX;
  set (M := psub1 W (if (i =? W)%nat then 0 else pshl W 16 (i * 4))) in *; clearbody M; clearbody x'.
Ltac rothm M HM HX := repeat match goal with
  | |- context [Z.testbit M ?n] => rewrite (HM n) by lia
  | |- context [Z.testbit x' ?n] => rewrite (HX n) by lia end.

Lemma rot_size : perm_size y = perm_size x.
Proof.
  apply perm_size_ext. intros b Hb. pose proof pbits_ge. rotset M HM HX.
  rewrite !Z.lor_spec, !Z.land_spec, tb_pnot, tb_pshl by lia. rewrite Z.land_spec. rothm M HM HX.
  decide_cmp.
  destruct (Z.leb_spec 0 (b - Z.of_nat ((W - j) * 4))).
  - rewrite tb_pnot by lia. rothm M HM HX.
    destruct (Nat.eqb_spec i W); decide_cmp; reflexivity.
  - tbneg. destruct (Nat.eqb_spec i W); decide_cmp; reflexivity.
Qed.

Lemma rot_low k : (k < i)%nat -> perm_get y k = perm_get x k.
Proof.
  intros Hk. apply perm_get_ext. intros b Hb. pose proof pbits_ge. rotset M HM HX.
  rewrite !Z.lor_spec, !Z.land_spec, tb_pnot, tb_pshl by lia. rewrite Z.land_spec. rothm M HM HX.
  decide_cmp.
  destruct (Z.leb_spec 0 (4 * Z.of_nat k + 4 + b - Z.of_nat ((W - j) * 4))).
  - rewrite tb_pnot by lia. rothm M HM HX.
    destruct (Nat.eqb_spec i W); decide_cmp; reflexivity.
  - tbneg. destruct (Nat.eqb_spec i W); decide_cmp; reflexivity.
Qed.

Lemma rot_high k : (i <= k < W)%nat ->
  perm_get y k = perm_get x (if (k + (j - i) <? W)%nat then k + (j - i) else k + (j - i) - (W - i)).
Proof.
  intros Hk. apply perm_get_ext. intros b Hb. pose proof pbits_ge.
  assert (F : (i =? W)%nat = false) by (apply Nat.eqb_neq; lia). rotset M HM HX. rewrite F in HM. cbn [orb] in HM.
  rewrite !Z.lor_spec, !Z.land_spec, tb_pnot, tb_pshl, tb_pshr by lia. rewrite Z.land_spec.
  destruct (Nat.ltb_spec (k + (j - i)) W) as [L|L].
  - destruct (Z.leb_spec 0 (4 * Z.of_nat k + 4 + b - Z.of_nat ((W - j) * 4))).
    + rewrite tb_pnot by lia. rothm M HM HX. decide_cmp. eqpos.
    + tbneg. rothm M HM HX. decide_cmp. eqpos.
  - rewrite tb_pnot by lia. rothm M HM HX. decide_cmp. eqpos.
Qed.
End Rotate.

(* ---- exchange ---- *)
Section Exchange.
Context (x : Z) (i j : nat) (Hx : pword x) (Hi : (i < W)%nat) (Hj : (j < W)%nat).
Let y := perm_exchange W x i j.
Lemma ex_word : pword y.
Proof. unfold y, perm_exchange. auto 10 with pw. Qed.

Lemma ex_diff_bits n : 0 <= n ->
  Z.testbit (Z.land (Z.lxor (pshr x (i * 4)) (pshr x (j * 4))) 240) n
  = (4 <=? n) && (n <? 8) && xorb (Z.testbit x (n + 4 * Z.of_nat i)) (Z.testbit x (n + 4 * Z.of_nat j)).
Proof.
  intros. tb. rewrite andb_comm. f_equal. f_equal; f_equal; lia.
Qed.

Lemma ex_shifted n k : 0 <= n -> (k < W)%nat ->
  Z.testbit (pshl W (Z.land (Z.lxor (pshr x (i * 4)) (pshr x (j * 4))) 240) (k * 4)) n
  = (4 * Z.of_nat k + 4 <=? n) && (n <? 4 * Z.of_nat k + 8) &&
    xorb (Z.testbit x (n - 4 * Z.of_nat k + 4 * Z.of_nat i)) (Z.testbit x (n - 4 * Z.of_nat k + 4 * Z.of_nat j)).
Proof.
  intros Hn Hk. rewrite tb_pshl by auto. pose proof pbits_ge.
  destruct (Z.leb_spec (4 * Z.of_nat k + 4) n).
  - rewrite ex_diff_bits by lia.
    destruct (Z.ltb_spec n (4 * Z.of_nat k + 8)); decide_cmp; auto.
    f_equal; f_equal; lia.
  - destruct (Z.leb_spec 0 (n - Z.of_nat (k * 4))).
    + rewrite ex_diff_bits by lia. decide_cmp. reflexivity.
    + tbneg. reflexivity.
Qed.

Lemma ex_size : perm_size y = perm_size x.
Proof.
  apply perm_size_ext. intros b Hb. unfold y, perm_exchange.
  rewrite Z.lxor_spec, Z.lor_spec, !ex_shifted by lia. decide_cmp. reflexivity.
Qed.

Lemma ex_get k : (k < W)%nat ->
  perm_get y k = if (k =? i)%nat then perm_get x j else if (k =? j)%nat then perm_get x i else perm_get x k.
Proof.
  intros Hk.
  assert (E : perm_get y k = perm_get x (if (k =? i)%nat then j else if (k =? j)%nat then i else k)).
  { apply perm_get_ext. intros b Hb. unfold y, perm_exchange.
    rewrite Z.lxor_spec, Z.lor_spec, !ex_shifted by lia.
    destruct (Nat.eqb_spec k i) as [->|Ei].
    - destruct (Nat.eqb_spec i j) as [->|Eij].
      + decide_cmp. replace (4 * Z.of_nat j + 4 + b - 4 * Z.of_nat j + 4 * Z.of_nat j) with (4 * Z.of_nat j + 4 + b) by lia.
        destruct (Z.testbit _ _); reflexivity.
      + destruct (Z.leb_spec (4 * Z.of_nat j + 4) (4 * Z.of_nat i + 4 + b)); decide_cmp.
        all: replace (4 * Z.of_nat i + 4 + b - 4 * Z.of_nat i + 4 * Z.of_nat i) with (4 * Z.of_nat i + 4 + b) by lia;
          replace (4 * Z.of_nat i + 4 + b - 4 * Z.of_nat i + 4 * Z.of_nat j) with (4 * Z.of_nat j + 4 + b) by lia;
          destruct (Z.testbit _ (4 * Z.of_nat i + 4 + b)), (Z.testbit _ _); reflexivity.
    - destruct (Nat.eqb_spec k j) as [->|Ej].
      + destruct (Z.leb_spec (4 * Z.of_nat i + 4) (4 * Z.of_nat j + 4 + b)); decide_cmp.
        all: replace (4 * Z.of_nat j + 4 + b - 4 * Z.of_nat j + 4 * Z.of_nat j) with (4 * Z.of_nat j + 4 + b) by lia;
          replace (4 * Z.of_nat j + 4 + b - 4 * Z.of_nat j + 4 * Z.of_nat i) with (4 * Z.of_nat i + 4 + b) by lia;
          destruct (Z.testbit _ (4 * Z.of_nat i + 4 + b)), (Z.testbit _ _); reflexivity.
      + destruct (Z.leb_spec (4 * Z.of_nat i + 4) (4 * Z.of_nat k + 4 + b));
        destruct (Z.leb_spec (4 * Z.of_nat j + 4) (4 * Z.of_nat k + 4 + b)); decide_cmp; reflexivity. }
  rewrite E. destruct (k =? i)%nat; auto. destruct (k =? j)%nat; auto.
Qed.
End Exchange.

(* ---- exchange_values ---- *)
Section ExchangeValues.
Context (x : Z) (a b : nat) (Hx : pword x) (Ha : (a < 16)%nat) (Hb : (b < 16)%nat).

Definition xv_c (v : nat) : Z := if (v =? a)%nat || (v =? b)%nat then Z.lxor (Z.of_nat a) (Z.of_nat b) else 0.

Lemma xv_c_bits v n : 4 <= n -> Z.testbit (xv_c v) n = false.
Proof.
  intros. unfold xv_c. destruct (_ || _); [|apply Z.testbit_0_l].
  rewrite Z.lxor_spec. rewrite !(tb_small _ 4) by lia. reflexivity.
Qed.

(* Loop invariant: k iterations done, diff has nibble m (1..k) equal to the contribution of element
   W - m' ... expressed bitwise. *)
Lemma xv_loop_spec : forall k m diff p,
  (k + m = W)%nat ->
  (forall n, 0 <= n < 4 -> Z.testbit diff n = false) ->
  (forall n, 0 <= n -> n < B -> Z.testbit p n = Z.testbit x (n - 4 * Z.of_nat m) && (4 * Z.of_nat m <=? n)) ->
  (forall t c, (1 <= t <= m)%nat -> 0 <= c < 4 ->
     Z.testbit diff (4 * Z.of_nat t + c) = Z.testbit (xv_c (perm_get x (W - 1 - (m - t)))) c) ->
  (forall n, 0 <= n < 4 -> Z.testbit (perm_xv_loop W k a b diff p) n = false) /\
  (forall t c, (1 <= t <= W)%nat -> 0 <= c < 4 ->
     Z.testbit (perm_xv_loop W k a b diff p) (4 * Z.of_nat t + c) = Z.testbit (xv_c (perm_get x (t - 1))) c).
Proof.
  induction k as [|k IH]; intros m diff p Hkm Hd0 Hp Hd; cbn [perm_xv_loop].
  - assert (m = W) by lia. subst m. split; auto.
    intros t c Ht Hc. rewrite Hd by lia. replace (W - 1 - (W - t))%nat with (t - 1)%nat by lia. reflexivity.
  - pose proof pbits_ge as HB.
    assert (Ev : Z.to_nat (Z.land (pshr p (W * 4)) 15) = perm_get x (W - 1 - m)).
    { apply nat_bits_ext. intros n Hn. rewrite Z2Nat.id by (apply Z.land_nonneg; lia).
      rewrite tb_perm_get by auto. rewrite Z.land_spec, tb_15, tb_pshr by auto.
      destruct (Z.ltb_spec n 4); [|now rewrite andb_false_r].
      rewrite Hp by lia. decide_cmp. eqpos. }
    rewrite Ev. fold (xv_c (perm_get x (W - 1 - m))). set (c0 := xv_c (perm_get x (W - 1 - m))).
    apply (IH (S m)).
    + lia.
    + intros n Hn. rewrite tb_pshl by lia. tbneg. reflexivity.
    + intros n Hn HnB. rewrite tb_pshl by lia.
      destruct (Z.leb_spec 4 n).
      * rewrite Hp by lia. decide_cmp.
        destruct (Z.leb_spec (4 * Z.of_nat (S m)) n); decide_cmp; auto. eqpos.
      * tbneg. decide_cmp. reflexivity.
    + intros t c Ht Hc. rewrite tb_pshl by lia.
      rewrite Z.lxor_spec.
      replace (4 * Z.of_nat t + c - Z.of_nat 4) with (4 * Z.of_nat (t - 1) + c) by lia.
      destruct (Nat.eq_dec t 1) as [->|Et].
      * replace (4 * Z.of_nat (1 - 1) + c) with c by lia.
        rewrite Hd0 by lia. decide_cmp. unfold c0. replace (W - 1 - (S m - 1))%nat with (W - 1 - m)%nat by lia. reflexivity.
      * rewrite Hd by lia. unfold c0. rewrite (xv_c_bits _ (4 * Z.of_nat (t - 1) + c)) by lia. decide_cmp.
        replace (m - (t - 1))%nat with (S m - t)%nat by lia. reflexivity.
Qed.

Lemma xv_bits :
  (forall n, 0 <= n < 4 -> Z.testbit (perm_xv_loop W W a b 0 x) n = false) /\
  (forall t c, (1 <= t <= W)%nat -> 0 <= c < 4 ->
     Z.testbit (perm_xv_loop W W a b 0 x) (4 * Z.of_nat t + c) = Z.testbit (xv_c (perm_get x (t - 1))) c).
Proof.
  apply (xv_loop_spec W 0).
  - lia.
  - intros. apply Z.testbit_0_l.
  - intros n Hn _. decide_cmp. f_equal. lia.
  - intros. lia.
Qed.

Lemma xv_size : perm_size (perm_exchange_values W x a b) = perm_size x.
Proof.
  apply perm_size_ext. intros n Hn. unfold perm_exchange_values. rewrite Z.lxor_spec.
  rewrite (proj1 xv_bits) by lia. apply xorb_false_r.
Qed.

Lemma xv_get k : (k < W)%nat ->
  perm_get (perm_exchange_values W x a b) k =
  (let v := perm_get x k in if (v =? a)%nat then b else if (v =? b)%nat then a else v).
Proof.
  intros Hk. cbv zeta. apply perm_get_val.
  { pose proof (perm_get_bound x k). destruct (_ =? _)%nat; auto. destruct (_ =? _)%nat; auto. }
  intros c Hc. unfold perm_exchange_values. rewrite Z.lxor_spec.
  replace (4 * Z.of_nat k + 4 + c) with (4 * Z.of_nat (S k) + c) at 2 by lia.
  rewrite (proj2 xv_bits) by lia. replace (S k - 1)%nat with k by lia.
  pose proof (tb_perm_get x k c) as T. replace (c <? 4) with true in T by lia. cbn [andb] in T.
  rewrite <- T by lia. clear T.
  unfold xv_c.
  destruct (Nat.eqb_spec (perm_get x k) a) as [E|E]; cbn [orb].
  - rewrite E, Z.lxor_spec. destruct (Z.testbit (Z.of_nat a) c), (Z.testbit (Z.of_nat b) c); reflexivity.
  - destruct (Nat.eqb_spec (perm_get x k) b) as [E2|E2]; cbn [orb].
    + rewrite E2, Z.lxor_spec. destruct (Z.testbit (Z.of_nat a) c), (Z.testbit (Z.of_nat b) c); reflexivity.
    + rewrite Z.testbit_0_l. apply xorb_false_r.
Qed.
End ExchangeValues.

(* ---- set_size ---- *)
Lemma ss_get x n j : (n <= W)%nat -> (j < W)%nat -> perm_get (perm_set_size W x n) j = perm_get x j.
Proof.
  intros Hn Hj. apply perm_get_ext. intros b Hb. unfold perm_set_size. pose proof pbits_ge. tb. decide_cmp.
  rewrite (tb_small (Z.of_nat n) 4) by lia. apply orb_false_r.
Qed.
Lemma ss_size x n : (n <= W)%nat -> perm_size (perm_set_size W x n) = n.
Proof.
  intros Hn. apply nat_bits_ext. intros b Hb. rewrite tb_perm_size by auto.
  destruct (Z.ltb_spec b 4); cbn [andb].
  - unfold perm_set_size. rewrite Z.lor_spec, Z.land_spec, tb_pnot, tb_15 by lia. decide_cmp. reflexivity.
  - symmetry. apply tb_small with (k := 4); lia.
Qed.
Lemma of_nat_word n : (n <= W)%nat -> pword (Z.of_nat n).
Proof. intros. unfold pword. destruct pbits_cases as [-> | ->];
    [change (2 ^ 32) with 4294967296|change (2 ^ 64) with 18446744073709551616]; lia. Qed.
Lemma ss_word x n : pword x -> (n <= W)%nat -> pword (perm_set_size W x n).
Proof. intros. unfold perm_set_size. auto using of_nat_word with pw. Qed.

End P.
