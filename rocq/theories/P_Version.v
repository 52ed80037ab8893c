(* Proofs about version words. *)
From Verif Require Import Lib M_Version.

Definition nv_word (v : Z) : Prop := 0 <= v < 4294967296.

Lemma lor_pow2 w k : 0 <= k -> 0 <= w -> Z.lor w (2 ^ k) = w + (1 - (w / 2 ^ k) mod 2) * 2 ^ k.
Proof.
  intros Hk Hw. assert (P : 0 < 2 ^ k) by (apply Z.pow_pos_nonneg; lia).
  pose proof (Z.mod_pos_bound (w / 2 ^ k) 2 ltac:(lia)).
  assert (T : Z.testbit w k = ((w / 2 ^ k) mod 2 =? 1)).
  { rewrite Z.testbit_odd, Z.shiftr_div_pow2 by lia. rewrite Zodd_mod. unfold Zeq_bool.
    destruct (Z.eqb_spec ((w / 2 ^ k) mod 2) 1) as [->|]; auto. assert ((w / 2 ^ k) mod 2 = 0) as -> by lia. auto. }
  destruct (Z.eqb_spec ((w / 2 ^ k) mod 2) 1) as [E|E].
  - rewrite E. replace (w + (1 - 1) * 2 ^ k) with w by lia. apply Z.bits_inj'. intros n Hn.
    rewrite Z.lor_spec. destruct (Z.eq_dec n k) as [->|]; [rewrite T; auto|].
    rewrite Z.pow2_bits_false by lia. now rewrite orb_false_r.
  - replace ((w / 2 ^ k) mod 2) with 0 by lia. replace (w + (1 - 0) * 2 ^ k) with (w + 2 ^ k) by lia.
    rewrite <- Z.lxor_lor.
    + symmetry. apply Z.add_nocarry_lxor. apply Z.bits_inj'. intros n Hn. rewrite Z.land_spec, Z.bits_0.
      destruct (Z.eq_dec n k) as [->|]; [rewrite T; auto|]. rewrite Z.pow2_bits_false by lia. apply andb_false_r.
    + apply Z.bits_inj'. intros n Hn. rewrite Z.land_spec, Z.bits_0.
      destruct (Z.eq_dec n k) as [->|]; [rewrite T; auto|]. rewrite Z.pow2_bits_false by lia. apply andb_false_r.
Qed.

Lemma land_pow2 w k : 0 <= k -> 0 <= w -> Z.land w (2 ^ k) = ((w / 2 ^ k) mod 2) * 2 ^ k.
Proof.
  intros Hk Hw. apply Z.bits_inj'. intros n Hn. rewrite Z.land_spec.
  pose proof (Z.mod_pos_bound (w / 2 ^ k) 2 ltac:(lia)).
  assert (T : Z.testbit w k = ((w / 2 ^ k) mod 2 =? 1)).
  { rewrite Z.testbit_odd, Z.shiftr_div_pow2 by lia. rewrite Zodd_mod. unfold Zeq_bool.
    destruct (Z.eqb_spec ((w / 2 ^ k) mod 2) 1) as [->|]; auto. assert ((w / 2 ^ k) mod 2 = 0) as -> by lia. auto. }
  destruct (Z.eq_dec n k) as [->|].
  - rewrite T, Z.pow2_bits_true by lia. rewrite andb_true_r.
    destruct (Z.eqb_spec ((w / 2 ^ k) mod 2) 1) as [E|E].
    + rewrite E, Z.mul_1_l. now rewrite Z.pow2_bits_true.
    + replace ((w / 2 ^ k) mod 2) with 0 by lia. now rewrite Z.mul_0_l, Z.bits_0.
  - rewrite Z.pow2_bits_false by lia. rewrite andb_false_r.
    destruct (Z.eqb_spec ((w / 2 ^ k) mod 2) 1) as [E|E].
    + rewrite E, Z.mul_1_l. now rewrite Z.pow2_bits_false by lia.
    + replace ((w / 2 ^ k) mod 2) with 0 by lia. now rewrite Z.mul_0_l, Z.bits_0.
Qed.

(* Clearing one bit / the low bits of a 32-bit word. *)
Lemma land_split w m1 m2 : 0 <= w < 2 ^ 32 ->
  Z.land w ((Z.lnot (Z.lor m1 m2)) mod 2 ^ 32) = Z.land (Z.land w ((Z.lnot m1) mod 2 ^ 32)) ((Z.lnot m2) mod 2 ^ 32).
Proof.
  intros Hw. apply Z.bits_inj'. intros n Hn. rewrite !Z.land_spec.
  destruct (Z_lt_dec n 32).
  - rewrite !Z.mod_pow2_bits_low, !Z.lnot_spec, Z.lor_spec by lia.
    destruct (Z.testbit w n), (Z.testbit m1 n), (Z.testbit m2 n); auto.
  - rewrite !Z.mod_pow2_bits_high by lia. now rewrite !andb_false_r.
Qed.
Lemma land_clear w k : 0 <= k < 32 -> 0 <= w < 2 ^ 32 ->
  Z.land w ((Z.lnot (2 ^ k)) mod 2 ^ 32) = w - ((w / 2 ^ k) mod 2) * 2 ^ k.
Proof.
  intros Hk Hw. rewrite <- (land_pow2 w k) by lia.
  assert (E : Z.land w ((Z.lnot (2 ^ k)) mod 2 ^ 32) = Z.ldiff w (2 ^ k)).
  { apply Z.bits_inj'. intros n Hn. rewrite Z.land_spec, Z.ldiff_spec. destruct (Z_lt_dec n 32).
    - now rewrite Z.mod_pow2_bits_low, Z.lnot_spec by lia.
    - rewrite Z.mod_pow2_bits_high by lia. rewrite andb_false_r.
      destruct (Z.eq_dec w 0) as [->|]; [now rewrite Z.bits_0|].
      rewrite (Z.bits_above_log2 w n); auto; try lia. apply Z.log2_lt_pow2; try lia.
      apply Z.lt_le_trans with (2 ^ 32); [lia|apply Z.pow_le_mono_r; lia]. }
  rewrite E. rewrite Z.sub_nocarry_ldiff.
  - apply Z.bits_inj'. intros n Hn. rewrite !Z.ldiff_spec, Z.land_spec.
    destruct (Z.testbit w n), (Z.testbit (2 ^ k) n); auto.
  - apply Z.bits_inj'. intros n Hn. rewrite Z.ldiff_spec, Z.land_spec, Z.bits_0.
    destruct (Z.testbit w n), (Z.testbit (2 ^ k) n); auto.
Qed.
Lemma land_clear_low w k : 0 <= k < 32 -> 0 <= w < 2 ^ 32 ->
  Z.land w ((Z.lnot (2 ^ k - 1)) mod 2 ^ 32) = w / 2 ^ k * 2 ^ k.
Proof.
  intros Hk Hw.
  assert (E : Z.land w ((Z.lnot (2 ^ k - 1)) mod 2 ^ 32) = Z.ldiff w (Z.ones k)).
  { rewrite Z.ones_equiv, <- Z.sub_1_r.
    apply Z.bits_inj'. intros n Hn. rewrite Z.land_spec, Z.ldiff_spec. destruct (Z_lt_dec n 32).
    - now rewrite Z.mod_pow2_bits_low, Z.lnot_spec by lia.
    - rewrite Z.mod_pow2_bits_high by lia. rewrite andb_false_r.
      destruct (Z.eq_dec w 0) as [->|]; [now rewrite Z.bits_0|].
      rewrite (Z.bits_above_log2 w n); auto; try lia. apply Z.log2_lt_pow2; try lia.
      apply Z.lt_le_trans with (2 ^ 32); [lia|apply Z.pow_le_mono_r; lia]. }
  rewrite E, Z.ldiff_ones_r, Z.shiftl_mul_pow2, Z.shiftr_div_pow2 by lia. reflexivity.
Qed.

(* ---- arithmetic forms of every operation ---- *)
Lemma dirty_mask_val : nv_dirty_mask = 6. Proof. reflexivity. Qed.
Lemma land6 w : Z.land w 6 = 2 * ((w / 2) mod 4).
Proof.
  change 6 with (Z.shiftl 3 1). apply Z.bits_inj'. intros n Hn.
  rewrite Z.land_spec, Z.shiftl_spec by lia.
  destruct (Z.eq_dec n 0) as [->|].
  - rewrite (Z.testbit_neg_r 3) by lia. rewrite andb_false_r. now rewrite Z.testbit_even_0.
  - set (m := n - 1). assert (0 <= m) by (unfold m; lia). replace n with (Z.succ m) by (unfold m; lia).
    rewrite Z.testbit_even_succ by lia. replace (Z.succ m - 1) with m by lia.
    change 4 with (2 ^ 2). rewrite <- Z.land_ones by lia. rewrite Z.land_spec.
    change (Z.ones 2) with 3. f_equal. change 2 with (2 ^ 1). rewrite Z.div_pow2_bits by lia. now replace (m + 1) with (Z.succ m) by lia.
Qed.
Lemma nv_dirty_arith w : nv_dirty w = negb ((w / 2) mod 4 =? 0).
Proof. unfold nv_dirty. rewrite dirty_mask_val, land6. destruct (Z.eqb_spec ((w / 2) mod 4) 0), (Z.eqb_spec (2 * ((w / 2) mod 4)) 0); auto; lia. Qed.

Lemma flag_arith w k : 0 <= k -> 0 <= w -> negb (Z.land w (2 ^ k) =? 0) = ((w / 2 ^ k) mod 2 =? 1).
Proof.
  intros Hk Hw. rewrite land_pow2 by auto. pose proof (Z.mod_pos_bound (w / 2 ^ k) 2 ltac:(lia)).
  assert (0 < 2 ^ k) by (apply Z.pow_pos_nonneg; lia).
  destruct (Z.eqb_spec ((w / 2 ^ k) mod 2) 1) as [->|].
  - rewrite Z.mul_1_l. destruct (Z.eqb_spec (2 ^ k) 0); auto; lia.
  - replace ((w / 2 ^ k) mod 2) with 0 by lia. reflexivity.
Qed.
Lemma nv_locked_arith w : 0 <= w -> nv_locked w = (w mod 2 =? 1).
Proof. intros. unfold nv_locked, nv_lock_bit. rewrite flag_arith by lia. change (2 ^ 0) with 1. now rewrite Z.div_1_r. Qed.
Lemma nv_splitting_arith w : 0 <= w -> nv_splitting w = ((w / 4) mod 2 =? 1).
Proof. intros. unfold nv_splitting, nv_splitting_bit. now rewrite flag_arith by lia. Qed.
Lemma nv_inserting_arith w : 0 <= w -> nv_inserting w = ((w / 2) mod 2 =? 1).
Proof. intros. unfold nv_inserting, nv_inserting_bit. now rewrite flag_arith by lia. Qed.
Lemma nv_isleaf_arith w : 0 <= w -> nv_isleaf w = ((w / 2147483648) mod 2 =? 1).
Proof. intros. unfold nv_isleaf, nv_isleaf_bit. now rewrite flag_arith by lia. Qed.
Lemma nv_root_arith w : 0 <= w -> nv_is_root w = ((w / 1073741824) mod 2 =? 1).
Proof. intros. unfold nv_is_root, nv_root_bit. now rewrite flag_arith by lia. Qed.
Lemma nv_deleted_arith w : 0 <= w -> nv_deleted w = ((w / 536870912) mod 2 =? 1).
Proof. intros. unfold nv_deleted, nv_deleted_bit. now rewrite flag_arith by lia. Qed.

Lemma nv_lock_arith w : 0 <= w -> nv_lock w = w + (1 - w mod 2).
Proof. intros. unfold nv_lock, nv_lock_bit. rewrite lor_pow2 by lia. change (2 ^ 0) with 1. rewrite Z.div_1_r. lia. Qed.

(* xor comparisons *)
Lemma lxor_lt_pow2 x v k : 0 <= k -> 0 <= x -> 0 <= v -> (2 ^ k <=? Z.lxor x v) = negb (x / 2 ^ k =? v / 2 ^ k).
Proof.
  intros Hk Hx Hv. assert (P : 0 < 2 ^ k) by (apply Z.pow_pos_nonneg; lia).
  assert (N : 0 <= Z.lxor x v) by (apply Z.lxor_nonneg; tauto).
  assert (E : Z.lxor x v / 2 ^ k = Z.lxor (x / 2 ^ k) (v / 2 ^ k)).
  { rewrite <- !Z.shiftr_div_pow2 by lia. apply Z.shiftr_lxor. }
  destruct (Z.eqb_spec (x / 2 ^ k) (v / 2 ^ k)) as [Eq|Ne]; cbn [negb].
  - rewrite Eq, Z.lxor_nilpotent in E. apply Z.leb_gt.
    apply Z.div_small_iff in E; lia.
  - apply Z.leb_le. destruct (Z_lt_dec (Z.lxor x v) (2 ^ k)); [|lia].
    rewrite Z.div_small in E by lia. symmetry in E. apply Z.lxor_eq in E. contradiction.
Qed.
Lemma nv_has_changed_arith v x : 0 <= v -> 0 <= x -> nv_has_changed v x = negb (x / 2 =? v / 2).
Proof.
  intros. unfold nv_has_changed, nv_lock_bit. pose proof (lxor_lt_pow2 x v 1 ltac:(lia) ltac:(lia) ltac:(lia)) as E. change (2 ^ 1) with 2 in E. rewrite <- E.
  change (2 ^ 0) with 1. destruct (Z.ltb_spec 1 (Z.lxor x v)), (Z.leb_spec 2 (Z.lxor x v)); lia.
Qed.
Lemma nv_has_split_arith v x : 0 <= v -> 0 <= x -> nv_has_split v x = negb (x / 512 =? v / 512).
Proof. intros. unfold nv_has_split, nv_vsplit_lowbit. now rewrite lxor_lt_pow2 by lia. Qed.

Lemma nv_unlock_split_arith w : nv_word w -> nv_splitting w = true ->
  let a := (w + 512) mod 4294967296 in
  nv_unlock w = (a - (a / 1073741824) mod 2 * 1073741824 - (a / 268435456) mod 2 * 268435456) / 512 * 512.
Proof.
  intros Hw Hs a. unfold nv_unlock. rewrite Hs. unfold nv_split_unlock_mask, nv_wrap, nv_vsplit_lowbit.
  change (2 ^ 9) with 512. fold a. assert (Ba : 0 <= a < 2 ^ 32) by (apply Z.mod_pos_bound; lia).
  assert (Ba' : 0 <= a < 4294967296) by (apply Z.mod_pos_bound; lia).
  change ((w + 512) mod 2 ^ 32) with a.
  rewrite land_split by auto. rewrite land_split by auto.
  unfold nv_root_bit, nv_unused1_bit. rewrite (land_clear a 30) by lia.
  change (2 ^ 30) with 1073741824.
  set (b := a - (a / 1073741824) mod 2 * 1073741824).
  assert (Bb : 0 <= b < 4294967296) by (unfold b; lia).
  rewrite (land_clear b 28) by (change (2 ^ 32) with 4294967296; lia).
  change (2 ^ 28) with 268435456.
  assert (Q : (b / 268435456) mod 2 = (a / 268435456) mod 2) by (unfold b; lia). rewrite Q.
  set (c := b - (a / 268435456) mod 2 * 268435456).
  assert (Bc : 0 <= c < 4294967296) by (unfold c; lia).
  change (512 - 1) with (2 ^ 9 - 1). rewrite (land_clear_low c 9) by (change (2 ^ 32) with 4294967296; lia). reflexivity.
Qed.

Lemma nv_unlock_insert_arith w : nv_word w -> nv_splitting w = false ->
  let a := (w + 8 * ((w / 2) mod 2)) mod 4294967296 in
  nv_unlock w = (a - (a / 268435456) mod 2 * 268435456) / 8 * 8.
Proof.
  intros Hw Hs a. unfold nv_word in Hw. unfold nv_unlock. rewrite Hs. unfold nv_unlock_mask, nv_wrap, nv_vinsert_lowbit, nv_inserting_bit.
  rewrite (land_pow2 w 1) by lia. rewrite Z.shiftl_mul_pow2 by lia.
  change (2 ^ 1) with 2. change (2 ^ 2) with 4. change (2 ^ 3) with 8.
  rewrite (Z.mod_small (_ * 4)) by (change (2 ^ 32) with 4294967296; lia).
  replace ((w / 2) mod 2 * 2 * 4) with (8 * ((w / 2) mod 2)) by lia.
  change ((w + 8 * ((w / 2) mod 2)) mod 2 ^ 32) with a.
  assert (Ba' : 0 <= a < 4294967296) by (apply Z.mod_pos_bound; lia).
  rewrite land_split by auto. unfold nv_unused1_bit. rewrite (land_clear a 28) by (change (2 ^ 32) with 4294967296; lia).
  change (2 ^ 28) with 268435456.
  change (8 - 1) with (2 ^ 3 - 1). rewrite (land_clear_low _ 3) by (change (2 ^ 32) with 4294967296; lia). reflexivity.
Qed.
