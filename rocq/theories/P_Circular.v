(* Proofs about circular_int. *)
From Verif Require Import Lib M_Circular.

Section CI.
Context (n : Z) (Hn : 8 <= n).
Local Notation HF := (2 ^ (n - 1)).

Lemma half : 2 ^ n = 2 * HF /\ 4 <= HF.
Proof.
  assert (E : n = Z.succ (n - 1)) by lia.
  split; [rewrite E at 1; rewrite Z.pow_succ_r by lia; lia|].
  change 4 with (2 ^ 2). apply Z.pow_le_mono_r; lia.
Qed.

(* Wrapping difference of two issue numbers less than half the range apart. *)
Lemma signed_diff i j : - HF <= i - j < HF -> ci_signed n (ci_wrap n i - ci_wrap n j) = i - j.
Proof.
  intros D. destruct half as [E G]. unfold ci_signed, ci_wrap. rewrite Zminus_mod_idemp_l, Zminus_mod_idemp_r.
  assert (M : (i - j) mod 2 ^ n = if i - j <? 0 then i - j + 2 ^ n else i - j).
  { destruct (Z.ltb_spec (i - j) 0).
    - symmetry. apply Z.mod_unique with (q := -1); lia.
    - apply Z.mod_small. lia. }
  rewrite M. destruct (Z.ltb_spec (i - j) 0).
  - destruct (Z.ltb_spec (i - j + 2 ^ n) HF); lia.
  - destruct (Z.ltb_spec (i - j) HF); lia.
Qed.

Lemma ci_order i j : - HF < i - j < HF ->
  ci_lt n (ci_wrap n i) (ci_wrap n j) = (i <? j) /\ ci_gt n (ci_wrap n i) (ci_wrap n j) = (j <? i) /\
  ci_le n (ci_wrap n i) (ci_wrap n j) = (i <=? j) /\ ci_ge n (ci_wrap n i) (ci_wrap n j) = (j <=? i) /\
  ci_less_equal n (ci_wrap n i) (ci_wrap n j) = (i <=? j) /\
  ci_diff n (ci_wrap n i) (ci_wrap n j) = i - j /\
  (ci_wrap n i = ci_wrap n j <-> i = j).
Proof.
  intros D. unfold ci_lt, ci_gt, ci_le, ci_ge, ci_less, ci_less_equal, ci_diff.
  pose proof (signed_diff i j ltac:(lia)) as A. pose proof (signed_diff j i ltac:(lia)) as B.
  rewrite A, B. repeat split; try lia.
  - intros E. rewrite E in A. rewrite Z.sub_diag in A. unfold ci_signed, ci_wrap in A. destruct half.
    rewrite Z.mod_0_l in A by lia. destruct (Z.ltb_spec 0 HF); lia.
  - now intros ->.
Qed.

Lemma ci_repr a : 0 <= a < 2 ^ n -> ci_wrap n a = a.
Proof. intros. apply Z.mod_small. lia. Qed.

Lemma ci_irrefl a : ci_lt n a a = false.
Proof. unfold ci_lt, ci_less. rewrite Z.sub_diag. unfold ci_signed, ci_wrap. destruct half. rewrite Z.mod_0_l by lia. destruct (Z.ltb_spec 0 HF); lia. Qed.

Lemma ci_next_spec v : 0 <= v < 2 ^ n -> 0 < ci_next_nonzero n v < 2 ^ n /\
  (v <> 0 -> ci_lt n v (ci_next_nonzero n v) = true) /\
  (v <> 2 ^ n - 1 -> ci_next_nonzero n v = v + 1).
Proof.
  intros B. destruct half as [E G].
  destruct (Z.eq_dec v (2 ^ n - 1)) as [->|Hne].
  - assert (N1 : ci_next_nonzero n (2 ^ n - 1) = 1).
    { unfold ci_next_nonzero. replace (2 ^ n - 1 + 1) with (2 ^ n) by lia. unfold ci_wrap. rewrite Z.mod_same by lia.
      cbn [Z.eqb]. change (0 + 1) with 1. apply Z.mod_small. lia. }
    rewrite N1. repeat split; try lia.
    intros _. pose proof (ci_order (2 ^ n - 1) (2 ^ n + 1) ltac:(lia)) as [O _].
    rewrite ci_repr in O by lia. unfold ci_wrap in O.
    rewrite <- (Z.mod_unique (2 ^ n + 1) (2 ^ n) 1 1) in O by lia. rewrite O. lia.
  - unfold ci_next_nonzero. rewrite (ci_repr (v + 1)) by lia. destruct (Z.eqb_spec (v + 1) 0); [lia|].
    rewrite Z.add_0_r, ci_repr by lia. repeat split; try lia.
    intros _. pose proof (ci_order v (v + 1) ltac:(lia)) as [O _]. rewrite !ci_repr in O by lia. rewrite O. lia.
Qed.

(* Transitivity within half the range. *)
Lemma ci_trans a b c : 0 <= a < 2 ^ n -> 0 <= b < 2 ^ n -> 0 <= c < 2 ^ n ->
  ci_lt n a b = true -> ci_lt n b c = true -> (b - a) mod 2 ^ n + (c - b) mod 2 ^ n < HF -> ci_lt n a c = true.
Proof.
  intros Ba Bb Bc Hab Hbc Hs. destruct half as [E G].
  set (d1 := (b - a) mod 2 ^ n) in *. set (d2 := (c - b) mod 2 ^ n) in *.
  assert (0 <= d1 < 2 ^ n) by (apply Z.mod_pos_bound; lia). assert (0 <= d2 < 2 ^ n) by (apply Z.mod_pos_bound; lia).
  assert (Eb : b = ci_wrap n (a + d1)).
  { unfold ci_wrap, d1. rewrite Z.add_mod_idemp_r by lia. replace (a + (b - a)) with b by lia. now rewrite Z.mod_small. }
  assert (Ec : c = ci_wrap n (a + d1 + d2)).
  { unfold ci_wrap, d2. rewrite Z.add_mod_idemp_r by lia. rewrite Eb at 1. unfold ci_wrap.
    replace (a + d1 + (c - (a + d1) mod 2 ^ n)) with ((a + d1) - (a + d1) mod 2 ^ n + c) by lia.
    rewrite Zplus_mod, Zminus_mod, Zmod_mod, Z.sub_diag, Z.mod_0_l, Z.add_0_l, Zmod_mod by lia.
    now rewrite Z.mod_small. }
  assert (d1 <> 0). { intros Z0. rewrite Z0, Z.add_0_r, ci_repr in Eb by lia. subst b. now rewrite ci_irrefl in Hab. }
  rewrite <- (ci_repr a) by lia. rewrite Ec. destruct (ci_order a (a + d1 + d2) ltac:(lia)) as [-> _]. lia.
Qed.

Lemma ci_asym a b : 0 <= a < 2 ^ n -> 0 <= b < 2 ^ n -> (a - b) mod 2 ^ n <> HF ->
  a <> b -> ci_lt n a b = negb (ci_lt n b a).
Proof.
  intros Ba Bb Hh Hne. destruct half as [E G].
  assert (exists i j, a = ci_wrap n i /\ b = ci_wrap n j /\ - HF < i - j < HF /\ i <> j) as (i & j & -> & -> & D & Hd).
  { assert (M : (a - b) mod 2 ^ n = if a - b <? 0 then a - b + 2 ^ n else a - b).
    { destruct (Z.ltb_spec (a - b) 0); [symmetry; apply Z.mod_unique with (q := -1); lia|apply Z.mod_small; lia]. }
    destruct (Z_lt_dec (a - b) (- HF)).
    - exists (a + 2 ^ n), b. rewrite (ci_repr b) by lia. unfold ci_wrap.
      rewrite <- (Z.mod_unique (a + 2 ^ n) (2 ^ n) 1 a) by lia. destruct (Z.ltb_spec (a - b) 0); lia.
    - destruct (Z_lt_dec HF (a - b)).
      + exists a, (b + 2 ^ n). rewrite (ci_repr a) by lia. unfold ci_wrap.
        rewrite <- (Z.mod_unique (b + 2 ^ n) (2 ^ n) 1 b) by lia. destruct (Z.ltb_spec (a - b) 0); lia.
      + exists a, b. rewrite !ci_repr by lia. destruct (Z.ltb_spec (a - b) 0); lia. }
  destruct (ci_order i j D) as [-> _]. destruct (ci_order j i ltac:(lia)) as [-> _]. lia.
Qed.
End CI.
