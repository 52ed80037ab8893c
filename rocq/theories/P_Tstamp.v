(* Timestamps. *)
From Verif Require Import Lib M_Stamp M_Tstamp Spec_Tstamp.

Lemma low_at s u : 0 <= u < 2 ^ 32 -> low (s * 2 ^ 32 + u) = u.
Proof. intros H. unfold low. rewrite Z.add_comm, Z.mod_add by lia. apply Z.mod_small. lia. Qed.
Lemma high_at s u : 0 <= u < 2 ^ 32 -> high (s * 2 ^ 32 + u) = s.
Proof. intros H. unfold high. rewrite Z.shiftr_div_pow2 by lia. rewrite Z.add_comm, Z.div_add by lia. rewrite Z.div_small; lia. Qed.
Lemma lor_add s u : 0 <= s -> 0 <= u < 2 ^ 32 -> Z.lor (s * 2 ^ 32) u = s * 2 ^ 32 + u.
Proof.
  intros Hs Hu. assert (L : Z.land (s * 2 ^ 32) u = 0); [|rewrite <- Z.lxor_lor by exact L; symmetry; apply Z.add_nocarry_lxor; exact L].
  rewrite <- Z.shiftl_mul_pow2 by lia; apply Z.bits_inj'; intros n Hn; rewrite Z.land_spec, Z.bits_0, Z.shiftl_spec by lia; destruct (Z.lt_ge_cases n 32); [rewrite Z.testbit_neg_r by lia; auto|].
  rewrite <- (Z.mod_small u (2 ^ 32)) by lia; rewrite Z.mod_pow2_bits_high by lia; apply andb_false_r.
Qed.
Lemma stamp_stands s u : 0 <= s < 2 ^ 32 -> 0 <= u < 1000000 -> stands (timestamp s u) s u /\ high (timestamp s u) = s /\ low (timestamp s u) = u.
Proof.
  intros Hs Hu. assert (E : timestamp s u = s * 2 ^ 32 + u).
  { unfold timestamp. rewrite Z.shiftl_mul_pow2 by lia. rewrite (Z.mod_small (s * 2 ^ 32)) by lia. rewrite (Z.mod_small u) by lia. apply lor_add; lia. }
  rewrite E. split; [split; [lia|split; [lia|auto]]|]. split; [apply high_at|apply low_at]; lia.
Qed.
Lemma order a b m n : micros a m -> micros b n -> (a < b <-> m < n) /\ (a = b <-> m = n).
Proof. intros (s & u & (H1 & H2 & ->) & ->) (s' & u' & (H3 & H4 & ->) & ->). lia. Qed.
Lemma sub_ok a b m n : micros a m -> micros b n -> n <= m -> micros (timestamp_sub a b) (m - n).
Proof.
  intros (s & u & (H1 & H2 & ->) & ->) (s' & u' & (H3 & H4 & ->) & ->) L. unfold timestamp_sub. cbv zeta. rewrite (Z.mod_small (_ - _)) by lia. destruct (Z.lt_ge_cases u u').
  - replace (s * 2 ^ 32 + u - (s' * 2 ^ 32 + u')) with ((s - s' - 1) * 2 ^ 32 + (2 ^ 32 + u - u')) by lia. rewrite low_at by lia. replace (999999 <? 2 ^ 32 + u - u') with true by lia. exists (s - s' - 1), (u - u' + 1000000). split; [|lia]. split; [lia|]. split; [lia|]. rewrite Z.mod_small; lia.
  - replace (s * 2 ^ 32 + u - (s' * 2 ^ 32 + u')) with ((s - s') * 2 ^ 32 + (u - u')) by lia. rewrite low_at by lia. replace (999999 <? u - u') with false by lia. exists (s - s'), (u - u'). split; [|lia]. split; [lia|]. split; [lia|]. lia.
Qed.
(* The timestamp after one that ends in 999999 microseconds, (x | 1) + 1, is none; its difference to the initial timestamp has 2000000
   microseconds. *)
Lemma sub_after : exists x b, (exists m, micros x m) /\ (exists n, micros b n) /\ b <= x /\ low (timestamp_sub (update_ts x x) b) = 2000000.
Proof. exists (5 * 2 ^ 32 + 999999), (1 * 2 ^ 32 + 0). split; [eexists; exists 5, 999999; split; [repeat split; lia|reflexivity]|]. split; [eexists; exists 1, 0; split; [repeat split; lia|reflexivity]|]. split; [lia|reflexivity]. Qed.
Lemma late : timestamp (2 ^ 32) 5 = 5 /\ timestamp (2 ^ 32) 5 < timestamp 1 0.
Proof. split; reflexivity. Qed.
Lemma late_ex : exists s u s' u', 0 <= u < 1000000 /\ 0 <= u' < 1000000 /\ s' < s /\ timestamp s u < timestamp s' u'.
Proof. exists (2 ^ 32), 5, 1, 0. split; [lia|]. split; [lia|]. split; [lia|]. apply late. Qed.
