(* Arithmetic of base64 and its groups of bits. *)
From Verif Require Import Lib M_Strenc Spec_Strenc.

Lemma by_range (n : nat) (f : Z -> bool) a : forallb (fun i => f (Z.of_nat i)) (seq 0 n) = true -> 0 <= a < Z.of_nat n -> f a = true.
Proof. intros H Ha. rewrite forallb_forall in H. specialize (H (Z.to_nat a)). rewrite Z2Nat.id in H by lia. apply H. apply in_seq. lia. Qed.
Lemma num_acc l a : fold_left (fun a b => 2 * a + Z.b2z b) l a = a * 2 ^ len l + num l.
Proof.
  revert a. induction l as [|b l IH]; intros a; [cbn; change (2 ^ len (@nil bool)) with 1; change (num []) with 0; lia|]. unfold num. cbn [fold_left]. rewrite (IH (2 * a + Z.b2z b)), (IH (2 * 0 + Z.b2z b)).
  rewrite len_cons, Z.pow_add_r by (pose proof (len_nonneg l); lia). change (2 ^ 1) with 2. lia.
Qed.
Lemma num_app l1 l2 : num (l1 ++ l2) = num l1 * 2 ^ len l2 + num l2.
Proof. unfold num at 1. rewrite fold_left_app, num_acc. reflexivity. Qed.
(* Parts of a byte and of a sextet. *)
Lemma part8 a : byte_ok a -> num (bits 8 a) = a /\ num (firstn 6 (bits 8 a)) = a / 4 /\ num (skipn 6 (bits 8 a)) = a mod 4 /\ num (firstn 4 (bits 8 a)) = a / 16 /\ num (skipn 4 (bits 8 a)) = a mod 16 /\ num (firstn 2 (bits 8 a)) = a / 64 /\ num (skipn 2 (bits 8 a)) = a mod 64.
Proof.
  intros H. pose proof (by_range 256 (fun a => (num (bits 8 a) =? a) && (num (firstn 6 (bits 8 a)) =? a / 4) && (num (skipn 6 (bits 8 a)) =? a mod 4) && (num (firstn 4 (bits 8 a)) =? a / 16) && (num (skipn 4 (bits 8 a)) =? a mod 16) && (num (firstn 2 (bits 8 a)) =? a / 64) && (num (skipn 2 (bits 8 a)) =? a mod 64)) a ltac:(vm_compute; reflexivity) H) as K.
  cbv beta in K. repeat (apply andb_true_iff in K; destruct K as (K & ?)). repeat split; apply Z.eqb_eq; assumption.
Qed.
Lemma part6 v : 0 <= v < 64 -> num (bits 6 v) = v /\ num (firstn 4 (bits 6 v)) = v / 4 /\ num (skipn 4 (bits 6 v)) = v mod 4 /\ num (firstn 2 (bits 6 v)) = v / 16 /\ num (skipn 2 (bits 6 v)) = v mod 16.
Proof.
  intros H. pose proof (by_range 64 (fun a => (num (bits 6 a) =? a) && (num (firstn 4 (bits 6 a)) =? a / 4) && (num (skipn 4 (bits 6 a)) =? a mod 4) && (num (firstn 2 (bits 6 a)) =? a / 16) && (num (skipn 2 (bits 6 a)) =? a mod 16)) v ltac:(vm_compute; reflexivity) H) as K.
  cbv beta in K. repeat (apply andb_true_iff in K; destruct K as (K & ?)). repeat split; apply Z.eqb_eq; assumption.
Qed.
Lemma sextets3 a b c l : byte_ok a -> byte_ok b -> byte_ok c ->
  sextets (bits 8 a ++ bits 8 b ++ bits 8 c ++ l) = a / 4 :: (a mod 4 * 16 + b / 16) :: (b mod 16 * 4 + c / 64) :: c mod 64 :: sextets l.
Proof.
  intros Ha Hb Hc. destruct (part8 a Ha) as (_ & A6 & A6' & _ & _ & _ & _). destruct (part8 b Hb) as (_ & _ & _ & B4 & B4' & _ & _). destruct (part8 c Hc) as (_ & _ & _ & _ & _ & C2 & C2').
  rewrite <- A6, <- A6', <- B4, <- B4', <- C2, <- C2'. change 16 with (2 ^ len (firstn 4 (bits 8 b))). change 4 with (2 ^ len (firstn 2 (bits 8 c))). rewrite <- !num_app. reflexivity.
Qed.
Lemma sextets2 a b : byte_ok a -> byte_ok b -> sextets (bits 8 a ++ bits 8 b) = [a / 4; a mod 4 * 16 + b / 16; b mod 16 * 4].
Proof.
  intros Ha Hb. destruct (part8 a Ha) as (_ & A6 & A6' & _ & _ & _ & _). destruct (part8 b Hb) as (_ & _ & _ & B4 & B4' & _ & _).
  replace (b mod 16 * 4) with (b mod 16 * 4 + num [false; false]) by (change (num [false; false]) with 0; lia).
  rewrite <- A6, <- A6', <- B4, <- B4'. change 16 with (2 ^ len (firstn 4 (bits 8 b))). change 4 with (2 ^ len [false; false]). rewrite <- !num_app. reflexivity.
Qed.
Lemma sextets1 a : byte_ok a -> sextets (bits 8 a) = [a / 4; a mod 4 * 16].
Proof.
  intros Ha. destruct (part8 a Ha) as (_ & A6 & A6' & _ & _ & _ & _).
  replace (a mod 4 * 16) with (a mod 4 * 16 + num (repeat false 4)) by (change (num (repeat false 4)) with 0; lia).
  rewrite <- A6, <- A6'. change 16 with (2 ^ len (repeat false 4)). rewrite <- !num_app. reflexivity.
Qed.
Definition six (v : Z) : Prop := 0 <= v < 64.
Lemma octets4 v w x y l : six v -> six w -> six x -> six y ->
  octets (bits 6 v ++ bits 6 w ++ bits 6 x ++ bits 6 y ++ l) = (v * 4 + w / 16) :: (w mod 16 * 16 + x / 4) :: (x mod 4 * 64 + y) :: octets l.
Proof.
  intros Hv Hw Hx Hy. destruct (part6 v Hv) as (V & _). destruct (part6 w Hw) as (_ & _ & _ & W2 & W2'). destruct (part6 x Hx) as (_ & X4 & X4' & _). destruct (part6 y Hy) as (Y & _).
  replace (v * 4) with (num (bits 6 v) * 4) by lia. replace (x mod 4 * 64 + y) with (x mod 4 * 64 + num (bits 6 y)) by lia.
  rewrite <- W2, <- W2', <- X4, <- X4'. change 64 with (2 ^ len (bits 6 y)). change 16 with (2 ^ len (firstn 4 (bits 6 x))). change 4 with (2 ^ len (firstn 2 (bits 6 w))). rewrite <- !num_app. reflexivity.
Qed.
Lemma octets3 v w x : six v -> six w -> six x -> octets (bits 6 v ++ bits 6 w ++ bits 6 x) = [v * 4 + w / 16; w mod 16 * 16 + x / 4].
Proof.
  intros Hv Hw Hx. destruct (part6 v Hv) as (V & _). destruct (part6 w Hw) as (_ & _ & _ & W2 & W2'). destruct (part6 x Hx) as (_ & X4 & X4' & _).
  replace (v * 4) with (num (bits 6 v) * 4) by lia.
  rewrite <- W2, <- W2', <- X4. change 16 with (2 ^ len (firstn 4 (bits 6 x))). change 4 with (2 ^ len (firstn 2 (bits 6 w))). rewrite <- !num_app. reflexivity.
Qed.
Lemma octets2 v w : six v -> six w -> octets (bits 6 v ++ bits 6 w) = [v * 4 + w / 16].
Proof.
  intros Hv Hw. destruct (part6 v Hv) as (V & _). destruct (part6 w Hw) as (_ & _ & _ & W2 & W2').
  replace (v * 4) with (num (bits 6 v) * 4) by lia. rewrite <- W2. change 4 with (2 ^ len (firstn 2 (bits 6 w))). rewrite <- !num_app. reflexivity.
Qed.

(* The words of the code. *)
Lemma lor_low a k b : 0 <= k -> 0 <= b < 2 ^ k -> Z.lor (a * 2 ^ k) b = a * 2 ^ k + b.
Proof.
  intros Hk Hb. assert (D : Z.land (a * 2 ^ k) b = 0).
  { apply Z.bits_inj'. intros n Hn. rewrite Z.land_spec, Z.bits_0. destruct (Z_lt_le_dec n k) as [H|H].
    - rewrite Z.mul_pow2_bits_low by lia. auto.
    - destruct (Z.eq_dec b 0) as [-> | Hb0]; [rewrite Z.bits_0; apply andb_false_r|]. rewrite (Z.bits_above_log2 b n), andb_false_r; auto; [lia|]. apply Z.log2_lt_pow2; try lia. apply Z.lt_le_trans with (2 ^ k); [lia|]. apply Z.pow_le_mono_r; lia. }
  rewrite <- Z.lxor_lor by auto. symmetry. apply Z.add_nocarry_lxor. auto.
Qed.
Lemma land63 x : Z.land x 63 = x mod 64.
Proof. change 63 with (Z.ones 6). rewrite Z.land_ones by lia. reflexivity. Qed.
Lemma word3 a b c : byte_ok a -> byte_ok b -> byte_ok c -> Z.lor (Z.lor (Z.shiftl a 16) (Z.shiftl b 8)) c = a * 65536 + b * 256 + c.
Proof.
  unfold byte_ok. intros Ha Hb Hc. rewrite !Z.shiftl_mul_pow2 by lia. rewrite (lor_low a 16) by (change (2 ^ 16) with 65536; change (2 ^ 8) with 256; lia).
  replace (a * 2 ^ 16 + b * 2 ^ 8) with ((a * 256 + b) * 2 ^ 8) by lia. rewrite (lor_low _ 8) by (change (2 ^ 8) with 256; lia). lia.
Qed.
Lemma tab_ok v : six v -> tab v = alphabet v.
Proof. intros H. apply Z.eqb_eq. exact (by_range 64 (fun v => tab v =? alphabet v) v ltac:(vm_compute; reflexivity) H). Qed.
Lemma sx_ok c : byte_ok c -> match value c with Some v => six v /\ sx c = v | None => sx c = 2 ^ 32 - 1 end.
Proof.
  intros H. pose proof (by_range 256 (fun c => match value c with Some v => (0 <=? v) && (v <? 64) && (sx c =? v) | None => sx c =? 2 ^ 32 - 1 end) c ltac:(vm_compute; reflexivity) H) as K. cbv beta in K.
  unfold six. destruct (value c); lia.
Qed.
Lemma value_alphabet v : six v -> value (alphabet v) = Some v /\ byte_ok (alphabet v) /\ alphabet v <> 61.
Proof.
  intros H. pose proof (by_range 64 (fun v => match value (alphabet v) with Some w => (w =? v) && (0 <=? alphabet v) && (alphabet v <? 256) && negb (alphabet v =? 61) | None => false end) v ltac:(vm_compute; reflexivity) H) as K. cbv beta in K.
  unfold byte_ok. destruct (value (alphabet v)); [|discriminate]. split; [f_equal|]; lia.
Qed.
