(* The encoder and decoder agree with the bits; round trip; URI components. *)
From Verif Require Import Lib M_Strenc Spec_Strenc P_Strenc1.

Lemma ind3 (P : list Z -> Prop) : P [] -> (forall a, P [a]) -> (forall a b, P [a; b]) -> (forall a b c l, P l -> P (a :: b :: c :: l)) -> forall l, P l.
Proof. intros H0 H1 H2 H3. fix F 1. intros [|a [|b [|c l]]]; [exact H0|apply H1|apply H2|apply H3; apply F]. Qed.
Lemma ind4 (P : list Z -> Prop) : P [] -> (forall a, P [a]) -> (forall a b, P [a; b]) -> (forall a b c, P [a; b; c]) -> (forall a b c d l, P l -> P (a :: b :: c :: d :: l)) -> forall l, P l.
Proof. intros H0 H1 H2 H3 H4. fix F 1. intros [|a [|b [|c [|d l]]]]; [exact H0|apply H1|apply H2|apply H3|apply H4; apply F]. Qed.
Ltac bytes := repeat match goal with H : bytes_ok (_ :: _) |- _ => inversion H; clear H; subst | H : Forall byte_ok (_ :: _) |- _ => inversion H; clear H; subst end.

Definition digits (s : list Z) : list Z := sextets (flat_map (bits 8) s).
Definition padding (s : list Z) : list Z := repeat 61 ((4 - length (map alphabet (digits s)) mod 4) mod 4).
Lemma digits3 a b c s : byte_ok a -> byte_ok b -> byte_ok c -> digits (a :: b :: c :: s) = a / 4 :: (a mod 4 * 16 + b / 16) :: (b mod 16 * 4 + c / 64) :: c mod 64 :: digits s.
Proof. intros. unfold digits. cbn [flat_map]. apply sextets3; auto. Qed.
Lemma digits2 a b : byte_ok a -> byte_ok b -> digits [a; b] = [a / 4; a mod 4 * 16 + b / 16; b mod 16 * 4].
Proof. intros. unfold digits. cbn [flat_map]. rewrite app_nil_r. apply sextets2; auto. Qed.
Lemma digits1 a : byte_ok a -> digits [a] = [a / 4; a mod 4 * 16].
Proof. intros. unfold digits. cbn [flat_map]. rewrite app_nil_r. apply sextets1; auto. Qed.
Lemma digits_six s : bytes_ok s -> Forall six (digits s).
Proof.
  induction s using ind3; intros Hs; bytes.
  - constructor.
  - rewrite digits1 by auto. unfold byte_ok, six in *. repeat constructor; lia.
  - rewrite digits2 by auto. unfold byte_ok, six in *. repeat constructor; lia.
  - rewrite digits3 by auto. unfold byte_ok in *. repeat (constructor; [unfold six; lia|]). auto.
Qed.
Lemma digits_len s : bytes_ok s -> len (digits s) = (len s * 4 + 2) / 3 /\ (length (digits s) mod 4 <> 1)%nat.
Proof.
  induction s using ind3; intros Hs; bytes.
  - split; [reflexivity|simpl; lia].
  - rewrite digits1 by auto. split; [reflexivity|simpl; lia].
  - rewrite digits2 by auto. split; [reflexivity|simpl; lia].
  - rewrite digits3 by auto. destruct IHs as (A & B); auto. split.
    + rewrite !len_cons, A. lia.
    + cbn [length]. lia.
Qed.
Lemma pad3 a b c s : byte_ok a -> byte_ok b -> byte_ok c -> padding (a :: b :: c :: s) = padding s.
Proof.
  intros. unfold padding. rewrite digits3 by auto. f_equal. rewrite !map_length. cbn [length]. set (n := length (digits s)). replace (Datatypes.S (Datatypes.S (Datatypes.S (Datatypes.S n)))) with (n + 1 * 4)%nat by lia. rewrite Nat.mod_add by lia. auto.
Qed.
Lemma enc64_ok pad s : bytes_ok s -> enc64 pad s = base64 pad s.
Proof.
  assert (E : forall s, base64 pad s = map alphabet (digits s) ++ (if pad then padding s else [])) by reflexivity. rewrite E. clear E.
  induction s using ind3; intros Hs; bytes.
  - destruct pad; reflexivity.
  - unfold padding. rewrite digits1 by auto. cbn [enc64 map length]. cbv zeta. rewrite land63, !Z.shiftr_div_pow2, Z.shiftl_mul_pow2 by lia. change (2 ^ 18) with 262144. change (2 ^ 12) with 4096. change (2 ^ 16) with 65536. unfold byte_ok in *.
    rewrite (tab_ok (a * 65536 / 262144)), (tab_ok (a * 65536 / 4096 mod 64)) by (unfold six; lia). replace (a * 65536 / 262144) with (a / 4) by lia. replace (a * 65536 / 4096 mod 64) with (a mod 4 * 16) by lia. destruct pad; reflexivity.
  - unfold padding. rewrite digits2 by auto. cbn [enc64 map length]. cbv zeta. replace (Z.lor (Z.shiftl a 16) (Z.shiftl b 8)) with (a * 65536 + b * 256) by (rewrite <- (Z.lor_0_r (Z.lor (Z.shiftl a 16) (Z.shiftl b 8))), word3; unfold byte_ok; auto; lia).
    rewrite !land63, !Z.shiftr_div_pow2 by lia. change (2 ^ 18) with 262144. change (2 ^ 12) with 4096. change (2 ^ 6) with 64. unfold byte_ok in *. set (x := a * 65536 + b * 256).
    rewrite (tab_ok (x / 262144)), (tab_ok (x / 4096 mod 64)), (tab_ok (x / 64 mod 64)) by (unfold six, x; lia). replace (x / 262144) with (a / 4) by (unfold x; lia). replace (x / 4096 mod 64) with (a mod 4 * 16 + b / 16) by (unfold x; lia). replace (x / 64 mod 64) with (b mod 16 * 4) by (unfold x; lia). destruct pad; reflexivity.
  - rewrite digits3, pad3 by auto. cbn [enc64 map]. cbv zeta. rewrite word3 by auto. rewrite !land63, !Z.shiftr_div_pow2 by lia. change (2 ^ 18) with 262144. change (2 ^ 12) with 4096. change (2 ^ 6) with 64. unfold byte_ok in *. set (x := a * 65536 + b * 256 + c).
    rewrite (tab_ok (x / 262144)), (tab_ok (x / 4096 mod 64)), (tab_ok (x / 64 mod 64)), (tab_ok (x mod 64)) by (unfold six, x; lia). replace (x / 262144) with (a / 4) by (unfold x; lia). replace (x / 4096 mod 64) with (a mod 4 * 16 + b / 16) by (unfold x; lia). replace (x / 64 mod 64) with (b mod 16 * 4 + c / 64) by (unfold x; lia). replace (x mod 64) with (c mod 64) by (unfold x; lia).
    simpl app. rewrite IHs by auto. reflexivity.
Qed.
Lemma base64_len pad s : bytes_ok s -> len (base64 pad s) <= (len s + 2) * 4 / 3.
Proof.
  intros H. destruct (digits_len s H) as (A & B). unfold base64. fold (digits s). rewrite len_app, len_map, A. destruct pad; [|change (len (@nil Z)) with 0; lia].
  rewrite len_repeat, map_length. assert (L : Z.of_nat (length (digits s)) = (len s * 4 + 2) / 3) by exact A. set (n := length (digits s)) in *. pose proof (len_nonneg s). lia.
Qed.
Lemma encode_ok pad s : bytes_ok s -> (len s + 2) * 4 < 2 ^ 31 -> encode_base64 pad s = EOk (base64 pad s).
Proof.
  intros H L. unfold encode_base64. rewrite enc64_ok by auto. pose proof (base64_len pad s H). replace (2 ^ 31 <=? (len s + 2) * 4) with false by lia. replace ((len s + 2) * 4 / 3 <? len (base64 pad s)) with false by lia. auto.
Qed.

(* decoding *)
Lemma neg_bit x : 0 <= x < 2 ^ 32 -> neg32 x = Z.testbit x 31.
Proof.
  intros H. unfold neg32. destruct (Z.testbit x 31) eqn:E.
  - apply Z.testbit_true in E; lia.
  - apply Z.testbit_false in E; lia.
Qed.
Lemma lor32 a b : 0 <= a < 2 ^ 32 -> 0 <= b < 2 ^ 32 -> 0 <= Z.lor a b < 2 ^ 32.
Proof.
  intros Ha Hb. assert (0 <= Z.lor a b) by (apply Z.lor_nonneg; lia). split; auto. destruct (Z.eq_dec (Z.lor a b) 0) as [->|Hn]; [lia|]. apply Z.log2_lt_pow2; [lia|]. rewrite Z.log2_lor by lia.
  assert (forall x, 0 <= x < 2 ^ 32 -> Z.log2 x < 32). { intros x Hx. destruct (Z.eq_dec x 0) as [-> |]; [reflexivity|]. apply Z.log2_lt_pow2; lia. }
  pose proof (H0 a Ha). pose proof (H0 b Hb). lia.
Qed.
Lemma shl_range x k : 0 <= shl x k < 2 ^ 32.
Proof. unfold shl. apply Z.mod_pos_bound. lia. Qed.
Lemma sx_range c : 0 <= sx c < 2 ^ 32.
Proof. unfold sx. apply Z.mod_pos_bound. lia. Qed.
(* A digit shifted to its place: clear at bit 31 just when the character is one of the alphabet. *)
Lemma place c k : byte_ok c -> k = 18 \/ k = 12 \/ k = 6 \/ k = 0 -> match value c with Some v => six v /\ shl (sx c) k = v * 2 ^ k /\ Z.testbit (shl (sx c) k) 31 = false | None => Z.testbit (shl (sx c) k) 31 = true end.
Proof.
  intros H K. pose proof (sx_ok c H) as X. destruct (value c) as [v|].
  - destruct X as (Hv & ->). split; auto. assert (E : shl v k = v * 2 ^ k).
    { unfold shl. rewrite Z.shiftl_mul_pow2 by lia. apply Z.mod_small. unfold six in Hv. destruct K as [-> |[-> |[-> | ->]]]; lia. }
    split; auto. rewrite <- neg_bit by apply shl_range. rewrite E. unfold neg32, six in *. destruct K as [-> |[-> |[-> | ->]]]; lia.
  - rewrite X. destruct K as [-> |[-> |[-> | ->]]]; vm_compute; reflexivity.
Qed.
Lemma shl0 c : byte_ok c -> shl (sx c) 0 = sx c.
Proof. intros H. unfold shl. rewrite Z.shiftl_0_r. apply Z.mod_small. apply sx_range. Qed.
Lemma dword v w x y : six v -> six w -> six x -> six y -> Z.lor (Z.lor (Z.lor (v * 2 ^ 18) (w * 2 ^ 12)) (x * 2 ^ 6)) (y * 2 ^ 0) = v * 262144 + w * 4096 + x * 64 + y.
Proof.
  unfold six. intros. rewrite (lor_low v 18) by lia. replace (v * 2 ^ 18 + w * 2 ^ 12) with ((v * 64 + w) * 2 ^ 12) by lia. rewrite (lor_low _ 12) by lia.
  replace ((v * 64 + w) * 2 ^ 12 + x * 2 ^ 6) with ((v * 4096 + w * 64 + x) * 2 ^ 6) by lia. rewrite (lor_low _ 6) by lia. lia.
Qed.
Lemma values_len t vs : values t = Some vs -> length vs = length t.
Proof. revert vs. induction t as [|c t IH]; simpl; intros vs E; [inversion E; auto|]. destruct (value c); [|discriminate]. destruct (values t); inversion E; subst. simpl. rewrite IH; auto. Qed.
Lemma out8_ok x k : 0 <= k -> out8 x k = x / 2 ^ k mod 256.
Proof. intros. unfold out8. rewrite Z.shiftr_div_pow2 by auto. auto. Qed.

Lemma group c1 c2 c3 c4 : byte_ok c1 -> byte_ok c2 -> byte_ok c3 -> byte_ok c4 ->
  let x := Z.lor (Z.lor (Z.lor (shl (sx c1) 18) (shl (sx c2) 12)) (shl (sx c3) 6)) (sx c4) in
  match value c1, value c2, value c3, value c4 with
  | Some v1, Some v2, Some v3, Some v4 => six v1 /\ six v2 /\ six v3 /\ six v4 /\ neg32 x = false /\ x = v1 * 262144 + v2 * 4096 + v3 * 64 + v4
  | _, _, _, _ => neg32 x = true
  end.
Proof.
  intros H1 H2 H3 H4 x. assert (Hx : 0 <= x < 2 ^ 32) by (unfold x; repeat apply lor32; auto using shl_range, sx_range).
  pose proof (place c1 18 H1 ltac:(auto)) as P1. pose proof (place c2 12 H2 ltac:(auto)) as P2. pose proof (place c3 6 H3 ltac:(auto)) as P3. pose proof (place c4 0 H4 ltac:(auto)) as P4. rewrite shl0 in P4 by auto.
  rewrite neg_bit by auto. unfold x. rewrite !Z.lor_spec. destruct (value c1) as [v1|]; [|rewrite P1; auto]. destruct P1 as (S1 & E1 & B1). rewrite B1.
  destruct (value c2) as [v2|]; [|rewrite P2; auto]. destruct P2 as (S2 & E2 & B2). rewrite B2.
  destruct (value c3) as [v3|]; [|rewrite P3; auto]. destruct P3 as (S3 & E3 & B3). rewrite B3.
  destruct (value c4) as [v4|]; [|rewrite P4; auto]. destruct P4 as (S4 & E4 & B4). rewrite B4.
  rewrite E1, E2, E3, E4, dword by auto. auto 10.
Qed.
(* A missing digit counts as A, the digit 0. *)
Lemma sx65 : sx 65 = 0 /\ shl (sx 65) 6 = 0 /\ value 65 = Some 0. Proof. repeat split. Qed.
Lemma dec64_ok t : bytes_ok t -> dec64 t = unbase64 t.
Proof.
  unfold unbase64. assert (H65 : byte_ok 65) by (unfold byte_ok; lia). destruct sx65 as (Z0 & Z6 & Z1). induction t using ind4; intros Ht; bytes.
  - reflexivity.
  - cbn [dec64 values]. destruct (value a); reflexivity.
  - cbn [dec64 values]. cbv zeta. pose proof (group a b 65 65 ltac:(auto) ltac:(auto) H65 H65) as G. cbv zeta in G. rewrite Z6, Z0, Z1, !Z.lor_0_r in G. rewrite Z.lor_0_r.
    set (x := Z.lor (shl (sx a) 18) (shl (sx b) 12)) in *. destruct (value a) as [v1|]; [|rewrite G; auto]. destruct (value b) as [v2|]; [|rewrite G; auto]. destruct G as (S1 & S2 & _ & _ & -> & Ex).
    cbn [length flat_map]. change (2 mod 4 =? 1)%nat with false. cbv iota. rewrite app_nil_r, octets2 by auto. rewrite out8_ok by lia. unfold six in *. change (2 ^ 16) with 65536. rewrite Ex. do 2 f_equal. lia.
  - cbn [dec64 values]. cbv zeta. pose proof (group a b c 65 ltac:(auto) ltac:(auto) ltac:(auto) H65) as G. cbv zeta in G. rewrite Z0, Z1, !Z.lor_0_r in G.
    set (x := Z.lor (Z.lor (shl (sx a) 18) (shl (sx b) 12)) (shl (sx c) 6)) in *. destruct (value a) as [v1|]; [|rewrite G; auto]. destruct (value b) as [v2|]; [|rewrite G; auto]. destruct (value c) as [v3|]; [|rewrite G; auto]. destruct G as (S1 & S2 & S3 & _ & -> & Ex).
    cbn [length flat_map]. change (3 mod 4 =? 1)%nat with false. cbv iota. rewrite app_nil_r, octets3 by auto. rewrite !out8_ok by lia. unfold six in *. change (2 ^ 16) with 65536. change (2 ^ 8) with 256. rewrite Ex. do 2 f_equal; [|f_equal]; lia.
  - cbn [dec64 values]. cbv zeta. pose proof (group a b c d ltac:(auto) ltac:(auto) ltac:(auto) ltac:(auto)) as G. cbv zeta in G.
    set (x := Z.lor (Z.lor (Z.lor (shl (sx a) 18) (shl (sx b) 12)) (shl (sx c) 6)) (sx d)) in *. destruct (value a) as [v1|]; [|rewrite G; auto]. destruct (value b) as [v2|]; [|rewrite G; auto]. destruct (value c) as [v3|]; [|rewrite G; auto]. destruct (value d) as [v4|]; [|rewrite G; auto].
    destruct G as (S1 & S2 & S3 & S4 & -> & Ex). rewrite IHt by auto. destruct (values t) as [vs|]; auto.
    cbn [length flat_map]. replace (Datatypes.S (Datatypes.S (Datatypes.S (Datatypes.S (length vs)))) mod 4 =? 1)%nat with (length vs mod 4 =? 1)%nat by (f_equal; replace (Datatypes.S (Datatypes.S (Datatypes.S (Datatypes.S (length vs))))) with (length vs + 1 * 4)%nat by lia; rewrite Nat.mod_add by lia; auto).
    destruct (length vs mod 4 =? 1)%nat; auto. rewrite octets4 by auto. rewrite !out8_ok by lia. unfold six in *. change (2 ^ 16) with 65536. change (2 ^ 8) with 256. change (2 ^ 0) with 1. rewrite Ex. do 2 f_equal; [|f_equal; [|f_equal]]; lia.
Qed.
