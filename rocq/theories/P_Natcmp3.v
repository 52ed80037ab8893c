(* natural_compare on texts without digits and on fractions. *)
From Verif Require Import Lib M_Natcmp Spec_Natcmp P_Natcmp P_Natcmp2.

Lemma lower_is x : tolower x = lower x.
Proof. reflexivity. Qed.
Lemma text_loop rep a : forall f q b raw apn z, Forall (fun x => ~ digit x) a -> Forall (fun x => ~ digit x) b ->
  nloop rep f q a b None apn raw = Some z -> (z < 0 <-> lexlt (map lower a) (map lower b) \/ map lower a = map lower b /\ (raw < 0 \/ raw = 0 /\ lexlt a b)).
Proof.
  induction a as [|x a IH]; intros [|f] q b raw apn z Ha Hb H; try discriminate; destruct b as [|y b]; cbn [nloop] in H.
  - apply (f_equal (fun o => match o with Some v => v | None => 1 end)) in H. cbn in H. subst z. simpl. intuition lia.
  - rewrite len_cons in H. change (len (@nil Z)) with 0 in H. pose proof (len_nonneg b). match type of H with context [?c =? 0] => replace (c =? 0) with false in H by lia end. assert (z < 0) by (match type of H with Some ?d = Some z => assert (d = z) by congruence end; lia). clear H. cbn [map lexlt]. split; [auto|lia].
  - rewrite len_cons in H. change (len (@nil Z)) with 0 in H. pose proof (len_nonneg a). match type of H with context [?c =? 0] => replace (c =? 0) with false in H by lia end. assert (0 < z) by (match type of H with Some ?d = Some z => assert (d = z) by congruence end; lia). clear H. cbn [map lexlt]. split; [lia|]. intros [C|(C & _)]; [contradiction|discriminate].
  - inversion Ha as [|? ? Hx Ha']; inversion Hb as [|? ? Hy Hb']; subst. assert (Ex : isdigit x = false) by (unfold digit in Hx; unfold isdigit; lia). assert (Ey : isdigit y = false) by (unfold digit in Hy; unfold isdigit; lia). rewrite Ex, Ey in H. cbn [andb] in H. rewrite (lower_is x), (lower_is y) in H. cbn [map lexlt].
    destruct (lower x =? lower y) eqn:E; cbn [negb] in H.
    + replace (if x =? 46 then None else None) with (@None nat) in H by (destruct (x =? 46); auto). apply IH in H; auto. rewrite H. assert (E' : lower x = lower y) by lia. rewrite E'. split.
      * intros [C|(C & D)]; [left; right; auto|]. right. split; [congruence|]. destruct (raw =? 0) eqn:F; [|lia]. right. split; [lia|]. destruct D as [D|(D & D')]; [left; lia|right; split; [lia|auto]].
      * intros [[C|(_ & C)]|(C & D)]; [lia|auto|]. right. split; [congruence|]. destruct (raw =? 0) eqn:F; [|left; lia]. destruct D as [D|(_ & [D|(D & D')])]; [lia|left; lia|right; split; [lia|auto]].
    + injection H as <-. split; [intros; left; left; lia|]. intros [[C|(C & _)]|(C & _)]; [lia|lia|]. injection C as C _. lia.
Qed.
Lemma compare_text rep a b z : Forall (fun x => ~ digit x) a -> Forall (fun x => ~ digit x) b -> natural_compare rep a b = Some z -> (z < 0 <-> text_before a b).
Proof. intros Ha Hb H. apply text_loop in H; auto. rewrite H. unfold text_before. intuition lia. Qed.

Lemma lead_zeros l : fst (zeros l) = Z.of_nat (lead l).
Proof. induction l as [|x l IH]; auto. cbn [zeros lead]. destruct (x =? 48); cbn [fst]; lia. Qed.
Lemma walk_rest a : forall dc b, Forall digit a -> Forall digit b -> Forall digit (fst (snd (walk dc a b))) /\ Forall digit (snd (snd (walk dc a b))).
Proof. induction a as [|x a IH]; intros dc [|y b] Ha Hb; cbn [walk fst snd]; auto. destruct (isdigit x && isdigit y); auto. inversion Ha; inversion Hb; subst. auto. Qed.
Lemma ip_digits a : Forall digit a -> ip a = false.
Proof. induction 1; auto. cbn [ip]. rewrite digit_is by auto. auto. Qed.
Definition dif (a b : list Z) : Z := value a * 10 ^ len b - value b * 10 ^ len a.
Lemma dif_cons x a y b : dif (x :: a) (y :: b) = 10 * ((x - y) * (10 ^ len a * 10 ^ len b) + dif a b).
Proof. unfold dif. cbn [value]. rewrite !len_cons. pose proof (len_nonneg a). pose proof (len_nonneg b). rewrite !Z.pow_add_r by lia. change (10 ^ 1) with 10. ring. Qed.
Lemma dif_bound a b : Forall digit a -> Forall digit b -> - (10 ^ len a * 10 ^ len b) < dif a b < 10 ^ len a * 10 ^ len b.
Proof. intros Ha Hb. apply value_bound in Ha. apply value_bound in Hb. unfold dif. set (A := 10 ^ len a) in *. set (B := 10 ^ len b) in *. nia. Qed.
Lemma walk_frac a : forall b, Forall digit a -> Forall digit b ->
  (fst (walk 0 a b) <> 0 -> Z.sgn (fst (walk 0 a b)) = Z.sgn (dif a b)) /\
  (fst (walk 0 a b) = 0 -> (len a <= len b -> dif a b <= 0) /\ (len b <= len a -> 0 <= dif a b)).
Proof.
  induction a as [|x a IH]; intros [|y b] Ha Hb.
  - cbn. split; lia.
  - cbn [walk fst]. split; [lia|]. intros _. apply value_bound in Hb. unfold dif. rewrite len_cons. change (len (@nil Z)) with 0. pose proof (len_nonneg b). cbn [value] in *. split; intros; [lia|lia].
  - cbn [walk fst]. split; [lia|]. intros _. apply value_bound in Ha. unfold dif. rewrite len_cons. change (len (@nil Z)) with 0. pose proof (len_nonneg a). cbn [value] in *. split; intros; [lia|lia].
  - inversion Ha as [|? ? Hx Ha']; inversion Hb as [|? ? Hy Hb']; subst. cbn [walk]. rewrite !digit_is by auto. cbn [andb]. change (0 =? 0) with true. cbv iota. rewrite dif_cons, !len_cons. destruct (Z.eq_dec x y) as [->|Ne].
    + rewrite Z.sub_diag. destruct (IH b Ha' Hb') as (I1 & I2). split.
      * intros H. rewrite I1 by auto. rewrite Z.sgn_mul. change (Z.sgn 10) with 1. rewrite Z.mul_1_l. f_equal. 
      * intros H. destruct (I2 H) as (J1 & J2). split; intros; [specialize (J1 ltac:(lia))|specialize (J2 ltac:(lia))]; lia.
    + rewrite walk_keep by lia. split; [|lia]. intros _. pose proof (dif_bound a b Ha' Hb') as B. set (P := 10 ^ len a * 10 ^ len b) in *. destruct (Z.lt_ge_cases x y).
      * rewrite !Z.sgn_neg; auto; nia.
      * rewrite !Z.sgn_pos; auto; nia.
Qed.
Lemma dif_zeros a b a1 b1 k : 0 <= k -> value a1 = value a -> value b1 = value b -> len a = k + len a1 -> len b = k + len b1 -> dif a b = 10 ^ k * dif a1 b1.
Proof. intros H E1 E2 L1 L2. unfold dif. rewrite E1, E2, L1, L2. pose proof (len_nonneg a1). pose proof (len_nonneg b1). rewrite !Z.pow_add_r by lia. ring. Qed.
Lemma more_zeros a b a1 b1 k m : Forall digit a1 -> Forall digit b1 -> match b1 with [] => True | x :: _ => 49 <= x end -> value a1 = value a -> value b1 = value b -> value b <> 0 -> 0 <= m < k -> len a = k + len a1 -> len b = m + len b1 -> dif a b < 0.
Proof.
  intros Ha Hb H E1 E2 V K L1 L2. unfold dif. rewrite <- E1, <- E2, L1, L2. rewrite <- E2 in V. apply value_bound in Ha. destruct b1 as [|y b1]; [cbn in V; lia|]. inversion Hb as [|? ? Hy Hb']; subst. apply value_bound in Hb'. cbn [value]. rewrite len_cons. pose proof (len_nonneg a1). pose proof (len_nonneg b1).
  rewrite !Z.pow_add_r by lia. change (10 ^ 1) with 10. set (A := 10 ^ len a1) in *. set (B := 10 ^ len b1) in *. replace k with ((k - m - 1) + 1 + m) by lia. rewrite !Z.pow_add_r by lia. change (10 ^ 1) with 10. set (M := 10 ^ m). set (N := 10 ^ (k - m - 1)). assert (0 < M) by (apply Z.pow_pos_nonneg; lia). assert (0 < N) by (apply Z.pow_pos_nonneg; lia). assert (0 < B) by (apply Z.pow_pos_nonneg; lia). assert (0 < A) by (apply Z.pow_pos_nonneg; lia).
  set (va := value a1) in *. set (vb := value b1) in *. assert (Q1 : B <= (y - 48) * B + vb) by nia. set (W := (y - 48) * B + vb) in *. replace (va * (M * (10 * B)) - W * (N * 10 * M * A)) with (10 * M * (va * B - W * (N * A))) by ring. assert (va * B < W * (N * A)); [|nia]. apply Z.lt_le_trans with (A * B); [nia|]. apply Z.le_trans with (W * A); [nia|]. assert (0 <= W * A) by nia. nia.
Qed.
Lemma numbers_frac rep ng neg f g : Forall digit f -> Forall digit g -> value f <> 0 -> value g <> 0 -> rep = true \/ lead f = lead g ->
  match numbers rep true ng neg f g with
  | Ret z => z < 0 <-> (neg = false /\ (dif f g < 0 \/ dif f g = 0 /\ len f < len g) \/ neg = true /\ (0 < dif f g \/ dif f g = 0 /\ len g < len f))
  | Cont a2 b2 _ => a2 = [] /\ b2 = [] /\ dif f g = 0 /\ len f = len g
  end.
Proof.
  intros Ha Hb Vf Vg Hr. unfold numbers. cbv zeta. destruct (zeros_digits f Ha) as (A1 & A2 & A3 & A4). destruct (zeros_digits g Hb) as (B1 & B2 & B3 & B4). destruct (zeros_app f) as (Pf & _). destruct (zeros_app g) as (Pg & _).
  assert (Hr' : rep = true \/ fst (zeros f) = fst (zeros g)) by (rewrite !lead_zeros; intuition lia).
  set (a1 := snd (zeros f)) in *. set (b1 := snd (zeros g)) in *. destruct (walk_digits a1 0 b1 A1 B1) as (W1 & W2 & W3). destruct (walk_frac a1 b1 A1 B1) as (F1 & F2). destruct (walk_rest a1 0 b1 A1 B1) as (R1 & R2). set (w := walk 0 a1 b1) in *. rewrite !ip_digits by auto. rewrite W1, W2. cbn [negb andb].
  destruct (fst (zeros f) - fst (zeros g) =? 0) eqn:E; cbn [negb].
  - pose proof (dif_zeros f g a1 b1 (fst (zeros f)) Pf A2 B2 A3 ltac:(lia)) as D. assert (0 < 10 ^ fst (zeros f)) by (apply Z.pow_pos_nonneg; lia). set (T := 10 ^ fst (zeros f)) in *.
    assert (Ds : Z.sgn (dif f g) = Z.sgn (dif a1 b1)) by (rewrite D, Z.sgn_mul, (Z.sgn_pos T) by auto; lia). assert (L : len f - len g = len a1 - len b1) by lia. clear D.
    destruct (fst w =? 0) eqn:G; cbn [negb].
    + destruct F2 as (G1 & G2); [lia|]. destruct (Z.lt_trichotomy (len a1) (len b1)) as [C|[C|C]].
      * replace (len b1 <? len a1) with false by lia. replace (len a1 <? len b1) with true by lia. cbn [Bool.eqb negb]. assert (dif f g <= 0) by (specialize (G1 ltac:(lia)); lia). destruct neg; cbn; split; intros; try lia; intuition (try discriminate; lia).
      * replace (len b1 <? len a1) with false by lia. replace (len a1 <? len b1) with false by lia. cbn [Bool.eqb negb]. destruct (W3 C) as (_ & S2 & S3). split; auto. split; auto. split; [specialize (G1 ltac:(lia)); specialize (G2 ltac:(lia)); lia|lia].
      * replace (len b1 <? len a1) with true by lia. replace (len a1 <? len b1) with false by lia. cbn [Bool.eqb negb]. assert (0 <= dif f g) by (specialize (G2 ltac:(lia)); lia). destruct neg; cbn; split; intros; try lia; intuition (try discriminate; lia).
    + rewrite Bool.eqb_reflx. cbn [negb]. specialize (F1 ltac:(lia)). destruct (0 <? fst w) eqn:K; destruct neg; cbn; split; intros; try lia; intuition (try discriminate; lia).
  - destruct Hr' as [->|C]; [|lia]. destruct (0 <? fst (zeros f) - fst (zeros g)) eqn:K.
    + pose proof (more_zeros f g a1 b1 (fst (zeros f)) (fst (zeros g)) A1 B1 B4 A2 B2 Vg ltac:(lia) A3 B3). destruct neg; cbn; split; intros; try lia; intuition (try discriminate; lia).
    + pose proof (more_zeros g f b1 a1 (fst (zeros g)) (fst (zeros f)) B1 A1 A4 B2 A2 Vf ltac:(lia) B3 A3) as D. assert (0 < dif f g) by (unfold dif in *; lia). destruct neg; cbn; split; intros; try lia; intuition (try discriminate; lia).
Qed.
Lemma zeros_tail i r : Forall digit i -> zeros (i ++ 46 :: r) = (fst (zeros i), snd (zeros i) ++ 46 :: r).
Proof. induction 1 as [|x i H _ IH]; auto. cbn [app zeros]. destruct (x =? 48); auto. rewrite IH. auto. Qed.
Lemma walk_tail i r s : Forall digit i -> walk 0 (i ++ 46 :: r) (i ++ 46 :: s) = (0, (46 :: r, 46 :: s)).
Proof. induction 1 as [|x i H _ IH]; auto. cbn [app walk]. rewrite digit_is by auto. cbn [andb]. rewrite Z.sub_diag. auto. Qed.
Lemma numbers_tail rep neg apn i r s : Forall digit i -> numbers rep false neg apn (i ++ 46 :: r) (i ++ 46 :: s) = Cont (46 :: r) (46 :: s) neg.
Proof. intros H. unfold numbers. rewrite !zeros_tail by auto. cbn [fst snd]. rewrite walk_tail by (apply zeros_digits; auto). cbv zeta. cbn [fst snd andb]. rewrite Z.sub_diag. reflexivity. Qed.
Lemma compare_fractions rep p i f g z : Forall (fun x => ~ digit x) p -> number i -> number f -> number g -> value f <> 0 -> value g <> 0 -> rep = true \/ lead f = lead g ->
  natural_compare rep (p ++ i ++ [46] ++ f) (p ++ i ++ [46] ++ g) = Some z -> (z < 0 <-> fraction_before p f g).
Proof.
  intros Hp (Ni & Hi) (Nf & Hf) (Ng & Hg) Vf Vg Hr. cbn [app]. intros H. unfold natural_compare in H. apply (nloop_le rep _ (length p + (3 + length (i ++ 46 :: f)))) in H; [|rewrite !app_length; simpl; lia]. rewrite prefix in H by auto. rewrite app_nil_r in H.
  destruct i as [|x i]; [contradiction|]. assert (Ex : isdigit x = true) by (inversion Hi; apply digit_is; auto). cbn [Nat.add] in H. remember (Datatypes.S (Datatypes.S (length ((x :: i) ++ 46 :: f)))) as F eqn:EF. pose proof (numbers_tail rep (minus (rev p)) false (x :: i) f g Hi) as N1. cbn [app] in *. cbn [nloop] in H. rewrite Ex in H. cbn [andb] in H. rewrite N1 in H.
  change (x :: i ++ 46 :: f) with ((x :: i) ++ 46 :: f) in H. rewrite firstn_pre in H. set (p2 := rev (x :: i) ++ rev p) in *. cbn [frac] in H. change (46 =? 46) with true in H. cbn [andb] in H.
  assert (Df : dig f = true) by (destruct f; [contradiction|inversion Hf; apply digit_is; auto]). assert (Dg : dig g = true) by (destruct g; [contradiction|inversion Hg; apply digit_is; auto]). rewrite Df, Dg in H. cbn [Bool.eqb negb] in H.
  rewrite EF in H. cbn [nloop] in H. change (isdigit 46) with false in H. cbn [andb] in H. rewrite Z.eqb_refl in H. cbn [negb] in H. change (46 =? 46) with true in H. change (0 =? 0) with true in H. change (46 - 46) with 0 in H. cbv iota in H. cbn [nloop] in H.
  destruct f as [|u f]; [contradiction|]. destruct g as [|v g]; [contradiction|]. cbn [dig] in Df, Dg. rewrite Df, Dg in H. cbn [andb length] in H. replace (length p2 + 1)%nat with (Datatypes.S (length p2)) in H by lia. rewrite Nat.eqb_refl in H.
  pose proof (numbers_frac rep (minus (46 :: p2)) (minus (rev p)) (u :: f) (v :: g) Hf Hg Vf Vg Hr) as K. unfold fraction_before, frac_lt, frac_eq. pose proof (minus_signed p) as M. unfold dif in K.
  destruct (numbers rep true (minus (46 :: p2)) (minus (rev p)) (u :: f) (v :: g)) as [w|a2 b2 n] eqn:N.
  - injection H as <-. rewrite K, <- M. destruct (minus (rev p)); split; intros Q; intuition (try discriminate; try congruence; try lia).
  - destruct K as (-> & -> & V & L). rewrite app_length in H. simpl length in H. rewrite Nat.add_succ_r in H. cbn in H. injection H as <-. split; intros; [lia|]. intuition lia.
Qed.
Lemma fraction_wrong rep : exists f g, number f /\ number g /\ frac_lt g f /\ below rep ([49; 46] ++ f) ([49; 46] ++ g).
Proof. exists [48; 48; 49], [48]. unfold number, digit, frac_lt. split; [split; [discriminate|repeat constructor; lia]|]. split; [split; [discriminate|repeat constructor; lia]|]. split; [cbn; lia|]. exists (-1). split; [destruct rep; reflexivity|lia]. Qed.
