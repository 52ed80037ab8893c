(* natural_compare orders numbers behind the same text by their values. *)
From Verif Require Import Lib M_Natcmp Spec_Natcmp P_Natcmp.

Lemma digit_is x : digit x -> isdigit x = true.
Proof. unfold digit, isdigit. lia. Qed.
Lemma value_bound l : Forall digit l -> 0 <= value l < 10 ^ len l.
Proof.
  induction 1 as [|x l H _ IH]; [simpl; lia|]. rewrite len_cons. cbn [value]. pose proof (len_nonneg l). rewrite Z.pow_add_r by lia. change (10 ^ 1) with 10. unfold digit in H. nia.
Qed.
Lemma zeros_digits l : Forall digit l -> Forall digit (snd (zeros l)) /\ value (snd (zeros l)) = value l /\ len l = fst (zeros l) + len (snd (zeros l)) /\ match snd (zeros l) with [] => True | x :: _ => 49 <= x end.
Proof.
  induction 1 as [|x l H Hl IH]; [cbn; auto|]. cbn [zeros]. destruct (x =? 48) eqn:E; cbn [fst snd].
  - destruct IH as (I1 & I2 & I3 & I4). split; auto. split; [rewrite I2; cbn [value]; replace (x - 48) with 0 by lia; lia|]. split; auto. rewrite len_cons. lia.
  - split; [constructor; auto|]. split; auto. split; [lia|]. unfold digit in H. lia.
Qed.
Lemma value_len a b : Forall digit a -> Forall digit b -> match b with [] => True | x :: _ => 49 <= x end -> len a < len b -> value a < value b.
Proof.
  intros Ha Hb H L. destruct b as [|x b]; [pose proof (len_nonneg a); change (len (@nil Z)) with 0 in L; lia|]. apply value_bound in Ha. inversion Hb as [|y l H1 H2 E]; subst. apply value_bound in H2. rewrite len_cons in L. cbn [value].
  pose proof (len_nonneg a). assert (10 ^ len a <= 10 ^ len b) by (apply Z.pow_le_mono_r; lia). nia.
Qed.
Lemma walk_digits a : forall dc b, Forall digit a -> Forall digit b ->
  dig (fst (snd (walk dc a b))) = (len b <? len a) /\ dig (snd (snd (walk dc a b))) = (len a <? len b) /\
  (len a = len b -> Z.sgn (fst (walk dc a b)) = Z.sgn (if dc =? 0 then value a - value b else dc) /\ fst (snd (walk dc a b)) = [] /\ snd (snd (walk dc a b)) = []).
Proof.
  induction a as [|x a IH]; intros dc [|y b] Ha Hb; cbn [walk fst snd dig value]; rewrite ?len_cons; change (len (@nil Z)) with 0.
  - repeat split; auto. destruct (dc =? 0) eqn:E; [replace dc with 0 by lia; reflexivity|reflexivity].
  - inversion Hb; subst. rewrite digit_is by auto. pose proof (len_nonneg b). split; [lia|]. split; [lia|]. intros; lia.
  - inversion Ha; subst. rewrite digit_is by auto. pose proof (len_nonneg a). split; [lia|]. split; [lia|]. intros; lia.
  - inversion Ha as [|? ? Hx Ha']; inversion Hb as [|? ? Hy Hb']; subst. rewrite !digit_is by auto. cbn [andb]. destruct (IH (if dc =? 0 then x - y else dc) b Ha' Hb') as (I1 & I2 & I3). rewrite I1, I2. split; [lia|]. split; [lia|].
    intros L. destruct I3 as (I3 & I4 & I5); [lia|]. split; [|auto]. rewrite I3. destruct (dc =? 0) eqn:E; [|rewrite E; auto]. assert (El : len a = len b) by lia. apply value_bound in Ha'. apply value_bound in Hb'. rewrite El in *. unfold digit in *.
    destruct (x - y =? 0) eqn:F; [replace x with y by lia; f_equal; lia|]. set (P := 10 ^ len b) in *. destruct (Z.lt_ge_cases x y).
    + rewrite (Z.sgn_neg (x - y)) by lia. symmetry. apply Z.sgn_neg. nia.
    + rewrite (Z.sgn_pos (x - y)) by lia. symmetry. apply Z.sgn_pos. nia.
Qed.
Lemma numbers_value rep neg apn a b : Forall digit a -> Forall digit b ->
  match numbers rep false neg apn a b with
  | Ret z => z < 0 <-> (value a < value b /\ neg = false \/ value b < value a /\ neg = true \/ value a = value b /\ len a < len b)
  | Cont a2 b2 _ => a2 = [] /\ b2 = [] /\ value a = value b /\ len a = len b
  end.
Proof.
  intros Ha Hb. unfold numbers. cbv zeta. cbn [andb]. destruct (zeros_digits a Ha) as (A1 & A2 & A3 & A4). destruct (zeros_digits b Hb) as (B1 & B2 & B3 & B4).
  set (a1 := snd (zeros a)) in *. set (b1 := snd (zeros b)) in *. destruct (walk_digits a1 0 b1 A1 B1) as (W1 & W2 & W3). set (w := walk 0 a1 b1) in *. rewrite W1, W2. change (0 =? 0) with true in W3. cbv iota in W3. rewrite <- A2, <- B2.
  destruct (Z.lt_trichotomy (len a1) (len b1)) as [L|[L|L]].
  - pose proof (value_len a1 b1 A1 B1 B4 L). replace (len b1 <? len a1) with false by lia. replace (len a1 <? len b1) with true by lia. cbn [Bool.eqb negb]. destruct neg; cbn; split; intros; try lia; intuition (try discriminate; lia).
  - destruct (W3 L) as (S1 & S2 & S3). replace (len b1 <? len a1) with false by lia. replace (len a1 <? len b1) with false by lia. cbn [Bool.eqb negb]. destruct (fst w =? 0) eqn:E; cbn [negb].
    + assert (V : value a1 = value b1) by (replace (fst w) with 0 in S1 by lia; change (Z.sgn 0) with 0 in S1; symmetry in S1; apply Z.sgn_null_iff in S1; lia).
      destruct (fst (zeros a) - fst (zeros b) =? 0) eqn:F; cbn [negb]; [repeat split; auto; lia|]. split; intros; [right; right; lia|]. intuition lia.
    + destruct (0 <? fst w) eqn:G; [rewrite (Z.sgn_pos (fst w)) in S1 by lia; symmetry in S1; apply Z.sgn_pos_iff in S1|rewrite (Z.sgn_neg (fst w)) in S1 by lia; symmetry in S1; apply Z.sgn_neg_iff in S1]; destruct neg; cbn; split; intros; try lia; intuition (try discriminate; lia).
  - pose proof (value_len b1 a1 B1 A1 A4 L). replace (len b1 <? len a1) with true by lia. replace (len a1 <? len b1) with false by lia. cbn [Bool.eqb negb]. destruct neg; cbn; split; intros; try lia; intuition (try discriminate; lia).
Qed.
Lemma minus_signed p : minus (rev p) = true <-> signed p.
Proof.
  unfold signed. destruct p as [|y p] using rev_ind; [simpl; split; [discriminate|]; intros [C|(q & c & C & _)]; [discriminate|destruct q; discriminate]|]. clear IHp. rewrite rev_app_distr. destruct p as [|c p] using rev_ind; [|clear IHp; rewrite rev_app_distr]; simpl.
  - rewrite andb_true_r. split; [intros H; left; f_equal; lia|]. intros [C|(q & c & C & _)]; [injection C as ->; auto|]. apply (f_equal (@length Z)) in C. rewrite app_length in C. simpl in C. lia.
  - split.
    + intros H. apply andb_true_iff in H. destruct H as (H1 & H2). right. exists p, c. split; [rewrite <- app_assoc; simpl; repeat f_equal; lia|]. unfold isspace in H2. lia.
    + intros [C|(q & d & C & H)]; [apply (f_equal (@length Z)) in C; rewrite !app_length in C; simpl in C; lia|]. change [d; 45] with ([d] ++ [45]) in C. rewrite app_assoc in C. apply app_inj_tail in C. destruct C as (C & ->). apply app_inj_tail in C. destruct C as (_ & ->). unfold isspace. simpl. lia.
Qed.
Lemma prefix rep p : forall f q a b apn, Forall (fun x => ~ digit x) p -> nloop rep (length p + f) q (p ++ a) (p ++ b) None apn 0 = nloop rep f (rev p ++ q) a b None apn 0.
Proof.
  induction p as [|x p IH]; intros f q a b apn H; auto. inversion H as [|? ? H1 H2]; subst. cbn [length Nat.add app nloop]. assert (E : isdigit x = false) by (unfold digit in H1; unfold isdigit; lia). rewrite E. cbn [andb]. rewrite Z.eqb_refl. cbn [negb]. rewrite Z.sub_diag. change (0 =? 0) with true. cbv iota.
  replace (if x =? 46 then None else None) with (@None nat) by (destruct (x =? 46); auto). rewrite IH by auto. simpl. rewrite <- app_assoc. auto.
Qed.
Lemma compare_numbers rep p a b z : Forall (fun x => ~ digit x) p -> number a -> number b -> natural_compare rep (p ++ a) (p ++ b) = Some z -> (z < 0 <-> number_before p a b).
Proof.
  intros Hp (Na & Ha) (Nb & Hb). unfold natural_compare. rewrite app_length. replace (Datatypes.S (length p + length a)) with (length p + Datatypes.S (length a))%nat by lia. rewrite prefix by auto. rewrite app_nil_r.
  pose proof (numbers_value rep (minus (rev p)) false a b Ha Hb) as K. unfold number_before. pose proof (minus_signed p) as M. destruct a as [|x a], b as [|y b]; try contradiction. cbn [nloop].
  assert (Ex : isdigit x = true) by (inversion Ha; apply digit_is; auto). assert (Ey : isdigit y = true) by (inversion Hb; apply digit_is; auto). rewrite Ex, Ey. cbn [andb].
  destruct (numbers rep false (minus (rev p)) false (x :: a) (y :: b)) as [w|a2 b2 n] eqn:N.
  - intros E. injection E as <-. rewrite K, <- M. destruct (minus (rev p)); intuition congruence.
  - destruct K as (-> & -> & V & L). intros E. cbn in E. injection E as <-. split; intros; [lia|]. intuition lia.
Qed.
Lemma cycle_digits : exists a b c, Forall (fun x => digit x \/ x = 46) (a ++ b ++ c) /\ below true a b /\ below true b c /\ below true c a.
Proof. eexists _, _, _. split; [|exact cycle_dots]. unfold digit. repeat constructor; lia. Qed.
