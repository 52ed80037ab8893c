(* natural_compare on the parts of IP addresses and versions. *)
From Verif Require Import Lib M_Natcmp Spec_Natcmp P_Natcmp P_Natcmp2 P_Natcmp3.

Lemma zeros_then i t : Forall digit i -> dig t = false -> zeros (i ++ t) = (fst (zeros i), snd (zeros i) ++ t).
Proof.
  intros H Ht. induction H as [|x i H _ IH]; cbn [app zeros].
  - destruct t as [|x t]; auto. cbn [dig] in Ht. unfold isdigit in Ht. cbn [zeros]. replace (x =? 48) with false by lia. auto.
  - destruct (x =? 48); auto. rewrite IH. auto.
Qed.
Lemma walk_then a : forall dc b t u, Forall digit a -> Forall digit b -> dig t = false -> dig u = false ->
  walk dc (a ++ t) (b ++ u) = (fst (walk dc a b), (fst (snd (walk dc a b)) ++ t, snd (snd (walk dc a b)) ++ u)).
Proof.
  induction a as [|x a IH]; intros dc [|y b] t u Ha Hb Ht Hu; cbn [app walk fst snd].
  - destruct t as [|v t], u as [|w u]; auto. cbn [dig walk] in *. rewrite Ht. auto.
  - destruct t as [|v t]; auto. cbn [dig walk] in *. rewrite Ht. auto.
  - destruct u as [|w u]; auto. cbn [dig walk] in *. rewrite Hu, andb_false_r. auto.
  - inversion Ha; inversion Hb; subst. rewrite !digit_is by auto. cbn [andb]. apply IH; auto.
Qed.
Lemma dig_then l t : dig t = false -> dig (l ++ t) = dig l.
Proof. destruct l; auto. Qed.
Lemma ip_then l c r : Forall digit l -> isspace c = false -> ip (l ++ 46 :: c :: r) = true.
Proof. intros H Hc. induction H as [|x l H _ IH]; cbn [app ip]; [change (isdigit 46) with false; change (46 =? 46) with true; rewrite Hc; auto|]. rewrite digit_is by auto. auto. Qed.
Lemma numbers_then rep pd neg apn f g t u z : Forall digit f -> Forall digit g -> dig t = false -> dig u = false ->
  (pd = false \/ exists c r, isspace c = false /\ (t = 46 :: c :: r \/ u = 46 :: c :: r)) ->
  numbers rep false neg apn f g = Ret z -> numbers rep pd neg apn (f ++ t) (g ++ u) = Ret z.
Proof.
  intros Hf Hg Ht Hu Hp. unfold numbers. rewrite !zeros_then by auto. cbv zeta. cbn [fst snd]. destruct (zeros_digits f Hf) as (A1 & _). destruct (zeros_digits g Hg) as (B1 & _). rewrite walk_then by auto. destruct (walk_rest _ 0 _ A1 B1) as (R1 & R2). cbn [fst snd andb]. rewrite !dig_then by auto.
  assert (D : pd && (negb (ip (fst (snd (walk 0 (snd (zeros f)) (snd (zeros g)))) ++ t)) && negb (ip (snd (snd (walk 0 (snd (zeros f)) (snd (zeros g)))) ++ u))) = false).
  { destruct Hp as [->|(c & r & Hc & [-> | ->])]; auto; rewrite (ip_then _ c r) by auto; cbn; rewrite ?andb_false_r; auto. }
  rewrite D. cbn [andb]. repeat match goal with |- context [if ?c then _ else _] => destruct c end; auto; discriminate.
Qed.
Lemma compare_parts rep p i f g t u z : Forall (fun x => ~ digit x) p -> number i -> number f -> number g -> value f <> value g -> dig t = false -> dig u = false ->
  (exists c r, isspace c = false /\ (t = 46 :: c :: r \/ u = 46 :: c :: r)) ->
  natural_compare rep (p ++ i ++ [46] ++ f ++ t) (p ++ i ++ [46] ++ g ++ u) = Some z -> (z < 0 <-> value f < value g).
Proof.
  intros Hp (Ni & Hi) (Nf & Hf) (Ng & Hg) V Ht Hu Hip. cbn [app]. intros H. unfold natural_compare in H. apply (nloop_le rep _ (length p + (3 + length (i ++ 46 :: f ++ t)))) in H; [|rewrite !app_length; simpl; lia]. rewrite prefix in H by auto. rewrite app_nil_r in H.
  destruct i as [|x i]; [contradiction|]. assert (Ex : isdigit x = true) by (inversion Hi; apply digit_is; auto). cbn [Nat.add] in H. remember (Datatypes.S (Datatypes.S (length ((x :: i) ++ 46 :: f ++ t)))) as F eqn:EF. pose proof (numbers_tail rep (minus (rev p)) false (x :: i) (f ++ t) (g ++ u) Hi) as N1. cbn [app] in *. cbn [nloop] in H. rewrite Ex in H. cbn [andb] in H. rewrite N1 in H.
  change (x :: i ++ 46 :: f ++ t) with ((x :: i) ++ 46 :: f ++ t) in H. rewrite firstn_pre in H. set (p2 := rev (x :: i) ++ rev p) in *. cbn [frac] in H. change (46 =? 46) with true in H. cbn [andb] in H. rewrite !dig_then in H by auto.
  assert (Df : dig f = true) by (destruct f; [contradiction|inversion Hf; apply digit_is; auto]). assert (Dg : dig g = true) by (destruct g; [contradiction|inversion Hg; apply digit_is; auto]). rewrite Df, Dg in H. cbn [Bool.eqb negb] in H.
  rewrite EF in H. cbn [nloop] in H. change (isdigit 46) with false in H. cbn [andb] in H. rewrite Z.eqb_refl in H. cbn [negb] in H. change (46 =? 46) with true in H. change (0 =? 0) with true in H. change (46 - 46) with 0 in H. cbv iota in H. cbn [nloop] in H.
  pose proof (numbers_value rep (minus (46 :: p2)) (minus (rev p)) f g Hf Hg) as K. change (minus (46 :: p2)) with false in *.
  destruct (numbers rep false false (minus (rev p)) f g) as [w|a2 b2 n] eqn:N; [|destruct K as (_ & _ & C & _); contradiction].
  apply (numbers_then _ true _ _ _ _ t u _ Hf Hg Ht Hu) in N; [|right; exact Hip].
  destruct f as [|a f]; [contradiction|]. destruct g as [|b g]; [contradiction|]. cbn [dig] in Df, Dg. cbn [app] in H, N. rewrite Df, Dg in H. cbn [andb length] in H. replace (length p2 + 1)%nat with (Datatypes.S (length p2)) in H by lia. rewrite Nat.eqb_refl in H. rewrite N in H. injection H as <-. rewrite K. intuition (try discriminate; lia).
Qed.
Lemma parts rep p i f g t u z : Forall (fun x => ~ digit x) p -> number i -> number f -> number g -> value f <> value g -> ends t -> ends u -> dotted t \/ dotted u ->
  natural_compare rep (p ++ i ++ [46] ++ f ++ t) (p ++ i ++ [46] ++ g ++ u) = Some z -> (z < 0 <-> value f < value g).
Proof.
  intros Hp Hi Hf Hg V Ht Hu Hd. assert (E : forall l, ends l -> dig l = false) by (intros [|c l] H; auto; simpl in H; unfold digit in H; cbn [dig]; unfold isdigit; lia).
  apply compare_parts; auto. destruct Hd as [(c & r & -> & H)|(c & r & -> & H)]; exists c, r; (split; [unfold isspace; lia|auto]).
Qed.
Lemma classes rep p x y a b z : Forall (fun c => ~ digit c) p -> digit x -> ~ digit y -> natural_compare rep (p ++ x :: a) (p ++ y :: b) = Some z -> (z < 0 <-> letter y).
Proof.
  intros Hp Hx Hy. unfold natural_compare. rewrite app_length. replace (Datatypes.S (length p + length (x :: a))) with (length p + Datatypes.S (length (x :: a)))%nat by lia. rewrite prefix by auto. cbn [nloop]. rewrite (digit_is x Hx). assert (Ey : isdigit y = false) by (unfold digit in Hy; unfold isdigit; lia). rewrite Ey. cbn [andb].
  assert (L : isalpha y = true <-> letter y) by (unfold isalpha, letter; lia). destruct (isalpha y); intros E; injection E as <-; intuition (try discriminate; lia).
Qed.
Lemma ip_after l t : Forall digit l -> ends t -> ~ dotted t -> ip (l ++ t) = false.
Proof.
  intros H He Hd. induction H as [|x l H _ IH]; cbn [app]; [|cbn [ip]; rewrite digit_is by auto; auto]. destruct t as [|x t]; auto. cbn [ip]. replace (isdigit x) with false by (simpl in He; unfold digit in He; unfold isdigit; lia).
  destruct (x =? 46) eqn:E; auto. destruct t as [|c t]; auto. cbn [andb]. destruct (isspace c) eqn:F; auto. exfalso. apply Hd. exists c, t. split; [f_equal; lia|]. unfold isspace in F. lia.
Qed.
Lemma ends_dig t : ends t -> dig t = false.
Proof. destruct t as [|c t]; auto. simpl. unfold digit, isdigit. lia. Qed.
Lemma numbers_after rep neg apn f g t u z : Forall digit f -> Forall digit g -> ends t -> ends u -> ~ dotted t -> ~ dotted u ->
  numbers rep true neg apn f g = Ret z -> numbers rep true neg apn (f ++ t) (g ++ u) = Ret z.
Proof.
  intros Hf Hg Ht Hu Dt Du. unfold numbers. pose proof (ends_dig t Ht). pose proof (ends_dig u Hu). rewrite !zeros_then by auto. cbv zeta. cbn [fst snd]. destruct (zeros_digits f Hf) as (A1 & _). destruct (zeros_digits g Hg) as (B1 & _). rewrite walk_then by auto. destruct (walk_rest _ 0 _ A1 B1) as (R1 & R2). cbn [fst snd]. rewrite !dig_then by auto. rewrite !ip_after by auto. rewrite !ip_digits by auto.
  repeat match goal with |- context [if ?c then _ else _] => destruct c end; auto; discriminate.
Qed.
Lemma fractions_text rep p i f g t u z : Forall (fun x => ~ digit x) p -> number i -> number f -> number g -> value f <> 0 -> value g <> 0 -> ~ frac_eq f g -> rep = true \/ lead f = lead g ->
  ends t -> ends u -> ~ dotted t -> ~ dotted u -> natural_compare rep (p ++ i ++ [46] ++ f ++ t) (p ++ i ++ [46] ++ g ++ u) = Some z -> (z < 0 <-> fraction_before p f g).
Proof.
  intros Hp (Ni & Hi) (Nf & Hf) (Ng & Hg) Vf Vg V Hr Ht Hu Dt Du. cbn [app]. intros H. unfold natural_compare in H. apply (nloop_le rep _ (length p + (3 + length (i ++ 46 :: f ++ t)))) in H; [|rewrite !app_length; simpl; lia]. rewrite prefix in H by auto. rewrite app_nil_r in H.
  destruct i as [|x i]; [contradiction|]. assert (Ex : isdigit x = true) by (inversion Hi; apply digit_is; auto). cbn [Nat.add] in H. remember (Datatypes.S (Datatypes.S (length ((x :: i) ++ 46 :: f ++ t)))) as F eqn:EF. pose proof (numbers_tail rep (minus (rev p)) false (x :: i) (f ++ t) (g ++ u) Hi) as N1. cbn [app] in *. cbn [nloop] in H. rewrite Ex in H. cbn [andb] in H. rewrite N1 in H.
  change (x :: i ++ 46 :: f ++ t) with ((x :: i) ++ 46 :: f ++ t) in H. rewrite firstn_pre in H. set (p2 := rev (x :: i) ++ rev p) in *. cbn [frac] in H. change (46 =? 46) with true in H. cbn [andb] in H. rewrite !dig_then in H by (apply ends_dig; auto).
  assert (Df : dig f = true) by (destruct f; [contradiction|inversion Hf; apply digit_is; auto]). assert (Dg : dig g = true) by (destruct g; [contradiction|inversion Hg; apply digit_is; auto]). rewrite Df, Dg in H. cbn [Bool.eqb negb] in H.
  rewrite EF in H. cbn [nloop] in H. change (isdigit 46) with false in H. cbn [andb] in H. rewrite Z.eqb_refl in H. cbn [negb] in H. change (46 =? 46) with true in H. change (0 =? 0) with true in H. change (46 - 46) with 0 in H. cbv iota in H. cbn [nloop] in H.
  pose proof (numbers_frac rep (minus (46 :: p2)) (minus (rev p)) f g Hf Hg Vf Vg Hr) as K. pose proof (minus_signed p) as M. unfold fraction_before, frac_lt, frac_eq in *. unfold dif in K.
  destruct (numbers rep true (minus (46 :: p2)) (minus (rev p)) f g) as [w|a2 b2 n] eqn:N; [|destruct K as (_ & _ & C & _); exfalso; apply V; lia].
  apply (numbers_after _ _ _ _ _ t u _ Hf Hg Ht Hu Dt Du) in N.
  destruct f as [|a f]; [contradiction|]. destruct g as [|b g]; [contradiction|]. cbn [dig] in Df, Dg. cbn [app] in H, N. rewrite Df, Dg in H. cbn [andb length] in H. replace (length p2 + 1)%nat with (Datatypes.S (length p2)) in H by lia. rewrite Nat.eqb_refl in H. rewrite N in H. injection H as <-. rewrite K, <- M. destruct (minus (rev p)); split; intros Q; intuition (try discriminate; try congruence; try lia).
Qed.
