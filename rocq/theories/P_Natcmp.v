(* natural_compare: equal just on equal strings, and antisymmetric where the code is; witnesses where it is no order. *)
From Verif Require Import Lib M_Natcmp.

Lemma walk_sym dc a b : walk (- dc) b a = (- fst (walk dc a b), (snd (snd (walk dc a b)), fst (snd (walk dc a b)))).
Proof.
  revert dc b. induction a as [|x a IH]; intros dc [|y b]; simpl; auto. rewrite (andb_comm (isdigit y)). destruct (isdigit x && isdigit y); auto.
  rewrite <- IH. f_equal. destruct (dc =? 0) eqn:E, (- dc =? 0) eqn:F; lia.
Qed.
Lemma walk_stop dc a b : dig (fst (snd (walk dc a b))) && dig (snd (snd (walk dc a b))) = false.
Proof. revert dc b. induction a as [|x a IH]; intros dc [|y b]; simpl; auto. - apply andb_false_r. - destruct (isdigit x && isdigit y) eqn:E; auto. Qed.
Lemma walk_keep dc a b : dc <> 0 -> fst (walk dc a b) = dc.
Proof. revert dc b. induction a as [|x a IH]; intros dc [|y b] H; simpl; auto. destruct (isdigit x && isdigit y); auto. replace (dc =? 0) with false by lia. auto. Qed.
Lemma walk_same a b : fst (walk 0 a b) = 0 -> exists d, a = d ++ fst (snd (walk 0 a b)) /\ b = d ++ snd (snd (walk 0 a b)).
Proof.
  revert b. induction a as [|x a IH]; intros [|y b]; simpl; try (intros _; exists []; auto; fail). destruct (isdigit x && isdigit y); [|intros _; exists []; auto].
  intros H. destruct (Z.eq_dec (x - y) 0) as [E|E]; [|rewrite walk_keep in H by auto; lia]. rewrite E in *. destruct (IH b H) as (d & E1 & E2). exists (x :: d). simpl. split; [congruence|]. f_equal; [lia|auto].
Qed.
Lemma zeros_app a : 0 <= fst (zeros a) /\ a = repeat 48 (Z.to_nat (fst (zeros a))) ++ snd (zeros a).
Proof.
  induction a as [|x a IH]; simpl; [split; auto; lia|]. destruct (x =? 48) eqn:E; simpl; [|split; auto; lia]. destruct IH as (I1 & I2). split; [lia|]. replace (Z.to_nat (fst (zeros a) + 1)) with (Datatypes.S (Z.to_nat (fst (zeros a)))) by lia. simpl. f_equal; [lia|auto].
Qed.

Definition opp (r r' : nres) : Prop :=
  match r, r' with Ret z, Ret z' => Z.sgn z' = - Z.sgn z | Cont a b n, Cont b' a' n' => a' = a /\ b' = b /\ n' = n | _, _ => False end.
Lemma numbers_sym rep pd neg apn a b : rep = true \/ pd = false -> opp (numbers rep pd neg apn a b) (numbers rep pd neg apn b a).
Proof.
  intros H. unfold numbers. cbv zeta. pose proof (walk_sym 0 (snd (zeros a)) (snd (zeros b))) as W. change (- 0) with 0 in W. rewrite W. clear W. cbn [fst snd].
  set (w := walk 0 (snd (zeros a)) (snd (zeros b))). pose proof (walk_stop 0 (snd (zeros a)) (snd (zeros b))) as St. fold w in St. set (a2 := fst (snd w)) in *. set (b2 := snd (snd w)) in *. set (dc := fst w).
  set (lz := fst (zeros a) - fst (zeros b)). replace (fst (zeros b) - fst (zeros a)) with (- lz) by (unfold lz; lia).
  rewrite (andb_comm (negb (ip b2))). set (dec := pd && (negb (ip a2) && negb (ip b2))). set (ng := if dec then apn else neg).
  assert (Hd : dec = true -> rep = true) by (unfold dec; destruct H as [-> | ->]; auto; discriminate).
  assert (L : (- lz =? 0) = (lz =? 0)) by (destruct (lz =? 0) eqn:E; lia). assert (D : (- dc =? 0) = (dc =? 0)) by (destruct (dc =? 0) eqn:E; lia). rewrite L, D.
  destruct (dec && negb (lz =? 0)) eqn:E1.
  - apply andb_true_iff in E1. destruct E1 as (E1 & E2). rewrite (Hd E1). simpl. destruct (0 <? lz) eqn:F, (0 <? - lz) eqn:G, ng; simpl; auto; lia.
  - destruct (dec && negb (dc =? 0)) eqn:E3.
    + rewrite !Bool.eqb_reflx. simpl. apply andb_true_iff in E3. destruct E3 as (_ & E3). rewrite E3. simpl. destruct (0 <? dc) eqn:F, (0 <? - dc) eqn:G, ng; simpl; auto; lia.
    + destruct (dig a2), (dig b2); simpl in *; try discriminate; try (destruct ng; reflexivity).
      destruct (dc =? 0) eqn:E4; simpl; [|destruct (0 <? dc) eqn:F, (0 <? - dc) eqn:G, ng; simpl; auto; lia]. destruct (lz =? 0) eqn:E5; simpl; auto. lia.
Qed.
Lemma numbers_cont rep pd neg apn a b a2 b2 n : numbers rep pd neg apn a b = Cont a2 b2 n -> dig a = true -> exists d, a = d ++ a2 /\ b = d ++ b2 /\ (length a2 < length a)%nat.
Proof.
  unfold numbers. cbv zeta. pose proof (walk_stop 0 (snd (zeros a)) (snd (zeros b))) as St. pose proof (walk_same (snd (zeros a)) (snd (zeros b))) as Sm. destruct (zeros_app a) as (A1 & A2). destruct (zeros_app b) as (B1 & B2).
  set (w := walk 0 (snd (zeros a)) (snd (zeros b))) in *. destruct (pd && (negb (ip (fst (snd w))) && negb (ip (snd (snd w))))); cbn [andb].
  all: destruct (fst (zeros a) - fst (zeros b) =? 0) eqn:E1; cbn [negb]; try discriminate.
  all: destruct (fst w =? 0) eqn:E2; cbn [negb andb].
  all: match goal with |- (if negb ?c then _ else _) = _ -> _ => destruct c eqn:E3 end; cbn [negb]; try discriminate.
  all: intros E Hd; injection E as <- <- _; destruct (Sm ltac:(lia)) as (d & D1 & D2); apply Bool.eqb_prop in E3.
  all: exists (repeat 48 (Z.to_nat (fst (zeros a))) ++ d); rewrite <- !app_assoc, <- D1, <- D2; split; [exact A2|]; split; [replace (fst (zeros a)) with (fst (zeros b)) by lia; exact B2|].
  all: assert (La : (length (fst (snd w)) <= length a)%nat) by (rewrite A2, D1, !app_length; lia).
  all: destruct (Nat.eq_dec (length (fst (snd w))) (length a)) as [Le|]; [exfalso|lia].
  all: assert (Ea : a = fst (snd w)) by (rewrite A2, D1, app_assoc in Le |- *; rewrite !app_length in Le; destruct (repeat 48 (Z.to_nat (fst (zeros a))) ++ d) eqn:Er; [auto|apply (f_equal (@length Z)) in Er; rewrite app_length in Er; simpl in Er; lia]).
  all: rewrite <- E3, <- Ea, Hd in St; discriminate.
Qed.
Lemma numbers_nz rep pd neg apn a b z : numbers rep pd neg apn a b = Ret z -> z <> 0.
Proof.
  unfold numbers. cbv zeta. set (w := walk 0 (snd (zeros a)) (snd (zeros b))). destruct (pd && (negb (ip (fst (snd w))) && negb (ip (snd (snd w))))); cbn [andb].
  all: destruct (fst (zeros a) - fst (zeros b) =? 0) eqn:E1; cbn [negb].
  all: repeat match goal with |- (if ?c then _ else _) = _ -> _ => destruct c end; intros E; inversion E; try lia.
  all: repeat match goal with |- context [if ?c then _ else _] => destruct c end; lia.
Qed.
Lemma walk_refl a : fst (walk 0 a a) = 0 /\ fst (snd (walk 0 a a)) = snd (snd (walk 0 a a)).
Proof. induction a as [|x a IH]; simpl; auto. destruct (isdigit x && isdigit x); auto. rewrite Z.sub_diag. auto. Qed.
Lemma numbers_refl rep pd neg apn a : exists c n, numbers rep pd neg apn a a = Cont c c n.
Proof.
  unfold numbers. cbv zeta. destruct (walk_refl (snd (zeros a))) as (E1 & E2). rewrite E1, <- E2. rewrite Z.sub_diag. cbn. rewrite !andb_false_r. rewrite Bool.eqb_reflx. simpl. eauto.
Qed.

Lemma lower_sep x y : tolower x = tolower y -> (x =? 45) = (y =? 45) /\ isspace x = isspace y /\ (x =? 46) = (y =? 46).
Proof. unfold tolower, isspace. destruct ((65 <=? x) && (x <=? 90)) eqn:E, ((65 <=? y) && (y <=? 90)) eqn:F; lia. Qed.
Lemma minus_sim p q : map tolower p = map tolower q -> minus p = minus q.
Proof.
  destruct p as [|x [|x' p]], q as [|y [|y' q]]; simpl; intros E; try discriminate; auto; inversion E as [[E1]]; apply lower_sep in E1; destruct E1 as (-> & _); auto.
  match goal with H : tolower x' = tolower y' |- _ => apply lower_sep in H; destruct H as (_ & -> & _) end. auto.
Qed.
Lemma firstn_pre (d a2 : list Z) : firstn (length (d ++ a2) - length a2) (d ++ a2) = d.
Proof. rewrite app_length. replace (length d + length a2 - length a2)%nat with (length d + 0)%nat by lia. rewrite firstn_app_2. simpl. apply app_nil_r. Qed.

Section R.
Variable rep : bool.
Definition opp_o (r r' : option Z) : Prop := match r, r' with Some z, Some z' => Z.sgn z' = - Z.sgn z | None, None => True | _, _ => False end.
Definition fine (a b : list Z) (ap : option nat) : Prop := rep = true \/ ap = None /\ (~ In 46 a \/ ~ In 46 b).
Lemma frac_none d a : ~ In 46 (d ++ a) -> frac a = false.
Proof. intros H. destruct a as [|x a]; auto. simpl. destruct (x =? 46) eqn:E; auto. exfalso. apply H. apply in_app_iff. right. left. lia. Qed.
Lemma nloop_sym f : forall p q a b ap apn raw, fine a b ap -> map tolower p = map tolower q -> opp_o (nloop rep f p a b ap apn raw) (nloop rep f q b a ap apn (- raw)).
Proof.
  induction f as [|f IH]; intros p q a b ap apn raw Hf Hs; [exact Logic.I|]. destruct a as [|x a'], b as [|y b'].
  1-3: cbn [nloop opp_o]; rewrite ?len_cons; change (len (@nil Z)) with 0 in *; repeat match goal with l : list Z |- _ => lazymatch goal with H : 0 <= len l |- _ => fail | _ => pose proof (len_nonneg l) end end; repeat match goal with |- context [if ?c then _ else _] => destruct c eqn:? end; lia.
  cbn [nloop]. rewrite (andb_comm (isdigit y)). destruct (isdigit x && isdigit y) eqn:Ed.
  - apply andb_true_iff in Ed. destruct Ed as (Ex & Ey). assert (Hlen : length q = length p) by (rewrite <- (map_length tolower p), Hs, map_length; auto). rewrite Hlen, (minus_sim p q Hs).
    set (pd := match ap with Some k => (k =? length p)%nat | None => false end). set (a := x :: a') in *. set (b := y :: b') in *.
    assert (Hpd : rep = true \/ pd = false) by (destruct Hf as [->|(-> & _)]; [left; auto|right; reflexivity]).
    pose proof (numbers_sym rep pd (minus q) apn a b Hpd) as S. destruct (numbers rep pd (minus q) apn a b) as [z|a2 b2 n] eqn:N1, (numbers rep pd (minus q) apn b a) as [z'|b2' a2' n'] eqn:N2; simpl in S; try contradiction; [exact S|]. destruct S as (-> & -> & ->).
    destruct (numbers_cont _ _ _ _ _ _ _ _ _ N1 Ex) as (d & D1 & D2 & _). rewrite D1, D2, !firstn_pre. rewrite D1, D2 in Hf.
    assert (Hs2 : map tolower (rev d ++ p) = map tolower (rev d ++ q)) by (rewrite !map_app; congruence).
    assert (Hl2 : length (rev d ++ q) = length (rev d ++ p)) by (rewrite !app_length; lia).
    assert (Hf2 : forall ap', rep = true \/ ap' = None -> fine a2 b2 ap').
    { intros ap' H. destruct Hf as [->|(_ & Hf)]; [left; auto|]. destruct H as [->| ->]; [left; auto|]. right. split; auto. destruct Hf as [Hf|Hf]; [left|right]; intros C; apply Hf; apply in_app_iff; auto. }
    destruct ap as [k|].
    + apply IH; auto. apply Hf2. destruct Hf as [->|(C & _)]; [auto|discriminate].
    + destruct (frac a2) eqn:Fa, (frac b2) eqn:Fb; cbn [Bool.eqb negb opp_o].
      * rewrite Hl2. apply IH; auto. apply Hf2. destruct Hf as [->|(_ & [C|C])]; auto; apply frac_none in C; congruence.
      * destruct n; reflexivity.
      * destruct n; reflexivity.
      * apply IH; auto.
  - destruct (isdigit x) eqn:Ex, (isdigit y) eqn:Ey; try discriminate; [destruct (isalpha y); reflexivity|destruct (isalpha x); reflexivity|].
    rewrite (Z.eqb_sym (tolower y)). destruct (tolower x =? tolower y) eqn:El; cbn [negb opp_o]; [|lia]. assert (El' : tolower x = tolower y) by lia. destruct (lower_sep x y El') as (_ & _ & Ed'). rewrite <- Ed'.
    replace (if - raw =? 0 then y - x else - raw) with (- (if raw =? 0 then x - y else raw)) by (destruct (raw =? 0) eqn:E1, (- raw =? 0) eqn:E2; lia).
    apply IH; [|simpl; congruence]. destruct Hf as [->|(-> & Hf)]; [left; auto|]. right. split; [destruct (x =? 46); auto|]. simpl in Hf. tauto.
Qed.
Lemma nloop_total f : forall p a b ap apn raw, (length a < f)%nat -> exists z, nloop rep f p a b ap apn raw = Some z.
Proof.
  induction f as [|f IH]; intros p a b ap apn raw H; [lia|]. destruct a as [|x a'], b as [|y b']; cbn [nloop]; eauto. destruct (isdigit x && isdigit y) eqn:Ed.
  - apply andb_true_iff in Ed. destruct Ed as (Ex & Ey). match goal with |- context [numbers ?r ?a1 ?a2 ?a3 ?a4 ?a5] => destruct (numbers r a1 a2 a3 a4 a5) as [z|a2' b2 n] eqn:N1 end; eauto. destruct (numbers_cont _ _ _ _ _ _ _ _ _ N1 Ex) as (d & _ & _ & L).
    repeat match goal with |- context [match ?c with _ => _ end] => destruct c end; eauto; apply IH; lia.
  - repeat match goal with |- context [if ?c then _ else _] => destruct c end; eauto; apply IH; simpl in H; lia.
Qed.
Lemma nloop_more f : forall p a b ap apn raw z, nloop rep f p a b ap apn raw = Some z -> nloop rep (Datatypes.S f) p a b ap apn raw = Some z.
Proof.
  induction f as [|f IH]; intros p a b ap apn raw z H; [discriminate|]. remember (Datatypes.S f) as g eqn:Eg. cbn [nloop]. rewrite Eg in H. cbn [nloop] in H. destruct a as [|x a'], b as [|y b']; auto. destruct (isdigit x && isdigit y).
  - match goal with |- context [numbers ?r ?a1 ?a2 ?a3 ?a4 ?a5] => destruct (numbers r a1 a2 a3 a4 a5) as [w|a2' b2 n] eqn:N1 end; auto. destruct ap; [subst g; apply IH; auto|]. destruct (negb (Bool.eqb (frac a2') (frac b2))); auto. destruct (frac a2'); subst g; apply IH; auto.
  - destruct (isdigit x); auto. destruct (isdigit y); auto. destruct (negb (tolower x =? tolower y)); auto; subst g; apply IH; auto.
Qed.
Lemma nloop_le f g p a b ap apn raw z : (f <= g)%nat -> nloop rep f p a b ap apn raw = Some z -> nloop rep g p a b ap apn raw = Some z.
Proof. induction 1; auto. intros E. apply nloop_more. auto. Qed.
Lemma compare_total a b : exists z, natural_compare rep a b = Some z.
Proof. apply nloop_total. lia. Qed.
Lemma compare_sym a b x y : rep = true \/ ~ In 46 a \/ ~ In 46 b -> natural_compare rep a b = Some x -> natural_compare rep b a = Some y -> Z.sgn y = - Z.sgn x.
Proof.
  intros H Ex Ey. unfold natural_compare in *. apply (nloop_le _ (Datatypes.S (length a + length b))) in Ex; [|lia]. apply (nloop_le _ (Datatypes.S (length a + length b))) in Ey; [|lia].
  pose proof (nloop_sym (Datatypes.S (length a + length b)) [] [] a b None false 0) as S. change (- 0) with 0 in S. rewrite Ex, Ey in S. apply S; auto. destruct H as [H|H]; [left; auto|right; auto].
Qed.
Lemma nloop_zero f : forall p a b ap apn raw, nloop rep f p a b ap apn raw = Some 0 -> raw = 0 /\ a = b.
Proof.
  induction f as [|f IH]; intros p a b ap apn raw H; [discriminate|]. cbn [nloop] in H. destruct a as [|x a'], b as [|y b'].
  1-3: rewrite ?len_cons in H; change (len (@nil Z)) with 0 in *; repeat match goal with l : list Z |- _ => lazymatch goal with H : 0 <= len l |- _ => fail | _ => pose proof (len_nonneg l) end end; match type of H with context [if ?c then _ else _] => destruct c eqn:E end; apply (f_equal (fun o => match o with Some v => v | None => 1 end)) in H; cbv beta iota in H; try lia; auto.
  destruct (isdigit x && isdigit y) eqn:Ed.
  - apply andb_true_iff in Ed. destruct Ed as (Ex & Ey). match type of H with context [numbers ?r ?a1 ?a2 ?a3 ?a4 ?a5] => destruct (numbers r a1 a2 a3 a4 a5) as [w|a2' b2 n] eqn:N1 end; [injection H as ->; apply numbers_nz in N1; congruence|].
    destruct (numbers_cont _ _ _ _ _ _ _ _ _ N1 Ex) as (d & D1 & D2 & _).
    assert (K : raw = 0 /\ a2' = b2).
    { destruct ap; [apply IH in H; auto|]. destruct (negb (Bool.eqb (frac a2') (frac b2))); [destruct (Bool.eqb n (frac b2)); discriminate|]. destruct (frac a2'); apply IH in H; auto. }
    destruct K as (K1 & ->). split; auto. congruence.
  - destruct (isdigit x); [destruct (isalpha y); discriminate|]. destruct (isdigit y); [destruct (isalpha x); discriminate|]. destruct (tolower x =? tolower y) eqn:El; cbn [negb] in H; [|injection H as H; lia].
    apply IH in H. destruct H as (H & ->). destruct (raw =? 0) eqn:E; [|lia]. split; [lia|]. f_equal. lia.
Qed.
Lemma nloop_refl f : forall p a ap apn, (length a < f)%nat -> nloop rep f p a a ap apn 0 = Some 0.
Proof.
  induction f as [|f IH]; intros p a ap apn H; [lia|]. destruct a as [|x a']; [reflexivity|]. cbn [nloop]. destruct (isdigit x) eqn:Ex; cbn [andb].
  - match goal with |- context [numbers ?r ?a1 ?a2 ?a3 ?a4 ?a5] => destruct (numbers_refl r a1 a2 a3 a4) as (c & n & E); rewrite E end. destruct (numbers_cont _ _ _ _ _ _ _ _ _ E Ex) as (_ & _ & _ & L).
    rewrite Bool.eqb_reflx. cbn [negb]. destruct ap; [apply IH; lia|]. destruct (frac c); apply IH; lia.
  - rewrite Z.eqb_refl. cbn [negb]. rewrite Z.sub_diag. change (0 =? 0) with true. cbv iota. apply IH. simpl in H. lia.
Qed.
Lemma compare_zero a b : natural_compare rep a b = Some 0 <-> a = b.
Proof. split; [intros H; apply nloop_zero in H; tauto|]. intros <-. apply nloop_refl. lia. Qed.
End R.

Definition below (rep : bool) (a b : list Z) : Prop := exists z, natural_compare rep a b = Some z /\ z < 0.
Lemma both_less : below false [49; 46; 48] [49; 46; 49] /\ below false [49; 46; 49] [49; 46; 48].
Proof. split; exists (-1); split; [reflexivity|lia|reflexivity|lia]. Qed.
Lemma cycle rep : below rep [48] [97] /\ below rep [97] [123] /\ below rep [123] [48].
Proof. split; [exists (-1)|split; [exists (-26)|exists (-1)]]; (split; [destruct rep; reflexivity|lia]). Qed.
Lemma cycle_dots : below true [48; 46; 49] [48; 46; 49; 46; 49] /\ below true [48; 46; 49; 46; 49] [48; 46; 48; 49] /\ below true [48; 46; 48; 49] [48; 46; 49].
Proof. split; [exists (-2)|split; [exists (-1)|exists (-1)]]; (split; [reflexivity|lia]). Qed.
