(* Strings, words and numbers that the parser takes are those of the grammar of Spec_JsonLax. *)
From Verif Require Import Lib M_Msgpack M_JsonText Spec_JsonText Spec_JsonLax P_JsonText1 P_JsonText2 P_JsonText3 P_JsonText5.

(* ------------------------------------------------------------------ characters *)
Lemma some_inj (u v : list Z) : Some u = Some v -> u = v. Proof. congruence. Qed.
Lemma hok u v : HOk u = HOk v -> u = v. Proof. congruence. Qed.
Lemma hex_first_inv r x : hex hex_first 4 0 r = HOk x -> exists h r', r = h ++ r' /\ hex4 h x.
Proof.
  intros H. destruct r as [|a [|b [|c [|d r]]]]; cbn [hex] in H; rewrite ?hex_first_ok in H;
    repeat (match type of H with context [hexdig ?y] => let E := fresh "E" in destruct (hexdig y) eqn:E end; try discriminate); try discriminate.
  exists [a; b; c; d], r. split; [reflexivity|]. apply hok in H. subst x.
  exists a, b, c, d, z, z0, z1, z2. repeat split; auto. lia.
Qed.
Lemma hex_second_inv1 a x : hex_second a = Some x -> hexdig a = Some x /\ a <= 70.
Proof.
  intros X. destruct (Z_le_gt_dec a 70) as [L|L].
  - split; [|exact L]. rewrite <- X. unfold hex_second, hexdig, within.
    replace (a <? 58) with (a <=? 57) by lia. replace (a <? 71) with (a <=? 70) by lia.
    replace ((97 <=? a) && (a <=? 102)) with false by lia.
    destruct ((48 <=? a) && (a <=? 57)); [reflexivity|]. destruct ((65 <=? a) && (a <=? 70)); [f_equal; lia|reflexivity].
  - exfalso. revert X. unfold hex_second, within. replace (a <? 58) with false by lia. replace (a <? 71) with false by lia.
    rewrite !andb_false_r. discriminate.
Qed.
Lemma hex_second_inv r x : hex hex_second 4 0 r = HOk x -> exists h r', r = h ++ r' /\ hex4 h x /\ Forall (fun c => c <= 70) h.
Proof.
  intros H. destruct r as [|a [|b [|c [|d r]]]]; cbn [hex] in H;
    repeat (match type of H with context [hex_second ?y] => let E := fresh "E" in destruct (hex_second y) eqn:E end; try discriminate); try discriminate.
  apply hex_second_inv1 in E, E0, E1, E2. exists [a; b; c; d], r. split; [reflexivity|]. apply hok in H. subst x.
  split; [|repeat constructor; tauto].
  exists a, b, c, d, z, z0, z1, z2. repeat split; try tauto. lia.
Qed.
Definition takes (t b : list Z) (c : Z) (s : list Z) (n : nat) : Prop :=
  exists r, c :: s = t ++ r /\ length t = n /\ lchar t b.
Lemma append_utf8_inv c b : 0 <= c < 65536 -> ~ (55296 <= c < 57344) -> append_utf8 c = Some b ->
  forall h, hex4 h c -> lchar (92 :: 117 :: h) b.
Proof.
  intros H1 H2 E h Hh. destruct (Z_lt_dec c 2048) as [L|L]; [|destruct (Z_lt_dec c 32768) as [L2|L2]].
  - destruct (Z.eq_dec c 0) as [->|N]; [discriminate|].
    rewrite append_utf8_ok in E by (try split; lia). injection E as <-.
    apply lc_json, jc_u; [exact Hh|split; lia|right; lia].
  - unfold append_utf8 in E. replace (c <=? 0) with false in E by lia. replace (c <=? 127) with false in E by lia.
    replace (c <? 32768) with true in E by lia. apply some_inj in E. subst b. rewrite lor128 by lia. change (2 ^ 6) with 64.
    apply lc_garbled; [exact Hh|lia].
  - assert (B : c <= 65533).
    { unfold append_utf8 in E. replace (c <=? 0) with false in E by lia. replace (c <=? 127) with false in E by lia.
      replace (c <? 32768) with false in E by lia. replace (c <? 65536) with true in E by lia.
      destruct (_ || _) eqn:G in E; [discriminate|lia]. }
    rewrite append_utf8_ok in E by (try split; lia). injection E as <-.
    apply lc_json, jc_u; [exact Hh|split; lia|right; lia].
Qed.
Lemma backslash_inv s b n : backslash s = TOk b n -> exists t r, 92 :: s = t ++ r /\ length t = n /\ lchar t b.
Proof.
  destruct s as [|c s]; [discriminate|]. intros H.
  assert (SIMPLE : forall ch, append_ch ch 2 = TOk b n ->
    In (c, ch) [(34, 34); (92, 92); (47, 47); (98, 8); (102, 12); (110, 10); (114, 13); (116, 9)] ->
    exists t r, 92 :: c :: s = t ++ r /\ length t = n /\ lchar t b).
  { intros ch A Hin. exists [92; c], s. split; [reflexivity|]. unfold append_ch in A.
    assert (R : 0 < ch < 128) by (cbn [In] in Hin; intuition (match goal with X : (_, _) = _ |- _ => injection X as <- <- end; lia)).
    rewrite append_utf8_ok in A by (try split; lia). injection A as <- <-. split; [reflexivity|].
    apply lc_json. now apply jc_esc. }
  destruct (c =? 117) eqn:U.
  2: { cbn [backslash] in H. rewrite U in H.
       destruct ((c =? 34) || (c =? 92) || (c =? 47)) eqn:E1.
       { apply (SIMPLE c H). cbn [In]. assert (c = 34 \/ c = 92 \/ c = 47) as [->|[->| ->]] by lia; auto. }
       destruct (c =? 98) eqn:E2; [apply (SIMPLE _ H); replace c with 98 by lia; cbn [In]; tauto|].
       destruct (c =? 102) eqn:E3; [apply (SIMPLE _ H); replace c with 102 by lia; cbn [In]; tauto|].
       destruct (c =? 110) eqn:E4; [apply (SIMPLE _ H); replace c with 110 by lia; cbn [In]; tauto|].
       destruct (c =? 114) eqn:E5; [apply (SIMPLE _ H); replace c with 114 by lia; cbn [In]; tauto|].
       destruct (c =? 116) eqn:E6; [apply (SIMPLE _ H); replace c with 116 by lia; cbn [In]; tauto|].
       discriminate. }
  replace c with 117 in * by lia. clear SIMPLE U. rewrite P_JsonText5.backslash_u in H.
  destruct (hex hex_first 4 0 s) as [ch| |] eqn:E1; try discriminate.
  apply hex_first_inv in E1. destruct E1 as (h & r & -> & Hh). pose proof (hex4_len h ch Hh) as [L R].
  destruct (within ch 55296 57344) eqn:E2.
  - destruct (56320 <=? ch) eqn:E3; [discriminate|]. rewrite skipn_app4 in H by assumption.
    destruct r as [|a r]; [discriminate|]. destruct (a =? 92) eqn:E4; [|discriminate]. cbn [negb] in H.
    destruct r as [|u r]; [discriminate|]. destruct (u =? 117) eqn:E5; [|discriminate]. cbn [negb] in H.
    destruct (hex hex_second 4 0 r) as [ch2| |] eqn:E6; try discriminate.
    apply hex_second_inv in E6. destruct E6 as (h2 & r2 & -> & Hh2 & F). pose proof (hex4_len h2 ch2 Hh2) as [L2 R2].
    destruct (within ch2 56320 57344) eqn:E7; [|discriminate]. cbn [negb] in H. unfold within in E2, E7.
    unfold append_ch in H. rewrite append_utf8_ok in H by (try split; lia). injection H as <- <-.
    exists (92 :: 117 :: h ++ 92 :: 117 :: h2), r2. replace a with 92 by lia. replace u with 117 by lia.
    split; [cbn [app]; now rewrite <- app_assoc|]. split; [cbn [length]; rewrite app_length; cbn [length]; lia|].
    apply lc_json. apply jc_pair; auto; lia.
  - unfold append_ch in H. destruct (append_utf8 ch) as [b0|] eqn:E3; [|discriminate]. injection H as <- <-.
    exists (92 :: 117 :: h), r. split; [reflexivity|]. split; [cbn [length]; lia|].
    unfold within in E2. apply (append_utf8_inv ch b0); auto; lia.
Qed.
Lemma raw_char c t : scalar c -> 128 <= c -> t = utf8 c -> lchar t t.
Proof. intros H1 H2 ->. apply lc_json, jc_raw; auto; lia. Qed.
Lemma multibyte_inv c s b n : multibyte c s = TOk b n -> exists t r, c :: s = t ++ r /\ length t = n /\ lchar t b.
Proof.
  unfold multibyte. destruct (within c 194 245) eqn:E1; [|discriminate]. cbn [negb]. unfold within in E1. cbv zeta.
  destruct s as [|d s]; [destruct (_ || _); discriminate|].
  destruct (within d 128 192) eqn:E2; [|discriminate]. unfold within in E2. cbn [negb orb].
  destruct (224 <=? c) eqn:E3.
  - cbn [andb]. destruct (bad_second c d) eqn:E4; [discriminate|]. unfold bad_second in E4.
    destruct s as [|e s]; [destruct (240 <=? c); discriminate|].
    destruct (within e 128 192) eqn:E5; [|destruct (240 <=? c); discriminate]. unfold within in E5. cbn [negb].
    destruct (240 <=? c) eqn:E6.
    + destruct s as [|f s]; [discriminate|]. destruct (within f 128 192) eqn:E7; [|discriminate]. unfold within in E7. cbn [negb].
      intros H. cbn [Nat.add Nat.eqb] in H. injection H as <- <-. exists [c; d; e; f], s. split; [reflexivity|]. split; [reflexivity|].
      apply raw_char with ((c - 240) * 262144 + (d - 128) * 4096 + (e - 128) * 64 + (f - 128)); [split; lia|lia|].
      unfold utf8. repeat match goal with |- context [if ?x then _ else _] => replace x with false by lia end.
      repeat (f_equal; try lia).
    + intros H. cbn [Nat.add Nat.eqb] in H. injection H as <- <-. exists [c; d; e], s. split; [reflexivity|]. split; [reflexivity|].
      apply raw_char with ((c - 224) * 4096 + (d - 128) * 64 + (e - 128)); [split; lia|lia|].
      unfold utf8. replace (_ <? 128) with false by lia. replace (_ <? 2048) with false by lia. replace (_ <? 65536) with true by lia.
      repeat (f_equal; try lia).
  - replace (240 <=? c) with false by lia. intros H. cbn [Nat.add Nat.eqb andb] in H. injection H as <- <-. exists [c; d], s.
    split; [reflexivity|]. split; [reflexivity|].
    apply raw_char with ((c - 192) * 64 + (d - 128)); [split; lia|lia|].
    unfold utf8. replace (_ <? 128) with false by lia. replace (_ <? 2048) with true by lia.
    repeat (f_equal; try lia).
Qed.
Lemma string_char_inv c s b n : string_char c s = TOk b n -> exists t r, c :: s = t ++ r /\ length t = n /\ lchar t b.
Proof.
  unfold string_char. destruct (_ && _) eqn:E.
  - intros H. injection H as <- <-. exists [c], s. split; [reflexivity|]. split; [reflexivity|]. unfold within in E.
    replace [c] with (utf8 c) by (unfold utf8; replace (c <? 128) with true by lia; reflexivity).
    apply lc_json, jc_raw; try lia. split; lia.
  - destruct (c =? 92) eqn:E2; [replace c with 92 by lia; apply backslash_inv|].
    destruct (c =? 34); [discriminate|]. apply multibyte_inv.
Qed.
Lemma string_char_quote c s : string_char c s = TQuote -> c = 34.
Proof.
  unfold string_char. destruct (_ && _); [discriminate|]. destruct (c =? 92).
  - intros H. exfalso. unfold backslash in H. destruct s as [|d s]; [discriminate|].
    assert (A : forall x n, append_ch x n <> TQuote) by (intros; unfold append_ch; destruct (append_utf8 x); discriminate).
    repeat match type of H with
    | (if ?x then _ else _) = _ => destruct x
    | (match ?x with HOk _ => _ | _ => _ end) = _ => destruct x
    | (match ?x with [] => _ | _ => _ end) = _ => destruct x
    end; try discriminate; now apply A in H.
  - destruct (c =? 34) eqn:E; [lia|]. unfold multibyte. intros H. exfalso.
    cbv zeta in H.
    repeat match type of H with
    | (if ?x then _ else _) = _ => destruct x
    | (match ?x with [] => _ | _ => _ end) = _ => destruct x
    end; discriminate.
Qed.
Lemma string_loop_inv : forall n s acc str r, (length s <= n)%nat -> string_loop 0 acc s = SDone str r ->
  exists t bs, s = t ++ 34 :: r /\ lchars t bs /\ str = acc ++ bs.
Proof.
  induction n as [|n IH]; intros s acc str r L H; (destruct s as [|c s]; [discriminate|]); [simpl in L; lia|].
  cbn [string_loop] in H. destruct (string_char c s) as [b m| | | |] eqn:E; try discriminate.
  - apply string_char_inv in E. destruct E as (t & r0 & E1 & E2 & E3).
    destruct t as [|c' t].
    { exfalso. inversion E3 as [t c0 J X|]. apply jchar_decode in J. destruct J as (? & ? & ? & _). discriminate. }
    injection E1 as <- ->. cbn [length] in E2, L. subst m. replace (S (length t) - 1)%nat with (length t) in H by lia.
    rewrite string_loop_skip in H. apply IH in H; [|rewrite app_length in L; lia].
    destruct H as (t2 & bs & -> & Hl & ->). exists ((c :: t) ++ t2), (b ++ bs). split; [cbn [app]; now rewrite <- app_assoc|].
    split; [now constructor|now rewrite app_assoc].
  - apply string_char_quote in E. subst c. injection H as <- <-. exists [], []. split; [reflexivity|].
    split; [constructor|now rewrite app_nil_r].
Qed.

(* ------------------------------------------------------------------ words *)
Lemma primitive_step n s m r : primitive n s = PrDone m r -> nth n t_words 0 <> 0 ->
  exists s', s = nth n t_words 0 :: s' /\ primitive (S n) s' = PrDone m r.
Proof.
  intros H N. destruct s as [|c s]; cbn [primitive] in H; replace (nth n t_words 0 =? 0) with false in H by lia; [discriminate|].
  destruct (nth n t_words 0 =? c) eqn:E; [|discriminate]. exists s. split; [f_equal; lia|exact H].
Qed.
Lemma primitive_inv n s m r : primitive n s = PrDone m r ->
  (n = 1%nat -> s = [117; 108; 108] ++ r /\ m = 4%nat) /\ (n = 6%nat -> s = [97; 108; 115; 101] ++ r /\ m = 10%nat)
  /\ (n = 12%nat -> s = [114; 117; 101] ++ r /\ m = 15%nat).
Proof.
  intros H. split; [|split]; intros ->.
  - do 3 (apply primitive_step in H; [|discriminate]; destruct H as (? & -> & H)).
    rewrite primitive_end in H by reflexivity. injection H as <- <-. split; reflexivity.
  - do 4 (apply primitive_step in H; [|discriminate]; destruct H as (? & -> & H)).
    rewrite primitive_end in H by reflexivity. injection H as <- <-. split; reflexivity.
  - do 3 (apply primitive_step in H; [|discriminate]; destruct H as (? & -> & H)).
    rewrite primitive_end in H by reflexivity. injection H as <- <-. split; reflexivity.
Qed.

(* ------------------------------------------------------------------ numbers *)
Lemma digit_isdig c : digit c = true -> isdig c. Proof. unfold isdig, digit, within. lia. Qed.
Lemma digits_inv k s : exists ds r, Forall isdig ds /\ s = ds ++ r /\ digits k s = addp ds (k r).
Proof.
  induction s as [|c s (ds & r & F & -> & E)]; [exists [], []; rewrite addp_nil; auto|].
  cbn [digits]. destruct (digit c) eqn:D.
  - exists (c :: ds), r. split; [constructor; [now apply digit_isdig|exact F]|]. split; [reflexivity|]. rewrite E. now rewrite take_addp.
  - exists [], (c :: ds ++ r). rewrite addp_nil. auto.
Qed.
Definition odd_of (x : nres) : Prop := Z.even (fst x) = false.
Definition tk (x : nres) : list Z := fst (snd x).
Lemma tk_take c x : tk (take c x) = c :: tk x. Proof. reflexivity. Qed.
Lemma tk_addp t x : tk (addp t x) = t ++ tk x. Proof. reflexivity. Qed.
Lemma pos_take c x : fst (take c x) = fst x. Proof. reflexivity. Qed.
Lemma pos_addp c x : fst (addp c x) = fst x. Proof. reflexivity. Qed.
Lemma case8_inv s : odd_of (case8 s) -> fst (case8 s) = 9 /\ exists c t, tk (case8 s) = c :: t /\ isdig c /\ Forall isdig t.
Proof.
  unfold odd_of. destruct s as [|c s]; [discriminate|]. unfold case8. destruct (digit c) eqn:D; [|discriminate].
  intros _. unfold case9. destruct (digits_inv (fun r => (9, ([], r))) s) as (ds & r & F & -> & E).
  rewrite E, pos_take, tk_take, tk_addp. split; [reflexivity|]. exists c, ds. unfold tk. cbn [fst snd]. rewrite app_nil_r.
  split; [reflexivity|]. split; [now apply digit_isdig|exact F].
Qed.
Lemma exponent_inv q s : odd_of (maybe_exponent q s) ->
  (fst (maybe_exponent q s) = q /\ tk (maybe_exponent q s) = []) \/
  (fst (maybe_exponent q s) = 9 /\ expo (tk (maybe_exponent q s)) /\ tk (maybe_exponent q s) <> []).
Proof.
  destruct s as [|e s]; [left; auto|]. unfold maybe_exponent. destruct ((e =? 101) || (e =? 69)) eqn:E; [|left; auto].
  intros O. right. unfold odd_of in O. rewrite pos_take, tk_take in *.
  destruct s as [|c s]; [discriminate|]. unfold case6 in *. destruct ((c =? 43) || (c =? 45)) eqn:E2.
  - rewrite pos_take, tk_take in *. apply case8_inv in O. destruct O as (-> & d & t & -> & D & F).
    split; [reflexivity|]. split; [|discriminate]. apply (ex_some e [c] d t); auto; [lia|].
    right. assert (c = 43 \/ c = 45) as [->| ->] by lia; auto.
  - apply case8_inv in O. destruct O as (-> & d & t & -> & D & F).
    split; [reflexivity|]. split; [|discriminate]. apply (ex_some e [] d t); auto. lia.
Qed.
Lemma case3_inv q s : odd_of (case3 q s) ->
  (fst (case3 q s) = q /\ tk (case3 q s) = []) \/
  (4 <= fst (case3 q s) /\ exists f e, tk (case3 q s) = f ++ e /\ frac f /\ expo e /\ f ++ e <> []).
Proof.
  destruct s as [|c s]; [left; auto|]. unfold case3. destruct (c =? 46) eqn:E.
  - intros O. right. unfold odd_of in O. rewrite pos_take, tk_take in *. replace c with 46 by lia.
    destruct s as [|d s]; [discriminate|]. unfold case4 in *. destruct (digit d) eqn:D; [|discriminate].
    rewrite pos_take, tk_take in *. unfold case5 in *.
    destruct (digits_inv (maybe_exponent 5) s) as (ds & r & F & -> & X). rewrite X in *. rewrite pos_addp, tk_addp in *.
    apply digit_isdig in D. apply exponent_inv in O. destruct O as [[-> ->]|(-> & H & N)].
    + split; [lia|]. exists (46 :: d :: ds), []. rewrite app_nil_r. split; [now rewrite app_nil_r|]. split; [now constructor|].
      split; [constructor|discriminate].
    + split; [lia|]. exists (46 :: d :: ds). eexists. split; [reflexivity|]. split; [now constructor|]. split; [exact H|discriminate].
  - intros O. apply exponent_inv in O. destruct O as [O|(-> & H & N)]; [left; exact O|]. right. split; [lia|].
    exists []. eexists. split; [reflexivity|]. split; [constructor|]. auto.
Qed.
(* What a number without its sign looks like. *)
Lemma case2_inv s : odd_of (case2 s) ->
  (fst (case2 s) < 4 /\ intpart (tk (case2 s))) \/
  (4 <= fst (case2 s) /\ exists t f e, tk (case2 s) = t ++ f ++ e /\ (intpart t \/ t = []) /\ frac f /\ expo e /\ f ++ e <> []
    /\ (t = [] -> match s with c :: _ => isdig c -> False | [] => True end)).
Proof.
  destruct s as [|c s]; [discriminate|]. unfold case2. destruct (c =? 48) eqn:E.
  { intros O. unfold odd_of in O. rewrite pos_take, tk_take in *. replace c with 48 by lia. apply case3_inv in O.
    destruct O as [[-> ->]|(L & f & e & -> & Hf & He & N)]; [left; split; [lia|constructor]|]. right. split; [exact L|].
    exists [48], f, e. split; [reflexivity|]. split; [left; constructor|]. repeat split; auto. discriminate. }
  destruct (within c 49 58) eqn:E2.
  { intros O. unfold odd_of in O. rewrite pos_take, tk_take in *. unfold case1 in *.
    destruct (digits_inv (case3 1) s) as (ds & r & F & -> & X). rewrite X in *. rewrite pos_addp, tk_addp in *. unfold within in E2.
    apply case3_inv in O. destruct O as [[-> ->]|(L & f & e & -> & Hf & He & N)].
    - left. split; [lia|]. rewrite app_nil_r. constructor; [lia|exact F].
    - right. split; [exact L|]. exists (c :: ds), f, e. split; [reflexivity|]. split; [left; constructor; [lia|exact F]|].
      repeat split; auto. discriminate. }
  intros O. pose proof O as O2. apply case3_inv in O. destruct O as [[Q1 Q2]|(L & f & e & -> & Hf & He & N)].
  { unfold odd_of in O2. rewrite Q1 in O2. discriminate. }
  right. split; [exact L|]. exists [], f, e. split; [reflexivity|]. split; [now right|]. repeat split; auto.
  intros _. unfold within, isdig in *. lia.
Qed.
Lemma digits_value_mod : forall t x y, x mod 2 ^ 64 = y mod 2 ^ 64 -> x = x mod 2 ^ 64 ->
  fold_left (fun x c => (x * 10 + c - 48) mod 2 ^ 64) t x = fold_left (fun x c => 10 * x + (c - 48)) t y mod 2 ^ 64.
Proof.
  induction t as [|c t IH]; intros x y H X; cbn [fold_left]; [congruence|]. apply IH.
  - rewrite Zmod_mod. rewrite (Z.add_mod (10 * y)), (Z.mul_mod 10 y), <- H, <- Z.mul_mod, <- Z.add_mod by lia. f_equal. lia.
  - now rewrite Zmod_mod.
Qed.
Lemma digits_value_dec t : digits_value t = decimal t mod 2 ^ 64.
Proof. apply digits_value_mod; reflexivity. Qed.

Section N.
Variable strtod : list Z -> Z.
Lemma lnumber_pos t pos v : intpart t -> pos < 4 -> number_value strtod pos t = Some v -> lnumber strtod t v.
Proof.
  intros Ht L H. pose proof (decimal_nonneg _ (intpart_digits _ Ht)) as N0.
  destruct (intpart_head t Ht) as (c & t' & -> & Hc & Ht'). unfold number_value in H. destruct t' as [|d t'].
  - injection H as <-. apply ln_json with (JInt (decimal [c])).
    + apply jn_pos; auto. right. unfold decimal. cbn [fold_left]. unfold isdig in Hc. lia.
    + unfold same_value, decimal. cbn [fold_left]. reflexivity.
  - replace (pos <? 4) with true in H by lia. replace (c =? 45) with false in H by (unfold isdig in Hc; lia).
    rewrite digits_value_dec in H. set (t := c :: d :: t') in *. clearbody t. injection H as <-.
    destruct (Z_lt_dec (decimal t) (2 ^ 64)) as [S1|S1].
    + apply ln_json with (JInt (decimal t)); [apply jn_pos; auto|]. unfold same_value. cbn [canon]. f_equal. apply Z.mod_small. lia.
    + apply ln_wrap; auto. lia.
Qed.
Lemma lnumber_neg t pos v : intpart t -> pos < 4 -> number_value strtod pos (45 :: t) = Some v -> lnumber strtod (45 :: t) v.
Proof.
  intros Ht L H. pose proof (decimal_nonneg _ (intpart_digits _ Ht)) as N0.
  unfold number_value in H. destruct (intpart_head t Ht) as (c & t' & E & _ & _). rewrite E in H.
  replace (pos <? 4) with true in H by lia. cbn [Z.eqb Pos.eqb] in H. cbv zeta in H. rewrite <- E in H. clear E c t'.
  rewrite digits_value_dec in H. unfold to_signed in H. rewrite Zmod_mod in H.
  destruct (_ =? _) eqn:E1 in H; [discriminate|]. apply (f_equal (fun o => match o with Some x => x | None => JNull end)) in H. cbv beta iota in H. subst v.
  destruct (Z_lt_dec (decimal t) (2 ^ 63)) as [S1|S1].
  - apply ln_json with (JInt (- decimal t)); [apply jn_neg; auto|]. unfold same_value. cbn [canon]. f_equal.
    rewrite Z.mod_small in * by lia. destruct (_ <? _) eqn:E2; [reflexivity|]. lia.
  - revert E1. destruct (_ <? _) eqn:E2; intros E1.
    + apply ln_wrap_neg; auto; try lia.
    + apply ln_wrap_neg; auto; try lia.
Qed.
Lemma lnumber_real t v pos : 4 <= pos -> (exists m i f e, t = m ++ i ++ f ++ e /\ f ++ e <> [] /\ frac f /\ expo e
    /\ ((m = [] \/ m = [45]) /\ intpart i \/ m = [45] /\ i = [])) ->
  number_value strtod pos t = Some v -> lnumber strtod t v.
Proof.
  intros L (m & i & f & e & -> & N & Hf & He & Hm) H.
  assert (LEN : (2 <= length (m ++ i ++ f ++ e))%nat).
  { rewrite !app_length. assert (X : (1 <= length (f ++ e))%nat) by (destruct (f ++ e); [congruence|simpl; lia]). rewrite app_length in X.
    destruct Hm as [[_ Hi]|[-> ->]]; [destruct (intpart_head i Hi) as (c & i' & -> & _)|]; simpl; lia. }
  assert (V : v = JDouble (strtod (m ++ i ++ f ++ e))).
  { unfold number_value in H. destruct (m ++ i ++ f ++ e) as [|a [|b l]]; [simpl in LEN; lia..|].
    replace (pos <? 4) with false in H by lia. congruence. }
  subst v. destruct Hm as [[Hm Hi]|[-> ->]].
  - apply ln_json with (JDouble (strtod (m ++ i ++ f ++ e))); [|reflexivity]. apply jn_real; auto.
  - cbn [app]. apply ln_minus; auto.
Qed.
Lemma number_inv c r pos t r' v : (c =? 45) || within c 48 58 = true -> number_scan 0 (c :: r) = (pos, (t, r')) ->
  Z.even pos = false -> number_value strtod pos t = Some v -> c :: r = t ++ r' /\ lnumber strtod t v.
Proof.
  intros Hc H O V. split.
  { pose proof (number_scan_splits 0 (c :: r)) as X. rewrite H in X. now symmetry. }
  change (number_scan 0 (c :: r)) with (if c =? 45 then take c (case2 r) else case2 (c :: r)) in H.
  destruct (c =? 45) eqn:E.
  - replace c with 45 in * by lia.
    assert (O2 : odd_of (case2 r)). { unfold odd_of. rewrite <- (pos_take 45), H. exact O. }
    assert (P1 : fst (case2 r) = pos) by (rewrite <- (pos_take 45), H; reflexivity).
    assert (P2 : 45 :: tk (case2 r) = t) by (rewrite <- tk_take, H; reflexivity).
    apply case2_inv in O2. destruct O2 as [[L Hi]|(L & i & f & e & T & Hi & Hf & He & N & _)].
    + subst t. apply lnumber_neg with pos; auto. lia.
    + apply lnumber_real with pos; [lia| |exact V]. exists [45], i, f, e. split; [now rewrite <- P2, T|]. repeat split; auto.
      destruct Hi as [Hi| ->]; auto.
  - assert (O2 : odd_of (case2 (c :: r))). { unfold odd_of. now rewrite H. }
    assert (P1 : fst (case2 (c :: r)) = pos) by now rewrite H.
    assert (P2 : tk (case2 (c :: r)) = t) by now rewrite H.
    apply case2_inv in O2. destruct O2 as [[L Hi]|(L & i & f & e & T & Hi & Hf & He & N & D)].
    + subst t. apply lnumber_pos with pos; auto. lia.
    + apply lnumber_real with pos; [lia| |exact V]. exists [], i, f, e. split; [now rewrite <- P2, T|]. repeat split; auto.
      destruct Hi as [Hi| ->]; [auto|]. exfalso. apply (D eq_refl). unfold isdig, within in *. lia.
Qed.
Lemma lnumber_scalar t v : lnumber strtod t v -> is_a v = false /\ is_o v = false.
Proof.
  intros [t0 v0 v' J S1| | |]; auto. destruct J; unfold same_value in S1; destruct v'; auto; discriminate.
Qed.
End N.
