(* Strings, words and numbers of the grammar are read as the grammar says. *)
From Verif Require Import Lib M_Msgpack M_JsonText Spec_JsonText P_JsonText1.

(* ------------------------------------------------------------------ UTF-8 *)
Lemma brute (f : Z -> bool) n : forallb f (map Z.of_nat (seq 0 n)) = true -> forall x, 0 <= x < Z.of_nat n -> f x = true.
Proof.
  intros H x Hx. rewrite forallb_forall in H. apply H. apply in_map_iff. exists (Z.to_nat x).
  split; [lia|]. apply in_seq. lia.
Qed.
Lemma lor128 x : 0 <= x < 64 -> chr (Z.lor 128 x) = 128 + x.
Proof. intros H. apply Z.eqb_eq. revert x H. apply (brute (fun x => chr (Z.lor 128 x) =? 128 + x) 64). reflexivity. Qed.
Lemma lor192 x : 0 <= x < 32 -> chr (Z.lor 192 x) = 192 + x.
Proof. intros H. apply Z.eqb_eq. revert x H. apply (brute (fun x => chr (Z.lor 192 x) =? 192 + x) 32). reflexivity. Qed.
Lemma lor224 x : 0 <= x < 16 -> chr (Z.lor 224 x) = 224 + x.
Proof. intros H. apply Z.eqb_eq. revert x H. apply (brute (fun x => chr (Z.lor 224 x) =? 224 + x) 16). reflexivity. Qed.
Lemma lor240 x : 0 <= x < 8 -> chr (Z.lor 240 x) = 240 + x.
Proof. intros H. apply Z.eqb_eq. revert x H. apply (brute (fun x => chr (Z.lor 240 x) =? 240 + x) 8). reflexivity. Qed.

Lemma append_utf8_ok c : scalar c -> 0 < c < 2048 \/ 32768 <= c <= 65533 \/ 65536 <= c -> append_utf8 c = Some (utf8 c).
Proof.
  intros [S1 S2] H. unfold append_utf8, utf8.
  change (2 ^ 6) with 64; change (2 ^ 12) with 4096; change (2 ^ 18) with 262144.
  destruct (c <=? 0) eqn:E0; [lia|].
  destruct (c <=? 127) eqn:E1. { destruct (c <? 128) eqn:?; [reflexivity|lia]. }
  destruct (c <? 128) eqn:E1'; [lia|].
  destruct (c <? 32768) eqn:E2.
  { destruct (c <? 2048) eqn:E3; [|lia]. rewrite lor192, lor128 by lia. reflexivity. }
  destruct (c <? 2048) eqn:E3; [lia|].
  destruct (c <? 65536) eqn:E4.
  { destruct (_ || _) eqn:E5; [lia|]. rewrite lor224, !lor128 by lia. reflexivity. }
  destruct (c <? 1114112) eqn:E6; [|lia].
  rewrite lor240, !lor128 by lia. reflexivity.
Qed.

(* ------------------------------------------------------------------ characters *)
Lemma hexdig_range a x : hexdig a = Some x -> 0 <= x < 16.
Proof.
  unfold hexdig. intros H. destruct ((48 <=? a) && (a <=? 57)) eqn:E1; [injection H as <-; lia|].
  destruct ((65 <=? a) && (a <=? 70)) eqn:E2; [injection H as <-; lia|].
  destruct ((97 <=? a) && (a <=? 102)) eqn:E3; [injection H as <-; lia|discriminate].
Qed.
Lemma hex_first_ok a : hex_first a = hexdig a.
Proof.
  unfold hex_first, hexdig, within.
  replace (a <? 58) with (a <=? 57) by lia. replace (a <? 71) with (a <=? 70) by lia. replace (a <? 103) with (a <=? 102) by lia.
  destruct (_ && _); [reflexivity|]. destruct (_ && _); [f_equal; lia|]. destruct (_ && _); [f_equal; lia|reflexivity].
Qed.
Lemma hex_second_ok a x : a <= 70 -> hexdig a = Some x -> hex_second a = Some x.
Proof.
  unfold hex_second, hexdig, within. intros H.
  replace (a <? 58) with (a <=? 57) by lia. replace (a <? 71) with (a <=? 70) by lia.
  destruct ((48 <=? a) && (a <=? 57)) eqn:E1; [auto|].
  destruct ((65 <=? a) && (a <=? 70)) eqn:E2; [intros X; inversion X; f_equal; lia|].
  destruct ((97 <=? a) && (a <=? 102)) eqn:E3; [lia|discriminate].
Qed.
Lemma hex4_len h x : hex4 h x -> length h = 4%nat /\ 0 <= x < 65536.
Proof.
  intros (a & b & c & d & a' & b' & c' & d' & -> & A & B & C & D & ->).
  apply hexdig_range in A, B, C, D. split; [reflexivity|lia].
Qed.
Lemma hex_first_hex4 h x r : hex4 h x -> hex hex_first 4 0 (h ++ r) = HOk x.
Proof.
  intros (a & b & c & d & a' & b' & c' & d' & -> & A & B & C & D & ->).
  cbn [app hex]. rewrite !hex_first_ok, A, B, C, D. f_equal. lia.
Qed.
Lemma hex_second_hex4 h x r : hex4 h x -> Forall (fun c => c <= 70) h -> hex hex_second 4 0 (h ++ r) = HOk x.
Proof.
  intros (a & b & c & d & a' & b' & c' & d' & -> & A & B & C & D & ->) F.
  inversion F as [|? ? F1 F']; subst. inversion F' as [|? ? F2 F'']; subst. inversion F'' as [|? ? F3 F3']; subst.
  inversion F3' as [|? ? F4 _]; subst.
  cbn [app hex]. rewrite (hex_second_ok a a'), (hex_second_ok b b'), (hex_second_ok c c'), (hex_second_ok d d') by assumption.
  f_equal. lia.
Qed.
Lemma skipn_app4 (h r : list Z) : length h = 4%nat -> skipn 4 (h ++ r) = r.
Proof. intros H. rewrite <- H. rewrite skipn_app, skipn_all, Nat.sub_diag. reflexivity. Qed.
Lemma backslash_u h r : backslash (117 :: h ++ r) =
  match hex hex_first 4 0 (h ++ r) with
  | HErr => TErr
  | HInc => TInc
  | HOk ch =>
    if within ch 55296 57344 then
      if 56320 <=? ch then TErr
      else match skipn 4 (h ++ r) with
      | [] => TInc
      | a :: r1 =>
        if negb (a =? 92) then TErr
        else match r1 with
        | [] => TInc
        | u :: r2 =>
          if negb (u =? 117) then TErr
          else match hex hex_second 4 0 r2 with
          | HErr => TErr
          | HInc => TInc
          | HOk ch2 =>
            if negb (within ch2 56320 57344) then TErr
            else append_ch (65536 + (ch - 55296) * 1024 + (ch2 - 56320)) 12
          end
        end
      end
    else append_ch ch 6
  end.
Proof. reflexivity. Qed.

Lemma jchar_decode t c : jchar false t c -> exists b0 t', t = b0 :: t' /\
  forall r, string_char b0 (t' ++ r) = TOk (utf8 c) (length t).
Proof.
  intros H. inversion H as [c0 Hs H1 H2 H3|e c0 Hin|h c0 Hh Hs [X|Hr]|h1 h2 hi lo Hh1 H1 Hh2 H2 [X|Hu]]; subst; try discriminate.
  - destruct Hs as [S1 S2]. unfold utf8. destruct (c <? 128) eqn:E1.
    { exists c, []. split; [reflexivity|]. intros r. unfold string_char, within.
      destruct (_ && _) eqn:E; [reflexivity|lia]. }
    destruct (c <? 2048) eqn:E2; [|destruct (c <? 65536) eqn:E3].
    + eexists _, [_]. split; [reflexivity|]. intros r. cbn [app length].
      set (a := 192 + c / 64). set (b := 128 + c mod 64).
      assert (Ha : 194 <= a < 224) by (unfold a; lia). assert (Hb : 128 <= b < 192) by (unfold b; lia).
      unfold string_char. replace (within a 32 128) with false by (unfold within; lia). cbn [andb].
      replace (a =? 92) with false by lia. replace (a =? 34) with false by lia.
      unfold multibyte. replace (within a 194 245) with true by (unfold within; lia). cbn [negb].
      replace (224 <=? a) with false by lia. replace (240 <=? a) with false by lia.
      replace (within b 128 192) with true by (unfold within; lia). reflexivity.
    + eexists _, [_; _]. split; [reflexivity|]. intros r. cbn [app length].
      set (a := 224 + c / 4096). set (b := 128 + c / 64 mod 64). set (d := 128 + c mod 64).
      assert (Ha : 224 <= a < 240) by (unfold a; lia). assert (Hb : 128 <= b < 192) by (unfold b; lia).
      assert (Hd : 128 <= d < 192) by (unfold d; lia).
      unfold string_char. replace (within a 32 128) with false by (unfold within; lia). cbn [andb].
      replace (a =? 92) with false by lia. replace (a =? 34) with false by lia.
      unfold multibyte. replace (within a 194 245) with true by (unfold within; lia). cbn [negb].
      replace (224 <=? a) with true by lia. replace (240 <=? a) with false by lia.
      replace (within b 128 192) with true by (unfold within; lia).
      replace (bad_second a b) with false by (unfold bad_second, a, b; lia).
      replace (within d 128 192) with true by (unfold within; lia). reflexivity.
    + eexists _, [_; _; _]. split; [reflexivity|]. intros r. cbn [app length].
      set (a := 240 + c / 262144). set (b := 128 + c / 4096 mod 64). set (d := 128 + c / 64 mod 64).
      set (e := 128 + c mod 64).
      assert (Ha : 240 <= a < 245) by (unfold a; lia). assert (Hb : 128 <= b < 192) by (unfold b; lia).
      assert (Hd : 128 <= d < 192) by (unfold d; lia). assert (He : 128 <= e < 192) by (unfold e; lia).
      unfold string_char. replace (within a 32 128) with false by (unfold within; lia). cbn [andb].
      replace (a =? 92) with false by lia. replace (a =? 34) with false by lia.
      unfold multibyte. replace (within a 194 245) with true by (unfold within; lia). cbn [negb].
      replace (224 <=? a) with true by lia. replace (240 <=? a) with true by lia.
      replace (within b 128 192) with true by (unfold within; lia).
      replace (bad_second a b) with false by (unfold bad_second, a, b; lia).
      replace (within d 128 192) with true by (unfold within; lia).
      replace (within e 128 192) with true by (unfold within; lia). reflexivity.
  - exists 92, [e]. split; [reflexivity|]. intros r.
    cbn [In] in Hin. repeat (destruct Hin as [E|Hin]; [injection E as <- <-; reflexivity|]). destruct Hin.
  - exists 92, (117 :: h). split; [reflexivity|]. intros r.
    change (string_char 92 ((117 :: h) ++ r)) with (backslash (117 :: h ++ r)). rewrite backslash_u.
    rewrite (hex_first_hex4 h c r Hh). destruct Hs as [S1 S2].
    replace (within c 55296 57344) with false by (unfold within; lia).
    unfold append_ch. rewrite append_utf8_ok; [|split; assumption|tauto].
    destruct (hex4_len h c Hh) as [-> _] || (destruct (hex4_len h c Hh) as [L _]; cbn [length]; rewrite L). reflexivity.
  - exists 92, (117 :: h1 ++ 92 :: 117 :: h2). split; [reflexivity|]. intros r.
    replace ((117 :: h1 ++ 92 :: 117 :: h2) ++ r) with (117 :: h1 ++ (92 :: 117 :: h2 ++ r)) by (simpl; now rewrite <- app_assoc).
    change (string_char 92 (117 :: h1 ++ (92 :: 117 :: h2 ++ r))) with (backslash (117 :: h1 ++ (92 :: 117 :: h2 ++ r))).
    rewrite backslash_u. rewrite (hex_first_hex4 h1 hi _ Hh1).
    destruct (hex4_len _ _ Hh1) as [L1 _]. destruct (hex4_len _ _ Hh2) as [L2 _].
    replace (within hi 55296 57344) with true by (unfold within; lia).
    replace (56320 <=? hi) with false by lia.
    rewrite skipn_app4 by assumption. cbn [Z.eqb Pos.eqb negb].
    rewrite (hex_second_hex4 h2 lo r Hh2 Hu).
    replace (within lo 56320 57344) with true by (unfold within; lia). cbn [negb].
    unfold append_ch. rewrite append_utf8_ok; [|split; lia|lia].
    f_equal. cbn [length]. rewrite app_length. cbn [length]. lia.
Qed.

Lemma string_loop_skip : forall u acc r, string_loop (length u) acc (u ++ r) = string_loop 0 acc r.
Proof. induction u as [|c u IH]; intros; simpl; [reflexivity|]. apply IH. Qed.
Lemma string_loop_char t c acc r : jchar false t c -> string_loop 0 acc (t ++ r) = string_loop 0 (acc ++ utf8 c) r.
Proof.
  intros H. destruct (jchar_decode t c H) as (b0 & t' & -> & D).
  cbn [app]. cbn [string_loop]. rewrite D. cbn [length]. replace (S (length t') - 1)%nat with (length t') by lia.
  apply string_loop_skip.
Qed.
Lemma string_loop_chars t cs : jchars false t cs -> forall acc r,
  string_loop 0 acc (t ++ 34 :: r) = SDone (acc ++ flat_map utf8 cs) r.
Proof.
  induction 1 as [|t c t' cs Hc Hcs IH]; intros acc r.
  - simpl. now rewrite app_nil_r.
  - rewrite <- app_assoc. rewrite (string_loop_char t c) by assumption. rewrite IH. simpl. now rewrite <- app_assoc.
Qed.

(* ------------------------------------------------------------------ numbers *)
(* A number is followed by nothing or by a byte that cannot be part of it. *)
Definition stops (r : list Z) : Prop :=
  match r with [] => True | c :: _ => digit c = false /\ c <> 46 /\ c <> 101 /\ c <> 69 end.
Lemma isdig_digit c : isdig c -> digit c = true. Proof. unfold isdig, digit, within. lia. Qed.
Definition addp (t : list Z) (x : nres) : nres := (fst x, (t ++ fst (snd x), snd (snd x))).
Lemma take_addp c t x : take c (addp t x) = addp (c :: t) x. Proof. reflexivity. Qed.
Lemma addp_nil x : addp [] x = x. Proof. destruct x as [? [? ?]]. reflexivity. Qed.
Lemma digits_run k t r : Forall isdig t -> match r with c :: _ => digit c = false | [] => True end ->
  digits k (t ++ r) = addp t (k r).
Proof.
  intros H Hr. induction H as [|c t Hc Ht IH]; simpl.
  - rewrite addp_nil. destruct r as [|c r]; simpl; [reflexivity|]. now rewrite Hr.
  - rewrite isdig_digit by assumption. rewrite IH. reflexivity.
Qed.
Lemma stops_digit r : stops r -> match r with c :: _ => digit c = false | [] => True end.
Proof. destruct r; simpl; tauto. Qed.
Lemma maybe_exponent_stop p r : stops r -> maybe_exponent p r = (p, ([], r)).
Proof.
  destruct r as [|c r]; simpl; [reflexivity|]. intros (_ & _ & H1 & H2).
  replace (c =? 101) with false by lia. replace (c =? 69) with false by lia. reflexivity.
Qed.
Lemma case3_stop p r : stops r -> case3 p r = (p, ([], r)).
Proof.
  intros H. destruct r as [|c r]; [reflexivity|]. unfold case3.
  destruct (c =? 46) eqn:E; [destruct H as (_ & H & _); lia|]. now apply maybe_exponent_stop.
Qed.
Lemma expo_scan e : expo e -> forall p r, stops r ->
  maybe_exponent p (e ++ r) = (match e with [] => p | _ => 9 end, (e, r)).
Proof.
  intros H p r Hr. destruct H as [|e s c t He Hs Hc Ht]; [now apply maybe_exponent_stop|].
  cbn [app]. unfold maybe_exponent. replace ((e =? 101) || (e =? 69)) with true by lia.
  assert (X : case8 (c :: t ++ r) = (9, (c :: t, r))).
  { unfold case8. rewrite isdig_digit by assumption. unfold case9. rewrite digits_run; [|assumption|now apply stops_digit].
    cbv [take addp fst snd]. now rewrite app_nil_r. }
  destruct Hs as [-> | [-> | -> ]]; cbn [app].
  - unfold case6. unfold isdig in Hc. replace ((c =? 43) || (c =? 45)) with false by lia. rewrite X. reflexivity.
  - unfold case6. cbn [Z.eqb Pos.eqb orb]. rewrite X. reflexivity.
  - unfold case6. cbn [Z.eqb Pos.eqb orb]. rewrite X. reflexivity.
Qed.
Lemma frac_scan f : frac f -> forall p e r, expo e -> stops r ->
  case3 p (f ++ e ++ r) = (match f ++ e with [] => p | _ => match e with [] => 5 | _ => 9 end end, (f ++ e, r)).
Proof.
  intros H p e r He Hr. destruct H as [|c t Hc Ht].
  - cbn [app]. unfold case3. destruct (e ++ r) as [|c s] eqn:E.
    + apply app_eq_nil in E. destruct E as [-> ->]. reflexivity.
    + destruct (c =? 46) eqn:E1.
      * exfalso. destruct He as [|x s0 y t Hx]; simpl in E.
        -- subst r. simpl in Hr. lia.
        -- injection E as E2 E3. lia.
      * rewrite <- E. rewrite expo_scan by assumption. destruct e; reflexivity.
  - cbn [app]. unfold case3. cbn [Z.eqb Pos.eqb]. unfold case4. rewrite isdig_digit by assumption.
    unfold case5. rewrite digits_run; [|assumption|].
    + rewrite expo_scan by assumption. cbv [take addp fst snd]. reflexivity.
    + destruct He as [|x s y t0 Hx]; simpl; [now apply stops_digit|]. unfold digit, within. lia.
Qed.
Lemma int_scan t : intpart t -> forall f e r, frac f -> expo e -> stops r ->
  case2 (t ++ f ++ e ++ r) = (match f ++ e with [] => match t with 48 :: _ => 3 | _ => 1 end
    | _ => match e with [] => 5 | _ => 9 end end, (t ++ f ++ e, r)).
Proof.
  intros H f e r Hf He Hr. destruct H as [|c t Hc Ht].
  - cbn [app]. unfold case2. cbn [Z.eqb Pos.eqb]. rewrite frac_scan by assumption. cbv [take fst snd]. reflexivity.
  - cbn [app]. unfold case2. replace (c =? 48) with false by lia.
    replace (within c 49 58) with true by (unfold within; lia).
    unfold case1. rewrite digits_run; [|assumption|].
    + rewrite frac_scan by assumption. cbv [take addp fst snd]. do 2 f_equal.
      destruct (f ++ e); [|reflexivity]. destruct c as [|q|q]; try reflexivity; try lia.
      destruct (Pos.eq_dec q 48) as [->|N]; [lia|].
      assert (Q : forall q : positive, q <> 48%positive -> match Z.pos q with 48 => 3 | _ => 1 end = 1).
      { clear. intros q H. do 6 (destruct q; try reflexivity); congruence. }
      symmetry. exact (Q q N).
    + destruct Hf; simpl; [|reflexivity]. destruct He as [|x s y t0 Hx]; simpl; [now apply stops_digit|]. unfold digit, within. lia.
Qed.
Lemma intpart_head t : intpart t -> exists c t', t = c :: t' /\ isdig c /\ Forall isdig t'.
Proof. intros [|c t' H1 H2]; [exists 48, []|exists c, t']; unfold isdig; repeat split; auto; lia. Qed.
Lemma num_scan m t f e r : m = [] \/ m = [45] -> intpart t -> frac f -> expo e -> stops r ->
  number_scan 0 (m ++ t ++ f ++ e ++ r) = (match f ++ e with [] => match t with 48 :: _ => 3 | _ => 1 end
    | _ => match e with [] => 5 | _ => 9 end end, (m ++ t ++ f ++ e, r)).
Proof.
  intros Hm Ht Hf He Hr. unfold number_scan. cbn [Z.eqb]. pose proof (int_scan t Ht f e r Hf He Hr) as X.
  destruct Hm as [->| ->]; cbn [app].
  - unfold case0. destruct (intpart_head t Ht) as (c & t' & -> & Hc & _). cbn [app] in X |- *.
    unfold isdig in Hc. replace (c =? 45) with false by lia. exact X.
  - unfold case0. cbn [Z.eqb Pos.eqb]. rewrite X. reflexivity.
Qed.

(* Horner's rule without overflow. *)
Lemma decimal_acc : forall t x, Forall isdig t -> fold_left (fun x c => 10 * x + (c - 48)) t x >= x \/ x < 0.
Proof.
  induction t as [|c t IH]; intros x H; cbn [fold_left]; [lia|]. inversion H as [|? ? Hc Ht]; subst. unfold isdig in Hc.
  destruct (IH (10 * x + (c - 48)) Ht); lia.
Qed.
Lemma digits_value_ok : forall t x, Forall isdig t -> 0 <= x ->
  fold_left (fun x c => 10 * x + (c - 48)) t x < 2 ^ 64 ->
  fold_left (fun x c => (x * 10 + c - 48) mod 2 ^ 64) t x = fold_left (fun x c => 10 * x + (c - 48)) t x.
Proof.
  induction t as [|c t IH]; intros x H Hx L; cbn [fold_left] in *; [reflexivity|].
  inversion H as [|? ? Hc Ht]; subst. unfold isdig in Hc.
  pose proof (decimal_acc t (10 * x + (c - 48)) Ht) as [G|G]; [|lia].
  replace ((x * 10 + c - 48) mod 2 ^ 64) with (10 * x + (c - 48)).
  - apply IH; auto. lia.
  - rewrite Z.mod_small; lia.
Qed.
Lemma intpart_digits t : intpart t -> Forall isdig t.
Proof. intros H. destruct (intpart_head t H) as (c & t' & -> & H1 & H2). now constructor. Qed.
Lemma decimal_nonneg t : Forall isdig t -> 0 <= decimal t.
Proof. intros H. unfold decimal. destruct (decimal_acc t 0 H); lia. Qed.

Section N.
Variable strtod : list Z -> Z.
Lemma jnumber_head t v : jnumber false strtod t v -> exists c t', t = c :: t' /\ (c =? 45) || within c 48 58 = true.
Proof.
  intros H. destruct H as [t Ht|t Ht|m t f e Hm Ht Hf He].
  - destruct (intpart_head t Ht) as (c & t' & -> & Hc & _). exists c, t'. split; auto. unfold isdig, within in *. lia.
  - exists 45, t. auto.
  - destruct (intpart_head t Ht) as (c & t' & -> & Hc & _). destruct Hm as [->| ->].
    + exists c. eexists. split; [reflexivity|]. unfold isdig, within in *. lia.
    + exists 45. eexists. split; [reflexivity|]. reflexivity.
Qed.
Lemma jnumber_scan t v r : jnumber false strtod t v -> stops r ->
  exists pos v', number_scan 0 (t ++ r) = (pos, (t, r)) /\ Z.even pos = false
    /\ number_value strtod pos t = Some v' /\ same_value v' v /\ is_a v' = false /\ is_o v' = false.
Proof.
  intros H Hr. destruct H as [t Ht [X|L]|t Ht [X|L]|m t f e Hm Ht Hf He Hne]; try discriminate.
  - pose proof (num_scan [] t [] [] r (or_introl eq_refl) Ht fr_none ex_none Hr) as S1. cbn [app] in S1.
    rewrite app_nil_r in S1.
    eexists _, (if (length t =? 1)%nat then JInt (decimal t) else JUns (decimal t)).
    split; [exact S1|]. split; [|split; [|split; [|split]]].
    + destruct t as [|c t]; [reflexivity|]. destruct c as [|q|q]; try reflexivity. do 6 (destruct q; try reflexivity).
    + unfold number_value. destruct (intpart_head t Ht) as (c & t' & -> & Hc & Ht').
      destruct t' as [|d t'].
      * cbn [length Nat.eqb]. unfold decimal. cbn [fold_left]. do 2 f_equal; lia.
      * cbn [length Nat.eqb].
        match goal with |- (if ?p <? 4 then _ else _) = _ => replace (p <? 4) with true end.
        2: { destruct c as [|q|q]; try reflexivity. do 6 (destruct q; try reflexivity). }
        replace (c =? 45) with false by (unfold isdig in Hc; lia).
        f_equal. f_equal. apply digits_value_ok; [now apply intpart_digits|lia|exact L].
    + destruct (length t =? 1)%nat; reflexivity.
    + destruct (length t =? 1)%nat; reflexivity.
    + destruct (length t =? 1)%nat; reflexivity.
  - pose proof (num_scan [45] t [] [] r (or_intror eq_refl) Ht fr_none ex_none Hr) as S1. cbn [app] in S1.
    rewrite app_nil_r in S1.
    eexists _, (JInt (- decimal t)). split; [exact S1|]. repeat split.
    + destruct t as [|c t]; [reflexivity|]. destruct c as [|q|q]; try reflexivity. do 6 (destruct q; try reflexivity).
    + unfold number_value. destruct (intpart_head t Ht) as (c & t' & -> & Hc & Ht').
      match goal with |- (if ?p <? 4 then _ else _) = _ => replace (p <? 4) with true end.
      2: { destruct c as [|q|q]; try reflexivity. do 6 (destruct q; try reflexivity). }
      cbn [Z.eqb Pos.eqb]. cbv zeta.
      assert (D : digits_value (c :: t') = decimal (c :: t')).
      { apply digits_value_ok; [now apply intpart_digits|lia|]. change (decimal (c :: t') < 2 ^ 64). lia. }
      rewrite D. pose proof (decimal_nonneg _ (intpart_digits _ Ht)) as N0.
      assert (S2 : to_signed 64 (decimal (c :: t')) = decimal (c :: t')).
      { unfold to_signed. rewrite Z.mod_small by lia. destruct (_ <? _) eqn:E; [reflexivity|]. lia. }
      rewrite S2. destruct (_ =? _) eqn:E; [lia|reflexivity].
  - pose proof (num_scan m t f e r Hm Ht Hf He Hr) as S1. rewrite <- !app_assoc.
    eexists _, (JDouble (strtod (m ++ t ++ f ++ e))). split; [exact S1|]. repeat split.
    + destruct (f ++ e); [congruence|]. destruct e; reflexivity.
    + unfold number_value. destruct (intpart_head t Ht) as (c & t' & -> & Hc & Ht').
      assert (P4 : (match f ++ e with [] => match (c :: t') with 48 :: _ => 3 | _ => 1 end
        | _ => match e with [] => 5 | _ => 9 end end <? 4) = false).
      { destruct (f ++ e); [congruence|]. destruct e; reflexivity. }
      rewrite P4. destruct (m ++ (c :: t') ++ f ++ e) as [|a [|b l]] eqn:E; try reflexivity.
      exfalso. assert (L : length (m ++ (c :: t') ++ f ++ e) = 1%nat) by now rewrite E.
      rewrite app_length in L. rewrite app_length in L. cbn [length] in L. destruct (f ++ e); [congruence|]. cbn [length] in L. lia.
Qed.
End N.
