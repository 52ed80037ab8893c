(* The parser on a text in pieces: strings, words and numbers that a piece ends in. *)
From Verif Require Import Lib M_Msgpack M_JsonText Spec_JsonText P_JsonText1 P_JsonText2.

(* ------------------------------------------------------------------ one character *)
Definition stable (x y : tok) : Prop := match x with TInc | TUB => True | _ => y = x end.
Lemma hex_app dig s2 : forall n ch s,
  match hex dig n ch s with HInc => True | x => hex dig n ch (s ++ s2) = x end.
Proof.
  induction n as [|n IH]; intros ch s; [reflexivity|]. cbn [hex]. destruct s as [|c r]; [exact Logic.I|]. cbn [app].
  destruct (dig c); [|reflexivity]. apply IH.
Qed.
Lemma hex_ok_len dig : forall n ch s x, hex dig n ch s = HOk x -> (n <= length s)%nat.
Proof.
  induction n as [|n IH]; intros ch s x H; [lia|]. cbn [hex] in H. destruct s as [|c r]; [discriminate|].
  destruct (dig c); [|discriminate]. apply IH in H. simpl. lia.
Qed.
Lemma hex_inc dig c : forall n ch s, hex dig n ch s = HInc ->
  (length s < n)%nat /\ (dig c = None -> hex dig n ch (s ++ [c]) = HErr)
  /\ (dig c <> None -> (length s + 1 < n)%nat -> hex dig n ch (s ++ [c]) = HInc)
  /\ (dig c <> None -> (length s + 1)%nat = n -> exists x, hex dig n ch (s ++ [c]) = HOk x).
Proof.
  induction n as [|n IH]; intros ch s H; [discriminate|]. destruct s as [|d r].
  - cbn [app length hex]. split; [lia|]. destruct (dig c) as [x|].
    + split; [discriminate|]. split; intros _ L.
      * destruct n; [lia|]. reflexivity.
      * destruct n; [|lia]. cbn [hex]. eauto.
    + split; [reflexivity|]. split; intros X; now destruct X.
  - cbn [hex] in H. cbn [app length hex]. destruct (dig d) as [x|]; [|discriminate].
    destruct (IH _ _ H) as (A & B & C & D). split; [lia|]. split; [exact B|]. split.
    + intros X L. apply C; [exact X|lia].
    + intros X L. apply D; [exact X|lia].
Qed.
Lemma append_ch_stable ch n y : y = append_ch ch n -> stable (append_ch ch n) y.
Proof. intros ->. unfold append_ch. destruct (append_utf8 ch); reflexivity. Qed.
Lemma skipn_app_le {A} n (a b : list A) : (n <= length a)%nat -> skipn n (a ++ b) = skipn n a ++ b.
Proof. intros H. rewrite skipn_app. replace (n - length a)%nat with 0%nat by lia. reflexivity. Qed.
Lemma backslash_app s s2 : stable (backslash s) (backslash (s ++ s2)).
Proof.
  destruct s as [|c r]; [exact Logic.I|]. cbn [app]. unfold backslash.
  destruct ((c =? 34) || (c =? 92) || (c =? 47)); [now apply append_ch_stable|].
  destruct (c =? 98); [now apply append_ch_stable|]. destruct (c =? 102); [now apply append_ch_stable|].
  destruct (c =? 110); [now apply append_ch_stable|]. destruct (c =? 114); [now apply append_ch_stable|].
  destruct (c =? 116); [now apply append_ch_stable|]. destruct (c =? 117); [|reflexivity].
  pose proof (hex_app hex_first s2 4 0 r) as H. destruct (hex hex_first 4 0 r) as [ch| |] eqn:E; [|now rewrite H|exact Logic.I].
  rewrite H. apply hex_ok_len in E. destruct (within ch 55296 57344); [|now apply append_ch_stable].
  destruct (56320 <=? ch); [reflexivity|]. rewrite skipn_app_le by exact E.
  destruct (skipn 4 r) as [|a r1]; [exact Logic.I|]. cbn [app]. destruct (negb (a =? 92)); [reflexivity|].
  destruct r1 as [|u r2]; [exact Logic.I|]. cbn [app]. destruct (negb (u =? 117)); [reflexivity|].
  pose proof (hex_app hex_second s2 4 0 r2) as H2. destruct (hex hex_second 4 0 r2) as [ch2| |]; [|now rewrite H2|exact Logic.I].
  rewrite H2. destruct (negb (within ch2 56320 57344)); [reflexivity|]. now apply append_ch_stable.
Qed.
Lemma multibyte_app c s s2 : stable (multibyte c s) (multibyte c (s ++ s2)).
Proof.
  unfold multibyte. destruct (negb (within c 194 245)); [reflexivity|]. cbv zeta.
  set (want := (2 + _ + _)%nat). destruct s as [|d r]; [destruct ((c =? 224) || (c =? 237) || (c =? 240) || (c =? 244)); exact Logic.I|].
  cbn [app]. destruct (negb (within d 128 192) || ((224 <=? c) && bad_second c d)); [reflexivity|].
  destruct (want =? 2)%nat; [reflexivity|]. destruct r as [|e r']; [exact Logic.I|]. cbn [app].
  destruct (negb (within e 128 192)); [reflexivity|]. destruct (want =? 3)%nat; [reflexivity|].
  destruct r' as [|f r2]; [exact Logic.I|]. cbn [app]. destruct (negb (within f 128 192)); reflexivity.
Qed.
Lemma string_char_app c s s2 : stable (string_char c s) (string_char c (s ++ s2)).
Proof.
  unfold string_char. destruct (within c 32 128 && negb (c =? 92) && negb (c =? 34)); [reflexivity|].
  destruct (c =? 92); [apply backslash_app|]. destruct (c =? 34); [reflexivity|]. apply multibyte_app.
Qed.
Lemma char_err c s s2 : string_char c s = TErr -> string_char c (s ++ s2) = TErr.
Proof. intros H. pose proof (string_char_app c s s2) as X. rewrite H in X. exact X. Qed.

Lemma append_ch_n ch n b m : append_ch ch n = TOk b m -> m = n.
Proof. unfold append_ch. destruct (append_utf8 ch); congruence. Qed.
Lemma string_char_len c s b n : string_char c s = TOk b n -> (1 <= n <= length s + 1)%nat.
Proof.
  unfold string_char. destruct (within c 32 128 && negb (c =? 92) && negb (c =? 34)).
  { intros H. injection H as <- <-. lia. }
  destruct (c =? 92).
  { unfold backslash. destruct s as [|e r]; [discriminate|]. cbn [length].
    repeat match goal with
    | |- (if ?b then append_ch _ _ else _) = _ -> _ => destruct b; [intros H; apply append_ch_n in H; lia|]
    end.
    destruct (e =? 117); [|discriminate]. destruct (hex hex_first 4 0 r) as [ch| |] eqn:E; try discriminate.
    apply hex_ok_len in E. destruct (within ch 55296 57344); [|intros H; apply append_ch_n in H; lia].
    destruct (56320 <=? ch); [discriminate|].
    assert (L : length r = (4 + length (skipn 4 r))%nat) by (rewrite skipn_length; lia).
    destruct (skipn 4 r) as [|a r1]; [discriminate|]. destruct (negb (a =? 92)); [discriminate|].
    destruct r1 as [|u r2]; [discriminate|]. destruct (negb (u =? 117)); [discriminate|].
    destruct (hex hex_second 4 0 r2) as [ch2| |] eqn:E2; try discriminate. apply hex_ok_len in E2.
    destruct (negb (within ch2 56320 57344)); [discriminate|]. intros H; apply append_ch_n in H. simpl in L. lia. }
  destruct (c =? 34); [discriminate|]. unfold multibyte. destruct (negb (within c 194 245)); [discriminate|]. cbv zeta.
  set (want := (2 + _ + _)%nat). destruct s as [|d r]; [destruct ((c =? 224) || (c =? 237) || (c =? 240) || (c =? 244)); discriminate|].
  destruct (negb (within d 128 192) || ((224 <=? c) && bad_second c d)); [discriminate|].
  destruct (want =? 2)%nat; [intros H; injection H as <- <-; simpl; lia|]. destruct r as [|e r']; [discriminate|].
  destruct (negb (within e 128 192)); [discriminate|]. destruct (want =? 3)%nat; [intros H; injection H as <- <-; simpl; lia|].
  destruct r' as [|f r2]; [discriminate|]. destruct (negb (within f 128 192)); [discriminate|]. intros H; injection H as <- <-; simpl; lia.
Qed.
Lemma append_ch_ub ch n : append_ch ch n <> TUB. Proof. unfold append_ch. destruct (append_utf8 ch); discriminate. Qed.
Lemma string_char_ub c s : string_char c s = TUB -> s = [] /\ lead c.
Proof.
  unfold string_char. destruct (within c 32 128 && negb (c =? 92) && negb (c =? 34)); [discriminate|].
  destruct (c =? 92).
  { unfold backslash. destruct s as [|e r]; [discriminate|].
    repeat match goal with
    | |- (if ?b then append_ch _ _ else _) = _ -> _ => destruct b; [intros H; now apply append_ch_ub in H|]
    end.
    destruct (e =? 117); [|discriminate]. destruct (hex hex_first 4 0 r) as [ch| |]; try discriminate.
    destruct (within ch 55296 57344); [|intros H; now apply append_ch_ub in H].
    destruct (56320 <=? ch); [discriminate|].
    destruct (skipn 4 r) as [|a r1]; [discriminate|]. destruct (negb (a =? 92)); [discriminate|].
    destruct r1 as [|u r2]; [discriminate|]. destruct (negb (u =? 117)); [discriminate|].
    destruct (hex hex_second 4 0 r2) as [ch2| |]; try discriminate.
    destruct (negb (within ch2 56320 57344)); [discriminate|]. intros H; now apply append_ch_ub in H. }
  destruct (c =? 34); [discriminate|]. unfold multibyte. destruct (negb (within c 194 245)); [discriminate|]. cbv zeta.
  set (want := (2 + _ + _)%nat). destruct s as [|d r].
  { destruct ((c =? 224) || (c =? 237) || (c =? 240) || (c =? 244)) eqn:E; [|discriminate]. intros _. split; [reflexivity|]. unfold lead. lia. }
  destruct (negb (within d 128 192) || ((224 <=? c) && bad_second c d)); [discriminate|].
  destruct (want =? 2)%nat; [discriminate|]. destruct r as [|e r']; [discriminate|].
  destruct (negb (within e 128 192)); [discriminate|]. destruct (want =? 3)%nat; [discriminate|].
  destruct r' as [|f r2]; [discriminate|]. destruct (negb (within f 128 192)); discriminate.
Qed.

(* The forms of an unfinished escape. *)
Definition high (r : list Z) : Prop := length r = 4%nat /\ exists ch, hex hex_first 4 0 r = HOk ch /\ within ch 55296 57344 = true /\ (56320 <=? ch) = false.
Lemma append_ch_inc ch n : append_ch ch n <> TInc. Proof. unfold append_ch. destruct (append_utf8 ch); discriminate. Qed.
Lemma backslash_inc t : backslash t = TInc ->
  t = [] \/ (exists r, t = 117 :: r /\ hex hex_first 4 0 r = HInc)
  \/ (exists r, t = 117 :: r /\ high r) \/ (exists r, t = 117 :: r ++ [92] /\ high r)
  \/ (exists r r2, t = 117 :: r ++ 92 :: 117 :: r2 /\ high r /\ hex hex_second 4 0 r2 = HInc).
Proof.
  unfold backslash. destruct t as [|c r]; [auto|]. intros H. right.
  repeat match type of H with
  | (if ?b then append_ch _ _ else _) = _ => destruct b; [now apply append_ch_inc in H|]
  end.
  destruct (c =? 117) eqn:Ec; [|discriminate]. apply Z.eqb_eq in Ec. subst c.
  destruct (hex hex_first 4 0 r) as [ch| |] eqn:E; try discriminate; [|left; eauto]. right.
  destruct (within ch 55296 57344) eqn:W; [|now apply append_ch_inc in H].
  destruct (56320 <=? ch) eqn:L; [discriminate|]. pose proof (hex_ok_len _ _ _ _ _ E) as L4.
  set (r0 := firstn 4 r). assert (R : r = r0 ++ skipn 4 r) by (symmetry; apply firstn_skipn).
  assert (L0 : length r0 = 4%nat) by (unfold r0; rewrite firstn_length; lia).
  assert (E0 : hex hex_first 4 0 r0 = HOk ch).
  { pose proof (hex_app hex_first (skipn 4 r) 4 0 r0) as X. rewrite <- R, E in X.
    destruct (hex hex_first 4 0 r0) eqn:Y; try congruence.
    destruct (hex_inc hex_first 0 _ _ _ Y) as (Q & _). lia. }
  assert (HI : high r0) by (split; eauto).
  destruct (skipn 4 r) as [|a r1]; [left; exists r; rewrite R, app_nil_r; auto|]. right.
  destruct (negb (a =? 92)) eqn:Ea; [discriminate|]. assert (a = 92) by lia. subst a.
  destruct r1 as [|u r2]; [left; exists r0; rewrite R; auto|]. right.
  destruct (negb (u =? 117)) eqn:Eu; [discriminate|]. assert (u = 117) by lia. subst u.
  exists r0, r2. rewrite R at 1. split; [reflexivity|]. split; [exact HI|].
  destruct (hex hex_second 4 0 r2) as [ch2| |]; try discriminate; auto.
  destruct (negb (within ch2 56320 57344)); [discriminate|]. now apply append_ch_inc in H.
Qed.
Lemma backslash_u r : backslash (117 :: r) =
  match hex hex_first 4 0 r with
  | HErr => TErr | HInc => TInc
  | HOk ch =>
    if within ch 55296 57344 then
      if 56320 <=? ch then TErr
      else match skipn 4 r with
      | [] => TInc
      | a :: r1 =>
        if negb (a =? 92) then TErr
        else match r1 with
        | [] => TInc
        | u :: r2 =>
          if negb (u =? 117) then TErr
          else match hex hex_second 4 0 r2 with
          | HErr => TErr | HInc => TInc
          | HOk ch2 => if negb (within ch2 56320 57344) then TErr
                       else append_ch (65536 + (ch - 55296) * 1024 + (ch2 - 56320)) 12
          end
        end
      end
    else append_ch ch 6
  end.
Proof. reflexivity. Qed.
Lemma backslash_high r0 x : high r0 -> backslash (117 :: r0 ++ x) =
  match x with
  | [] => TInc
  | a :: r1 =>
    if negb (a =? 92) then TErr
    else match r1 with
    | [] => TInc
    | u :: r2 =>
      if negb (u =? 117) then TErr
      else match hex hex_second 4 0 r2 with
      | HErr => TErr | HInc => TInc
      | HOk ch2 => if negb (within ch2 56320 57344) then TErr
                   else match hex hex_first 4 0 r0 with HOk ch => append_ch (65536 + (ch - 55296) * 1024 + (ch2 - 56320)) 12 | _ => TErr end
      end
    end
  end.
Proof.
  intros (L & ch & E & W & B). rewrite backslash_u. pose proof (hex_app hex_first x 4 0 r0) as X. rewrite E in X. rewrite X, W, B, E.
  rewrite skipn_app, skipn_all2 by lia. rewrite L. reflexivity.
Qed.

(* The tests of consume_stringpart. *)
Definition fails (tag : Z) (part : nat) (c : Z) : bool :=
  (negb (tag =? 92) && negb (Z.land c 192 =? 128))
  || ((tag =? 92) && (part =? 6)%nat && negb (c =? 92))
  || ((tag =? 92) && (part =? 7)%nat && negb (c =? 117))
  || ((tag =? 92) && negb (part =? 1)%nat && negb (part =? 6)%nat && negb (part =? 7)%nat && negb (isxdigit c)).
Definition completes (tag : Z) (part : nat) : bool :=
  (negb (tag =? 92) && (part =? 1 + (if (224 <=? tag)%Z then 1 else 0) + (if (240 <=? tag)%Z then 1 else 0))%nat)
  || ((tag =? 92) && ((part =? 1)%nat || (part =? 5)%nat || (part =? 11)%nat)).
Lemma hex_first_x c : hex_first c = None <-> isxdigit c = false.
Proof.
  unfold hex_first, isxdigit, within. destruct ((48 <=? c) && (c <? 58)) eqn:A; [split; [discriminate|lia]|].
  destruct ((65 <=? c) && (c <? 71)) eqn:B; [split; [discriminate|lia]|].
  destruct ((97 <=? c) && (c <? 103)) eqn:D; [split; [discriminate|lia]|]. split; [lia|reflexivity].
Qed.
Lemma hex_second_x c : isxdigit c = false -> hex_second c = None.
Proof.
  unfold hex_second, isxdigit, within. destruct ((48 <=? c) && (c <? 58)) eqn:A; [lia|].
  destruct ((65 <=? c) && (c <? 71)) eqn:B; [lia|]. reflexivity.
Qed.
Definition next_ok (h : Z) (t : list Z) (c : Z) : Prop :=
  let x := string_char h (t ++ [c]) in
  if fails h (S (length t)) c then x = TErr
  else if completes h (S (length t)) then (x = TInc \/ x = TErr \/ exists b, x = TOk b (S (S (length t))))
  else x = TInc \/ x = TErr.
Lemma append_ch_cases ch n : append_ch ch n = TErr \/ exists b, append_ch ch n = TOk b n.
Proof. unfold append_ch. destruct (append_utf8 ch); eauto. Qed.
Lemma bs_one c : backslash [c] = TInc \/ backslash [c] = TErr \/ exists b, backslash [c] = TOk b 2.
Proof.
  unfold backslash.
  repeat match goal with
  | |- (if ?q then append_ch ?x ?n else _) = _ \/ _ => destruct q; [destruct (append_ch_cases x n) as [-> | [b ->]]; eauto|]
  end.
  destruct (c =? 117); auto.
Qed.
Lemma next_bs t c : backslash t = TInc -> next_ok 92 t c.
Proof.
  intros H. assert (SC : forall s, string_char 92 s = backslash s) by reflexivity.
  unfold next_ok. rewrite SC. unfold fails, completes. change (92 =? 92) with true. cbn [negb andb orb].
  destruct (backslash_inc t H) as [->|[(r & -> & HI)|[(r & -> & HH)|[(r & -> & HH)|(r & r2 & -> & HH & HI)]]]].
  - cbn [length app Nat.eqb negb andb orb]. apply bs_one.
  - cbn [length app]. destruct (hex_inc hex_first c _ _ _ HI) as (L & A & B & C). rewrite backslash_u.
    assert (F : (S (S (length r)) =? 6)%nat = false) by lia. assert (G : (S (S (length r)) =? 7)%nat = false) by lia.
    rewrite F, G. cbn [negb andb orb Nat.eqb].
    destruct (isxdigit c) eqn:X; cbn [negb].
    + assert (D : hex_first c <> None) by (rewrite hex_first_x; congruence).
      destruct (length r =? 3)%nat eqn:L3.
      * destruct (C D) as (x & ->); [lia|]. replace (S (length r) =? 4)%nat with true by lia. cbn [orb].
        replace (S (S (S (length r)))) with 6%nat by lia.
        destruct (within x 55296 57344) eqn:W; [|destruct (append_ch_cases x 6) as [-> | [b ->]]; eauto].
        destruct (56320 <=? x); [auto|]. rewrite skipn_all2 by (rewrite app_length; simpl; lia). auto.
      * rewrite B by (auto; lia). replace (S (length r) =? 4)%nat with false by lia.
        destruct (orb _ _); auto.
    + rewrite A by (now apply hex_first_x). reflexivity.
  - destruct HH as [L4 HH]. cbn [length app]. rewrite backslash_high by (split; auto). rewrite L4. cbn [Nat.eqb negb andb orb].
    destruct (negb (c =? 92)); cbn [orb]; [reflexivity|]. auto.
  - destruct HH as [L4 HH]. cbn [length app]. rewrite <- app_assoc. cbn [app]. rewrite backslash_high by (split; auto).
    rewrite app_length, L4. cbn [length Nat.add Nat.eqb negb andb orb]. change (92 =? 92) with true. cbn [negb].
    destruct (negb (c =? 117)); cbn [orb]; [reflexivity|]. auto.
  - destruct HH as [L4 HH]. cbn [length app]. rewrite <- app_assoc. cbn [app]. rewrite backslash_high by (split; auto).
    rewrite app_length, L4. cbn [length Nat.add Nat.eqb negb andb orb]. change (92 =? 92) with true. change (117 =? 117) with true. cbn [negb].
    destruct (hex_inc hex_second c _ _ _ HI) as (L & A & B & C).
    destruct (isxdigit c) eqn:X; cbn [negb].
    + destruct (hex_second c) eqn:D; [|rewrite A by reflexivity; destruct (length r2 =? 3)%nat; auto].
      destruct (length r2 =? 3)%nat eqn:L3.
      * destruct C as (x & ->); [discriminate|lia|].
        replace (S (S (S (S (S (S (S (S (S (length r2)))))))))) with 12%nat by lia.
        destruct (negb (within x 56320 57344)); [auto|]. destruct HH as (ch & -> & _).
        destruct (append_ch_cases (65536 + (ch - 55296) * 1024 + (x - 56320)) 12) as [-> | [b ->]]; eauto.
      * rewrite B by (try discriminate; lia). auto.
    + rewrite A by (now apply hex_second_x). reflexivity.
Qed.
Lemma land_cont c : within c 128 192 = true -> (Z.land c 192 =? 128) = true.
Proof.
  intros H. assert (B : (negb (within c 128 192) || (Z.land c 192 =? 128)) = true).
  { apply (brute (fun c => negb (within c 128 192) || (Z.land c 192 =? 128)) 192); [reflexivity|unfold within in H; lia]. }
  rewrite H in B. exact B.
Qed.
Lemma next_mb h t c : string_char h t = TInc -> h <> 92 -> next_ok h t c.
Proof.
  intros H N. unfold next_ok. unfold string_char in H |- *. replace (h =? 92) with false in * by lia.
  destruct (within h 32 128 && negb false && negb (h =? 34)) eqn:E1; [discriminate|].
  destruct (h =? 34); [discriminate|]. unfold fails, completes. replace (h =? 92) with false by lia. cbn [negb andb orb].
  rewrite !orb_false_r. unfold multibyte in H |- *. destruct (negb (within h 194 245)); [discriminate|]. cbv zeta in *.
  destruct t as [|d r].
  - cbn [app length]. destruct ((h =? 224) || (h =? 237) || (h =? 240) || (h =? 244)) eqn:SP; [discriminate|].
    destruct (within c 128 192) eqn:W; cbn [negb orb].
    + rewrite (land_cont c W). cbn [negb]. replace ((224 <=? h) && bad_second h c) with false by (unfold bad_second; lia).
      destruct (224 <=? h), (240 <=? h); cbn [Nat.add Nat.eqb]; eauto.
    + destruct (negb (Z.land c 192 =? 128)); [reflexivity|]. destruct (1 =? _)%nat; auto.
  - cbn [app length]. destruct (negb (within d 128 192) || ((224 <=? h) && bad_second h d)); [discriminate|].
    destruct (224 <=? h) eqn:H2; cbn [Nat.add Nat.eqb] in *; [|destruct (240 <=? h) eqn:H3; [lia|discriminate]].
    destruct r as [|e r']; cbn [app length].
    + destruct (within c 128 192) eqn:W; cbn [negb].
      * rewrite (land_cont c W). cbn [negb]. destruct (240 <=? h); cbn [Nat.add Nat.eqb]; eauto.
      * destruct (negb (Z.land c 192 =? 128)); destruct (240 <=? h); cbn [Nat.add Nat.eqb]; auto.
    + destruct (negb (within e 128 192)); [destruct (240 <=? h); discriminate|].
      destruct (240 <=? h); cbn [Nat.add Nat.eqb] in *; [|discriminate].
      destruct r' as [|f r2]; cbn [app length].
      * destruct (within c 128 192) eqn:W; cbn [negb].
        -- rewrite (land_cont c W). cbn [negb Nat.eqb]. eauto.
        -- destruct (negb (Z.land c 192 =? 128)); cbn [Nat.eqb]; auto.
      * destruct (negb (within f 128 192)); discriminate.
Qed.
Definition pend (tail : list Z) : Prop :=
  match tail with [] => True | h :: t => string_char h t = TInc \/ string_char h t = TErr end.
Lemma next_pend h t c : pend (h :: t) -> next_ok h t c.
Proof.
  intros [H|H].
  - destruct (Z.eq_dec h 92) as [->|N]; [now apply next_bs|now apply next_mb].
  - unfold next_ok. rewrite (char_err _ _ [c] H). destruct (fails h (S (length t)) c); [reflexivity|].
    destruct (completes h (S (length t))); auto.
Qed.

(* ------------------------------------------------------------------ strings *)
Lemma badend_cons c s : badend s -> badend (c :: s).
Proof. intros (a & d & -> & L). exists (c :: a), d. auto. Qed.
Lemma loop_skip : forall s k acc r, k = length s -> string_loop k acc (s ++ r) = string_loop 0 acc r.
Proof. induction s as [|c s IH]; intros k acc r ->; [reflexivity|]. cbn [length app string_loop]. now apply IH. Qed.
Lemma loop_app s2 : forall s1 k acc, (k <= length s1)%nat ->
  match string_loop k acc s1 with
  | SDone str r => string_loop k acc (s1 ++ s2) = SDone str (r ++ s2)
  | SErr => string_loop k acc (s1 ++ s2) = SErr
  | SPart acc' n => exists pre tail, acc' = pre ++ tail /\ n = length tail /\ pend tail
      /\ string_loop k acc (s1 ++ s2) = string_loop 0 pre (tail ++ s2)
  | SUB => badend s1
  end.
Proof.
  induction s1 as [|c s IH]; intros k acc L.
  - simpl in L. assert (k = 0%nat) by lia. subst k. cbn [string_loop app]. exists acc, []. rewrite app_nil_r. simpl. auto.
  - destruct k as [|k].
    + cbn [string_loop app]. pose proof (string_char_app c s s2) as ST. destruct (string_char c s) as [b n| | | |] eqn:E; cbn [stable] in ST.
      * rewrite ST. pose proof (string_char_len _ _ _ _ E) as LN. specialize (IH (n - 1)%nat (acc ++ b)).
        destruct (string_loop (n - 1) (acc ++ b) s); try (apply badend_cons); apply IH; lia.
      * rewrite ST. reflexivity.
      * now rewrite ST.
      * exists acc, (c :: s). repeat split; auto. left. exact E.
      * apply string_char_ub in E. destruct E as [-> E]. exists [], c. auto.
    + cbn [string_loop app]. simpl in L. specialize (IH k acc). destruct (string_loop k acc s); try (apply badend_cons); apply IH; lia.
Qed.

(* One byte of consume_stringpart. *)
Lemma string_part_eq acc n c r : string_part acc (S n) (c :: r) =
  let part := S n in
  let tag := nth (length acc - part) acc 0 in
  if fails tag part c then SErr
  else if completes tag part then
    match string_loop 0 (firstn (length acc - part) acc) (skipn (length acc - part) acc ++ [c]) with
    | SPart acc' part' => string_part acc' part' r
    | SErr => SErr
    | _ => SUB
    end
  else string_part (acc ++ [c]) (S part) r.
Proof. reflexivity. Qed.
Lemma part_one pre h t c : pend (h :: t) ->
  (string_char h (t ++ [c]) = TErr /\ forall r, string_part (pre ++ h :: t) (length (h :: t)) (c :: r) = SErr)
  \/ (pend (h :: t ++ [c]) /\ forall r, string_part (pre ++ h :: t) (length (h :: t)) (c :: r)
        = string_part (pre ++ h :: t ++ [c]) (length (h :: t ++ [c])) r)
  \/ (exists b, string_char h (t ++ [c]) = TOk b (S (S (length t)))
       /\ forall r, string_part (pre ++ h :: t) (length (h :: t)) (c :: r) = string_loop 0 (pre ++ b) r).
Proof.
  intros P.
  assert (U : forall r, string_part (pre ++ h :: t) (length (h :: t)) (c :: r) =
    if fails h (S (length t)) c then SErr
    else if completes h (S (length t)) then
      match string_loop 0 pre (h :: t ++ [c]) with SPart acc' part' => string_part acc' part' r | SErr => SErr | _ => SUB end
    else string_part (pre ++ h :: t ++ [c]) (S (S (length t))) r).
  { intros r. cbn [length]. rewrite string_part_eq. cbv zeta.
    assert (L : (length (pre ++ h :: t) - S (length t))%nat = length pre) by (rewrite app_length; simpl; lia).
    rewrite L. rewrite app_nth2 by lia. rewrite Nat.sub_diag. cbn [nth].
    rewrite firstn_app, firstn_all, Nat.sub_diag. cbn [firstn]. rewrite app_nil_r.
    rewrite skipn_app, skipn_all, Nat.sub_diag. cbn [skipn app]. rewrite <- app_assoc. reflexivity. }
  pose proof (next_pend h t c P) as N. unfold next_ok in N. cbv zeta in N.
  destruct (fails h (S (length t)) c); [left; auto|].
  assert (LC : length (h :: t ++ [c]) = S (S (length t))) by (simpl; rewrite app_length; simpl; lia).
  destruct (completes h (S (length t))).
  - cbn [string_loop] in U. destruct N as [N|[N|[b N]]]; rewrite N in U.
    + right. left. split; [now left|exact U].
    + left. auto.
    + right. right. exists b. split; [exact N|]. intros r. rewrite U.
      assert (K : string_loop (S (S (length t)) - 1) (pre ++ b) (t ++ [c]) = SPart (pre ++ b) 0).
      { rewrite <- (app_nil_r (t ++ [c])). rewrite loop_skip by (rewrite app_length; simpl; lia). reflexivity. }
      rewrite K. destruct r; reflexivity.
  - right. left. split; [exact N|]. rewrite LC. exact U.
Qed.

(* What is known of a string in pieces, against the string in one. *)
Definition sle (x y : sres) : Prop := x = y \/ (y = SErr /\ exists acc n, x = SPart acc n).
Lemma loop_err pre h t r : string_char h t = TErr -> string_loop 0 pre ((h :: t) ++ r) = SErr.
Proof. intros H. cbn [app string_loop]. now rewrite (char_err _ _ r H). Qed.
Lemma part_loop : forall s pre tail, pend tail ->
  sle (string_part (pre ++ tail) (length tail) s) (string_loop 0 pre (tail ++ s)).
Proof.
  induction s as [|c r IH]; intros pre tail P.
  - destruct tail as [|h t]; [rewrite app_nil_r; now left|]. cbn [string_part length]. rewrite app_nil_r.
    destruct P as [P|P]; cbn [string_loop]; rewrite P; [now left|]. right. eauto.
  - destruct tail as [|h t]; [rewrite app_nil_r; now left|].
    replace ((h :: t) ++ c :: r) with ((h :: t ++ [c]) ++ r) by (cbn [app]; now rewrite <- app_assoc).
    destruct (part_one pre h t c P) as [[E ->]|[[P' ->]|(b & E & ->)]].
    + left. symmetry. now apply loop_err.
    + apply IH. exact P'.
    + left. cbn [app string_loop]. pose proof (string_char_app h (t ++ [c]) r) as X. rewrite E in X. cbn [stable] in X. rewrite X.
      symmetry. apply loop_skip. rewrite app_length. simpl. lia.
Qed.
Lemma part_app s2 : forall s1 pre tail, pend tail ->
  let acc := pre ++ tail in let n := length tail in
  match string_part acc n s1 with
  | SDone str r => string_part acc n (s1 ++ s2) = SDone str (r ++ s2)
  | SErr => string_part acc n (s1 ++ s2) = SErr
  | SPart acc' n' => sle (string_part acc' n' s2) (string_part acc n (s1 ++ s2))
      /\ exists pre' tail', acc' = pre' ++ tail' /\ n' = length tail' /\ pend tail'
  | SUB => badend s1
  end.
Proof.
  assert (LP : forall s acc, string_part acc 0 s = string_loop 0 acc s) by (intros [|? ?] ?; reflexivity).
  assert (ZE : forall acc s1, match string_loop 0 acc s1 with
    | SDone str r => string_loop 0 acc (s1 ++ s2) = SDone str (r ++ s2)
    | SErr => string_loop 0 acc (s1 ++ s2) = SErr
    | SPart acc' n' => sle (string_part acc' n' s2) (string_loop 0 acc (s1 ++ s2))
      /\ exists pre' tail', acc' = pre' ++ tail' /\ n' = length tail' /\ pend tail'
    | SUB => badend s1
    end).
  { intros acc s1. pose proof (loop_app s2 s1 0 acc) as X. specialize (X (Nat.le_0_l _)).
    destruct (string_loop 0 acc s1); auto. destruct X as (pre & tail & -> & -> & P & ->). split; [now apply part_loop|eauto]. }
  induction s1 as [|c r IH]; intros pre tail P acc n.
  - destruct tail as [|h t].
    + subst n acc. cbn [length]. rewrite !LP. apply ZE.
    + subst n acc. cbn [length string_part app]. split; [now left|]. exists pre, (h :: t). auto.
  - destruct tail as [|h t].
    + subst n acc. cbn [length]. rewrite !LP. apply ZE.
    + subst n acc. cbn [app].
      destruct (part_one pre h t c P) as [[E A]|[[P' A]|(b & E & A)]]; rewrite !A.
      * reflexivity.
      * specialize (IH pre (h :: t ++ [c]) P'). cbv zeta in IH.
        destruct (string_part (pre ++ h :: t ++ [c]) (length (h :: t ++ [c])) r); try apply badend_cons; exact IH.
      * specialize (ZE (pre ++ b) r). destruct (string_loop 0 (pre ++ b) r); try apply badend_cons; exact ZE.
Qed.
