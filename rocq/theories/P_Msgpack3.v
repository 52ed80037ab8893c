(* The streaming decoder inverts the encoder. *)
From Verif Require Import Lib M_Key P_Key M_Msgpack Spec_Msgpack P_Msgpack1 P_Msgpack2.

(* Induction on nested values. *)
Lemma json_ind2 (P : json -> Prop) :
  P JNull -> (forall b, P (JBool b)) -> (forall x, P (JInt x)) -> (forall x, P (JUns x)) ->
  (forall d, P (JDouble d)) -> (forall s, P (JStr s)) ->
  (forall l, Forall P l -> P (JArr l)) -> (forall l, Forall (fun kv => P (snd kv)) l -> P (JObj l)) ->
  forall j, P j.
Proof.
  intros H1 H2 H3 H4 H5 H6 H7 H8. fix IH 1. intros [| | | | | |l|l]; [exact H1|apply H2|apply H3|apply H4|apply H5|apply H6| |].
  - apply H7. induction l; constructor; auto.
  - apply H8. induction l as [|[k v] l]; constructor; auto.
Qed.

(* What the decoder makes of an integer. *)
Fixpoint norm (j : json) : json :=
  match j with
  | JUns x => if x <? 65536 then JInt x else JUns x
  | JArr l => JArr (map norm l)
  | JObj l => JObj (map (fun kv => (fst kv, norm (snd kv))) l)
  | _ => j
  end.

Lemma norm_same j : jsame j (norm j).
Proof.
  induction j using json_ind2; cbn [norm]; try constructor.
  - destruct (x <? 65536); constructor.
  - induction H; cbn; constructor; auto.
  - induction H; cbn; constructor; auto.
Qed.

(* ------------------------------------------------------------------ tokens of encodings *)
Lemma net_length n x : length (net n x) = n.
Proof. apply be_bytes_length. Qed.
Lemma net_ok n x : bytes_ok (net n x).
Proof. apply be_bytes_ok. Qed.
Lemma net_val n x : be_val (net n x) = x mod 2 ^ (8 * Z.of_nat n).
Proof.
  unfold net. apply be_val_bytes. replace (256 ^ Z.of_nat n) with (2 ^ (8 * Z.of_nat n)).
  - apply Z.mod_pos_bound. apply Z.pow_pos_nonneg; lia.
  - replace 256 with (2 ^ 8) by reflexivity. rewrite <- Z.pow_mul_r; lia.
Qed.
Lemma net_val_small n x : 0 <= x < 2 ^ (8 * Z.of_nat n) -> be_val (net n x) = x.
Proof. intros. rewrite net_val. apply Z.mod_small; auto. Qed.
Lemma net_firstn n x u : firstn n (net n x ++ u) = net n x.
Proof. rewrite firstn_app, net_length. rewrite Nat.sub_diag. cbn. rewrite app_nil_r. apply firstn_all2. rewrite net_length. lia. Qed.
Lemma net_skipn n x u : skipn n (net n x ++ u) = u.
Proof. rewrite skipn_app, net_length, Nat.sub_diag. cbn. rewrite skipn_all2; auto. rewrite net_length. lia. Qed.

Lemma token_header b n x u : is_fixint b = false -> (b =? 192) = false -> is_bool b = false -> is_fixmap b = false ->
  is_fixarray b = false -> is_fixstr b = false -> nth (Z.to_nat (b - 192)) nbytes 0 = Z.of_nat (S n) -> (0 < n)%nat ->
  next_token (b :: net n x ++ u) = (header_token b (net n x), u).
Proof.
  intros H1 H2 H3 H4 H5 H6 H7 Hn. cbn [next_token]. rewrite H1, H2, H3, H4, H5, H6, H7. cbv zeta.
  destruct (_ =? 0) eqn:E; [lia|]. replace (len (b :: net n x ++ u) <? Z.of_nat (S n)) with false.
  2:{ symmetry. unfold len. cbn [length]. rewrite app_length, net_length. lia. }
  replace (Z.to_nat (Z.of_nat (S n) - 1)) with n by lia. now rewrite net_firstn, net_skipn.
Qed.

Ltac header n := rewrite (token_header _ n) by (reflexivity || lia); unfold header_token; cbn [Z.eqb Pos.eqb orb].

Lemma to_signed_small k x : 0 < k -> - 2 ^ (k - 1) <= x < 2 ^ (k - 1) -> to_signed k x = x.
Proof.
  intros Hk Hx. assert (E : 2 ^ k = 2 * 2 ^ (k - 1)) by (rewrite <- Z.pow_succ_r by lia; f_equal; lia).
  unfold to_signed. destruct (Z.leb_spec 0 x).
  - rewrite Z.mod_small by lia. destruct (_ <? _) eqn:E1; lia.
  - replace (x mod 2 ^ k) with (x + 2 ^ k).
    + destruct (_ <? _) eqn:E1; lia.
    + symmetry. rewrite <- (Z.mod_add x 1) by lia. rewrite Z.mod_small; lia.
Qed.
Lemma to_signed_mod k x : to_signed k (x mod 2 ^ k) = to_signed k x.
Proof. unfold to_signed. destruct (Z.eq_dec (2 ^ k) 0) as [E|E]; [rewrite E; now rewrite !Zmod_0_r|]. now rewrite Z.mod_mod. Qed.

Lemma byte_of_small x : -128 <= x < 128 -> to_signed 8 (x mod 256) = x.
Proof. intros. change 256 with (2 ^ 8). rewrite to_signed_mod. apply to_signed_small; lia. Qed.

Lemma fixint_small x : -32 <= x < 128 -> is_fixint (x mod 256) = true.
Proof.
  intros H. unfold is_fixint. rewrite byte_of_small by lia. rewrite Z.mod_small by lia. lia.
Qed.

Lemma token_unsigned4 x u : 0 <= x < 2 ^ 32 ->
  next_token (write_unsigned4 x ++ u) = (TVal (if x <? 65536 then JInt x else JUns x), u).
Proof.
  intros Hx. unfold write_unsigned4. destruct (x <? 128) eqn:E1.
  - cbn [app next_token]. assert (Ex : x mod 256 = x) by (apply Z.mod_small; lia).
    pose proof (fixint_small x ltac:(lia)) as A. pose proof (byte_of_small x ltac:(lia)) as B. rewrite Ex in A, B.
    rewrite A, B. now replace (x <? 65536) with true by lia.
  - destruct (x <? 256) eqn:E2.
    + assert (E : x :: u = net 1 x ++ u).
      { unfold net, be_bytes. cbn. f_equal. rewrite Z.mod_small; [rewrite Z.mod_small; lia|]. change (Z.pow_pos 2 8) with 256. lia. }
      cbn [app]. rewrite E. header 1%nat. rewrite net_val_small by (cbn; lia). now replace (x <? 65536) with true by lia.
    + destruct (x <? 65536) eqn:E3.
      * cbn [app]. header 2%nat. rewrite net_val_small by (cbn; lia). reflexivity.
      * cbn [app]. header 4%nat. rewrite net_val_small by (cbn; lia). reflexivity.
Qed.
Lemma token_unsigned8 x u : 0 <= x < 2 ^ 64 ->
  next_token (write_unsigned8 x ++ u) = (TVal (norm (JUns x)), u).
Proof.
  intros Hx. unfold write_unsigned8. cbn [norm]. destruct (x <? 4294967296) eqn:E.
  - apply token_unsigned4. lia.
  - cbn [app]. header 8%nat. rewrite net_val_small by (cbn; lia). now replace (x <? 65536) with false by lia.
Qed.
Lemma window_test x c b k : 0 < b -> 0 <= c <= 2 ^ (k - 1) -> b <= 2 ^ k -> 0 < k -> - 2 ^ (k - 1) <= x < 2 ^ (k - 1) ->
  2 ^ (k - 1) + b <= 2 ^ k + c ->
  ((x + c) mod 2 ^ k <? b) = ((- c <=? x) && (x <? b - c)).
Proof.
  intros Hb Hc Hbk Hk Hx Hl. assert (E : 2 ^ k = 2 * 2 ^ (k - 1)) by (rewrite <- Z.pow_succ_r by lia; f_equal; lia).
  destruct (Z.leb_spec (- c) x).
  - rewrite Z.mod_small by lia. lia.
  - rewrite <- (Z.mod_add (x + c) 1) by lia. rewrite Z.mod_small by lia. lia.
Qed.
Lemma token_signed4 x u : - 2 ^ 31 <= x < 2 ^ 31 -> next_token (write_signed4 x ++ u) = (TVal (JInt x), u).
Proof.
  intros Hx. unfold write_signed4.
  rewrite !(window_test _ _ _ 32) by lia.
  destruct (_ && _) eqn:E1.
  - cbn [app next_token]. rewrite fixint_small by lia. now rewrite byte_of_small by lia.
  - destruct ((- (128) <=? x) && (x <? 256 - 128)) eqn:E2.
    + assert (E : x mod 256 :: u = net 1 x ++ u).
      { unfold net, be_bytes. cbn. change (Z.pow_pos 2 8) with 256. now rewrite Z.mod_mod. }
      cbn [app]. rewrite E. header 1%nat. rewrite net_val. change (8 * Z.of_nat 1) with 8.
      rewrite to_signed_mod, to_signed_small by lia. reflexivity.
    + destruct ((- (32768) <=? x) && _) eqn:E3; cbn [app].
      * header 2%nat. rewrite net_val. change (8 * Z.of_nat 2) with 16. rewrite to_signed_mod, to_signed_small by lia. reflexivity.
      * header 4%nat. rewrite net_val. change (8 * Z.of_nat 4) with 32. rewrite to_signed_mod, to_signed_small by lia. reflexivity.
Qed.
Lemma token_signed8 x u : - 2 ^ 63 <= x < 2 ^ 63 -> next_token (write_signed8 x ++ u) = (TVal (JInt x), u).
Proof.
  intros Hx. unfold write_signed8. rewrite (window_test _ _ _ 64) by lia.
  destruct (_ && _) eqn:E.
  - rewrite to_signed_small by lia. apply token_signed4. lia.
  - cbn [app]. header 8%nat. rewrite net_val. change (8 * Z.of_nat 8) with 64. rewrite to_signed_mod, to_signed_small by lia. reflexivity.
Qed.
Lemma token_double d u : 0 <= d < 2 ^ 64 -> next_token (write_double d ++ u) = (TVal (JDouble d), u).
Proof. intros Hx. unfold write_double. cbn [app]. header 8%nat. rewrite net_val_small by (cbn; lia). reflexivity. Qed.
Lemma token_bool b u : next_token (write_bool b ++ u) = (TVal (JBool b), u).
Proof. destruct b; reflexivity. Qed.

Lemma fix_class (lo n : Z) (x : Z) : 0 <= lo -> 0 <= x < 256 -> 0 <= n < 256 -> in_range x lo n = (lo <=? x) && (x <? lo + n) \/ 256 <= lo.
Proof.
  intros. destruct (Z.leb_spec 256 lo); auto. left. unfold in_range. destruct (Z.leb_spec lo x).
  - rewrite Z.mod_small by lia. lia.
  - rewrite <- (Z.mod_add _ 1) by lia. rewrite Z.mod_small by lia. lia.
Qed.
Lemma not_fixint b : 128 <= b < 224 -> is_fixint b = false.
Proof.
  intros H. unfold is_fixint, to_signed. rewrite (Z.mod_small b) by lia. change (2 ^ (8 - 1)) with 128. change (2 ^ 8) with 256.
  destruct (b <? 128) eqn:E; [lia|]. rewrite <- (Z.mod_add _ 1) by lia. rewrite Z.mod_small by lia. lia.
Qed.
Ltac class := match goal with |- context [in_range ?x ?lo ?n] => destruct (fix_class lo n x) as [->|?]; [lia..| |lia] end.

Lemma token_string s u : len s < 2 ^ 31 -> next_token (write_string s ++ u) = (TRaw (len s), s ++ u).
Proof.
  intros Hs. pose proof (len_nonneg s). unfold write_string. destruct (len s <? 32) eqn:E1.
  - cbn [app next_token]. rewrite not_fixint by lia. destruct (160 + len s =? 192) eqn:E; [lia|].
    unfold is_bool, is_fixmap, is_fixarray, is_fixstr. repeat class.
    replace ((194 <=? 160 + len s) && _) with false by lia. replace ((128 <=? 160 + len s) && _) with false by lia.
    replace ((144 <=? 160 + len s) && _) with false by lia. replace ((160 <=? 160 + len s) && _) with true by lia.
    now replace (160 + len s - 160) with (len s) by lia.
  - destruct (len s <? 256) eqn:E2.
    + assert (E : len s :: s ++ u = net 1 (len s) ++ s ++ u).
      { unfold net, be_bytes. cbn. f_equal. rewrite Z.mod_small; [rewrite Z.mod_small; lia|]. change (Z.pow_pos 2 8) with 256. lia. }
      cbn [app]. rewrite E. header 1%nat. rewrite net_val_small by (cbn; lia). reflexivity.
    + destruct (len s <? 65536) eqn:E3.
      * cbn [app]. rewrite <- app_assoc. header 2%nat. rewrite net_val_small by (cbn; lia). reflexivity.
      * cbn [app]. rewrite <- app_assoc. header 4%nat. rewrite net_val_small by (cbn; lia).
        rewrite to_signed_small by lia. reflexivity.
Qed.
Lemma token_array n u : 0 <= n < 2 ^ 31 -> next_token (write_array_header n ++ u) = (TArr n, u).
Proof.
  intros Hs. unfold write_array_header. destruct (n <? 16) eqn:E1.
  - cbn [app next_token]. rewrite not_fixint by lia. destruct (144 + n =? 192) eqn:E; [lia|].
    unfold is_bool, is_fixmap, is_fixarray. repeat class.
    replace ((194 <=? 144 + n) && _) with false by lia. replace ((128 <=? 144 + n) && _) with false by lia.
    replace ((144 <=? 144 + n) && _) with true by lia.
    now replace (144 + n - 144) with n by lia.
  - destruct (n <? 65536) eqn:E3.
    + cbn [app]. header 2%nat. rewrite net_val_small by (cbn; lia). reflexivity.
    + cbn [app]. header 4%nat. rewrite net_val_small by (cbn; lia). rewrite to_signed_small by lia. reflexivity.
Qed.
Lemma token_map n u : 0 <= n < 2 ^ 31 -> next_token (write_map_header n ++ u) = (TMap n, u).
Proof.
  intros Hs. unfold write_map_header. destruct (n <? 16) eqn:E1.
  - cbn [app next_token]. rewrite not_fixint by lia. destruct (128 + n =? 192) eqn:E; [lia|].
    unfold is_bool, is_fixmap. repeat class.
    replace ((194 <=? 128 + n) && _) with false by lia. replace ((128 <=? 128 + n) && _) with true by lia.
    now replace (128 + n - 128) with n by lia.
  - destruct (n <? 65536) eqn:E3.
    + cbn [app]. header 2%nat. rewrite net_val_small by (cbn; lia). reflexivity.
    + cbn [app]. header 4%nat. rewrite net_val_small by (cbn; lia). rewrite to_signed_small by lia. reflexivity.
Qed.
