(* The direct readers of class parser, and skip_primitives. *)
From Verif Require Import Lib M_Key P_Key M_Msgpack Spec_Msgpack P_Msgpack1 P_Msgpack3 P_Msgpack4.

Lemma bytes_at_net b n x u (k : nat) : bytes_at (b :: net n x ++ u) 1 n = Some (net n x) /\ skipn (1 + n) (b :: net n x ++ u) = u /\ k = k.
Proof.
  unfold bytes_at. cbn [length]. rewrite app_length, net_length.
  replace (S (n + length u) <? 1 + n)%nat with false by lia. cbn [skipn Nat.add].
  now rewrite net_firstn, net_skipn.
Qed.

(* The first-byte class of each header byte. *)
Lemma read_int_rd t b n f x u :
  is_fixint b = false ->
  In (b, n) [(204, 1%nat); (205, 2%nat); (206, 4%nat); (207, 8%nat); (208, 1%nat); (209, 2%nat); (210, 4%nat); (211, 8%nat)] ->
  f = (if b <? 208 then fun x => x else to_signed (8 * Z.of_nat n)) ->
  read_int t (b :: net n x ++ u) = Some (c_conv t (f (be_val (net n x))), u).
Proof.
  intros Hb Hi Hf. unfold read_int. rewrite Hb. cbv zeta.
  destruct (bytes_at_net b n x u O) as (E1 & E2 & _).
  cbn [In] in Hi. repeat destruct Hi as [Hi|Hi]; try easy; injection Hi as <- <-; cbn [Z.eqb Pos.eqb]; rewrite E1, E2, Hf; reflexivity.
Qed.

Lemma net1 x u : 0 <= x < 256 -> x :: u = net 1 x ++ u.
Proof.
  intros. unfold net, be_bytes. cbn. f_equal. change (Z.pow_pos 2 8) with 256. rewrite Z.mod_mod, Z.mod_small; lia.
Qed.
Lemma net1_mod x u : x mod 256 :: u = net 1 x ++ u.
Proof. unfold net, be_bytes. cbn. change (Z.pow_pos 2 8) with 256. now rewrite Z.mod_mod. Qed.

Lemma read_unsigned4 t x u : 0 <= x < 2 ^ 32 -> read_int t (write_unsigned4 x ++ u) = Some (c_conv t x, u).
Proof.
  intros Hx. unfold write_unsigned4. destruct (x <? 128) eqn:E1.
  - cbn [app read_int]. assert (Ex : x mod 256 = x) by (apply Z.mod_small; lia).
    pose proof (fixint_small x ltac:(lia)) as A. pose proof (byte_of_small x ltac:(lia)) as B. rewrite Ex in A, B.
    now rewrite A, B.
  - destruct (x <? 256) eqn:E2; [|destruct (x <? 65536) eqn:E3]; cbn [app].
    + rewrite (net1 x u) by lia. erewrite read_int_rd by (first [reflexivity | cbn [In]; auto 12]). cbn [Z.ltb Z.compare Pos.compare Pos.compare_cont]. rewrite net_val_small by (cbn; lia). reflexivity.
    + erewrite read_int_rd by (first [reflexivity | cbn [In]; auto 12]). cbn [Z.ltb Z.compare Pos.compare Pos.compare_cont]. rewrite net_val_small by (cbn; lia). reflexivity.
    + erewrite read_int_rd by (first [reflexivity | cbn [In]; auto 12]). cbn [Z.ltb Z.compare Pos.compare Pos.compare_cont]. rewrite net_val_small by (cbn; lia). reflexivity.
Qed.
Lemma read_unsigned8 t x u : 0 <= x < 2 ^ 64 -> read_int t (write_unsigned8 x ++ u) = Some (c_conv t x, u).
Proof.
  intros Hx. unfold write_unsigned8. destruct (x <? 4294967296) eqn:E.
  - apply read_unsigned4. lia.
  - cbn [app]. erewrite read_int_rd by (first [reflexivity | cbn [In]; auto 12]). cbn [Z.ltb Z.compare Pos.compare Pos.compare_cont]. rewrite net_val_small by (cbn; lia). reflexivity.
Qed.
Lemma read_signed4 t x u : - 2 ^ 31 <= x < 2 ^ 31 -> read_int t (write_signed4 x ++ u) = Some (c_conv t x, u).
Proof.
  intros Hx. unfold write_signed4. rewrite !(window_test _ _ _ 32) by lia.
  destruct (_ && _) eqn:E1.
  - cbn [app read_int]. rewrite fixint_small by lia. now rewrite byte_of_small by lia.
  - destruct ((- (128) <=? x) && (x <? 256 - 128)) eqn:E2; [|destruct ((- (32768) <=? x) && _) eqn:E3]; cbn [app].
    + rewrite (net1_mod x u). erewrite read_int_rd by (first [reflexivity | cbn [In]; auto 12]). cbn [Z.ltb Z.compare Pos.compare Pos.compare_cont].
      rewrite net_val, to_signed_mod, to_signed_small by (cbn; lia). reflexivity.
    + erewrite read_int_rd by (first [reflexivity | cbn [In]; auto 12]). cbn [Z.ltb Z.compare Pos.compare Pos.compare_cont].
      rewrite net_val, to_signed_mod, to_signed_small by (cbn; lia). reflexivity.
    + erewrite read_int_rd by (first [reflexivity | cbn [In]; auto 12]). cbn [Z.ltb Z.compare Pos.compare Pos.compare_cont].
      rewrite net_val, to_signed_mod, to_signed_small by (cbn; lia). reflexivity.
Qed.
Lemma read_wide_i t x u : - 2 ^ 63 <= x < 2 ^ 63 -> read_int t (write_wide_i x ++ u) = Some (c_conv t x, u).
Proof.
  intros Hx. unfold write_wide_i. cbn [app]. erewrite read_int_rd by (first [reflexivity | cbn [In]; auto 12]). cbn [Z.ltb Z.compare Pos.compare Pos.compare_cont].
  rewrite net_val, to_signed_mod, to_signed_small by (cbn; lia). reflexivity.
Qed.
Lemma read_wide_u t x u : 0 <= x < 2 ^ 64 -> read_int t (write_wide_u x ++ u) = Some (c_conv t x, u).
Proof.
  intros Hx. unfold write_wide_u. cbn [app]. erewrite read_int_rd by (first [reflexivity | cbn [In]; auto 12]). cbn [Z.ltb Z.compare Pos.compare Pos.compare_cont]. rewrite net_val_small by (cbn; lia). reflexivity.
Qed.
Lemma read_signed8 t x u : - 2 ^ 63 <= x < 2 ^ 63 -> read_int t (write_signed8 x ++ u) = Some (c_conv t x, u).
Proof.
  intros Hx. unfold write_signed8. rewrite (window_test _ _ _ 64) by lia. destruct (_ && _) eqn:E.
  - rewrite to_signed_small by lia. apply read_signed4. lia.
  - apply (read_wide_i t x u Hx).
Qed.

Lemma c_conv_fits t x : In t c_types -> fits t x -> c_conv t x = x.
Proof.
  unfold c_types, fits, c_conv. cbn [In]. intros [<-|[<-|[<-|[<-|[]]]]]; cbn [ct_signed ct_bits c_int c_unsigned c_long c_ulong]; intros Hx.
  - apply to_signed_small; lia.
  - apply Z.mod_small; lia.
  - apply to_signed_small; lia.
  - apply Z.mod_small; lia.
Qed.

(* An integer written from one type and read into another that can represent it. *)
Lemma int_roundtrip tw tr x u : In tw c_types -> In tr c_types -> fits tw x -> fits tr x ->
  read_int tr (write_int tw x ++ u) = Some (x, u).
Proof.
  intros Hw Hr Fw Fr. rewrite <- (c_conv_fits tr x Hr Fr) at 2.
  unfold c_types, fits in *. cbn [In] in Hw. destruct Hw as [<-|[<-|[<-|[<-|[]]]]]; cbn in Fw; unfold write_int; cbn [ct_signed ct_bits c_int c_unsigned c_long c_ulong Z.eqb Pos.eqb].
  - apply read_signed4. lia.
  - apply read_unsigned4. lia.
  - apply read_signed8. lia.
  - apply read_unsigned8. lia.
Qed.
Lemma wide_roundtrip tr x u : In tr c_types -> fits tr x ->
  ((- 2 ^ 63 <= x < 2 ^ 63) -> read_int tr (write_wide_i x ++ u) = Some (x, u)) /\
  ((0 <= x < 2 ^ 64) -> read_int tr (write_wide_u x ++ u) = Some (x, u)).
Proof.
  intros Hr Fr. split; intros Hx; [rewrite read_wide_i by auto|rewrite read_wide_u by auto]; now rewrite c_conv_fits.
Qed.

Lemma bool_roundtrip b u : read_bool (write_bool b ++ u) = Some (b, u).
Proof. destruct b; reflexivity. Qed.
Lemma double_roundtrip d u : 0 <= d < 2 ^ 64 -> read_double (write_double d ++ u) = Some (d, u).
Proof.
  intros Hd. unfold write_double, read_double. cbn [app]. destruct (bytes_at_net 203 8 d u O) as (E1 & E2 & _).
  cbn [Z.eqb Pos.eqb]. change 9%nat with (1 + 8)%nat. rewrite E1, E2, net_val_small by (cbn; lia). reflexivity.
Qed.

Lemma bytes_at_plus (h d u : list Z) : bytes_at (h ++ d ++ u) (length h) (length d) = Some d /\ skipn (length h + length d) (h ++ d ++ u) = u.
Proof.
  unfold bytes_at. rewrite !app_length. replace (_ <? _)%nat with false by lia.
  rewrite skipn_app, skipn_all, Nat.sub_diag. cbn [skipn app]. rewrite firstn_app, firstn_all, Nat.sub_diag. cbn. rewrite app_nil_r.
  split; auto. rewrite skipn_app. rewrite (skipn_all2 h) by lia. replace (length h + length d - length h)%nat with (length d) by lia.
  cbn. rewrite skipn_app, skipn_all, Nat.sub_diag. reflexivity.
Qed.

Lemma str_roundtrip s u : len s < 2 ^ 31 -> read_str (write_string s ++ u) = Some (s, u).
Proof.
  intros Hs. pose proof (len_nonneg s). unfold write_string. rewrite <- app_assoc.
  assert (Hn : Z.to_nat (len s) = length s) by (unfold len; lia).
  destruct (len s <? 32) eqn:E1.
  - destruct (bytes_at_plus [160 + len s] s u) as [A B]. cbn [app length] in A, B. cbn [app read_str].
    unfold is_fixstr. class. replace ((160 <=? 160 + len s) && _) with true by lia.
    replace (160 + len s - 160) with (len s) by lia. rewrite Hn, A. now rewrite B.
  - assert (G : forall b n, (length (b :: net n (len s)) = 1 + n)%nat -> be_val (net n (len s)) = len s ->
       bytes_at (b :: net n (len s) ++ s ++ u) 1 n = Some (net n (len s)) /\
       bytes_at (b :: net n (len s) ++ s ++ u) (1 + n) (length s) = Some s /\
       skipn (1 + n + length s) (b :: net n (len s) ++ s ++ u) = u).
    { intros b n Hl Hv. destruct (bytes_at_net b n (len s) (s ++ u) O) as (A & _ & _).
      destruct (bytes_at_plus (b :: net n (len s)) s u) as [B C]. rewrite Hl in B, C. cbn [app] in B, C. auto. }
    destruct (len s <? 256) eqn:E2; [|destruct (len s <? 65536) eqn:E3]; cbn [app].
    + rewrite (net1 (len s) (s ++ u)) by lia.
      destruct (G 217 1%nat eq_refl) as (A & B & C); [apply net_val_small; cbn; lia|].
      unfold read_str. cbv zeta. rewrite A, net_val_small by (cbn; lia). rewrite Hn, B. cbn [is_fixstr in_range Z.eqb Pos.eqb orb]. now rewrite C.
    + destruct (G 218 2%nat eq_refl) as (A & B & C); [apply net_val_small; cbn; lia|].
      unfold read_str. cbv zeta. rewrite A, net_val_small by (cbn; lia). rewrite Hn, B. now rewrite C.
    + destruct (G 219 4%nat eq_refl) as (A & B & C); [apply net_val_small; cbn; lia|].
      unfold read_str. cbv zeta. rewrite A, net_val_small by (cbn; lia). rewrite Hn, B. now rewrite C.
Qed.

Lemma array_header_roundtrip n u : 0 <= n < 2 ^ 32 -> read_array_header (write_array_header n ++ u) = Some (n, u).
Proof.
  intros Hn. unfold write_array_header. destruct (n <? 16) eqn:E1.
  - cbn [app read_array_header]. unfold is_fixarray. class. replace ((144 <=? 144 + n) && _) with true by lia.
    now replace (144 + n - 144) with n by lia.
  - destruct (n <? 65536) eqn:E2; cbn [app].
    + destruct (bytes_at_net 220 2 n u O) as (A & B & _). unfold read_array_header. rewrite A.
      change 3%nat with (1 + 2)%nat. rewrite B, net_val_small by (cbn; lia). reflexivity.
    + destruct (bytes_at_net 221 4 n u O) as (A & B & _). unfold read_array_header. rewrite A.
      change 5%nat with (1 + 4)%nat. rewrite B, net_val_small by (cbn; lia). reflexivity.
Qed.
Lemma skip_array_roundtrip n u : 0 <= n < 2 ^ 32 -> skip_array_size (write_array_header n ++ u) = Some u.
Proof. intros. unfold skip_array_size. now rewrite array_header_roundtrip. Qed.

(* ------------------------------------------------------------------ skipping *)
Lemma advance_app h u n : n = len h -> advance (h ++ u) n = Some u.
Proof.
  intros ->. unfold advance. rewrite len_app. pose proof (len_nonneg u). replace (_ <? _) with false by lia.
  now rewrite skipn_len_app.
Qed.
Lemma advance_cons b h u n : n = 1 + len h -> advance (b :: h ++ u) n = Some u.
Proof. intros ->. change (b :: h ++ u) with ((b :: h) ++ u). apply advance_app. now rewrite len_cons. Qed.
Lemma len_net n x : len (net n x) = Z.of_nat n.
Proof. unfold len. now rewrite net_length. Qed.

Lemma skip1_unsigned4 x u : 0 <= x < 2 ^ 32 -> skip1 (write_unsigned4 x ++ u) = Some u.
Proof.
  intros Hx. unfold write_unsigned4. destruct (x <? 128) eqn:E1; [|destruct (x <? 256) eqn:E2; [|destruct (x <? 65536) eqn:E3]]; cbn [app].
  - unfold skip1. assert (Ex : x mod 256 = x) by (apply Z.mod_small; lia).
    pose proof (fixint_small x ltac:(lia)) as A. rewrite Ex in A. rewrite A. cbn [orb].
    apply (advance_cons x [] u). reflexivity.
  - rewrite (net1 x u) by lia. apply (advance_cons 204 (net 1 x) u). now rewrite len_net.
  - apply (advance_cons 205 (net 2 x) u). now rewrite len_net.
  - apply (advance_cons 206 (net 4 x) u). now rewrite len_net.
Qed.
Lemma skip1_signed4 x u : - 2 ^ 31 <= x < 2 ^ 31 -> skip1 (write_signed4 x ++ u) = Some u.
Proof.
  intros Hx. unfold write_signed4. rewrite !(window_test _ _ _ 32) by lia.
  destruct (_ && _) eqn:E1.
  - cbn [app skip1]. rewrite fixint_small by lia. cbn [orb]. apply (advance_cons _ [] u). reflexivity.
  - destruct ((- (128) <=? x) && (x <? 256 - 128)) eqn:E2; [|destruct ((- (32768) <=? x) && _) eqn:E3]; cbn [app].
    + rewrite (net1_mod x u). apply (advance_cons 208 (net 1 x) u). now rewrite len_net.
    + apply (advance_cons 209 (net 2 x) u). now rewrite len_net.
    + apply (advance_cons 210 (net 4 x) u). now rewrite len_net.
Qed.
Lemma skip1_string s u : len s < 2 ^ 31 -> skip1 (write_string s ++ u) = Some u.
Proof.
  intros Hs. pose proof (len_nonneg s). unfold write_string. rewrite <- app_assoc. destruct (len s <? 32) eqn:E1.
  - cbn [app skip1]. rewrite not_fixint by lia. unfold is_null_or_bool, is_fixstr. repeat class.
    replace ((192 <=? 160 + len s) && _) with false by lia. replace ((160 <=? 160 + len s) && _) with true by lia. cbn [orb].
    apply advance_cons. lia.
  - assert (G : forall b n, be_val (net n (len s)) = len s ->
       bytes_at (b :: net n (len s) ++ s ++ u) 1 n = Some (net n (len s)) /\
       advance (b :: net n (len s) ++ s ++ u) (1 + Z.of_nat n + len s) = Some u).
    { intros b n Hv. destruct (bytes_at_net b n (len s) (s ++ u) O) as (A & _ & _). split; auto.
      rewrite app_assoc. apply advance_cons. rewrite len_app, len_net. lia. }
    destruct (len s <? 256) eqn:E2; [|destruct (len s <? 65536) eqn:E3]; cbn [app].
    + rewrite (net1 (len s) (s ++ u)) by lia. assert (V : be_val (net 1 (len s)) = len s) by (apply net_val_small; cbn; lia).
      destruct (G 217 1%nat V) as [A B]. unfold skip1. rewrite A, V. exact B.
    + assert (V : be_val (net 2 (len s)) = len s) by (apply net_val_small; cbn; lia).
      destruct (G 218 2%nat V) as [A B]. unfold skip1. rewrite A, V. exact B.
    + assert (V : be_val (net 4 (len s)) = len s) by (apply net_val_small; cbn; lia).
      destruct (G 219 4%nat V) as [A B]. unfold skip1. rewrite A, V. exact B.
Qed.

Lemma skip1_narrow j u : json_ok j -> narrow j -> skip1 (unparse j ++ u) = Some u.
Proof.
  intros Hok Hn. destruct j; cbn [narrow] in Hn; try easy; cbn [unparse]; inversion Hok; subst.
  - apply (advance_cons 192 [] u). reflexivity.
  - destruct b; [apply (advance_cons 195 [] u)|apply (advance_cons 194 [] u)]; reflexivity.
  - unfold write_signed8. rewrite (window_test _ _ _ 64) by lia. destruct (_ && _) eqn:E; [|lia].
    rewrite to_signed_small by lia. now apply skip1_signed4.
  - unfold write_unsigned8. destruct (x <? 4294967296) eqn:E; [|lia]. now apply skip1_unsigned4.
  - now apply skip1_string.
Qed.
Lemma skip1_wide j u : json_ok j -> primitive j -> ~ narrow j -> skip1 (unparse j ++ u) = Some (unparse j ++ u).
Proof.
  intros Hok Hp Hn. destruct j; cbn [narrow primitive] in *; try tauto; cbn [unparse]; inversion Hok; subst.
  - unfold write_signed8. rewrite (window_test _ _ _ 64) by lia. destruct (_ && _) eqn:E; [lia|]. reflexivity.
  - unfold write_unsigned8. destruct (x <? 4294967296) eqn:E; [lia|]. reflexivity.
Qed.

Definition enc (l : list json) : list Z := flat_map unparse l.

Lemma skip_narrow l u : Forall json_ok l -> Forall narrow l -> skip_primitives (length l) (enc l ++ u) = Some u.
Proof.
  intros Hok. induction l as [|j l IH]; intros Hn; inversion Hok; inversion Hn; subst; auto.
  cbn [length skip_primitives enc flat_map]. rewrite <- app_assoc, skip1_narrow by auto. now apply IH.
Qed.
Lemma skip_stuck n w l2 u : json_ok w -> primitive w -> ~ narrow w -> skip_primitives n (enc (w :: l2) ++ u) = Some (enc (w :: l2) ++ u).
Proof.
  intros A B C. induction n as [|n IH]; auto. cbn [skip_primitives].
  assert (E : skip1 (enc (w :: l2) ++ u) = Some (enc (w :: l2) ++ u)).
  { unfold enc. cbn [flat_map]. rewrite <- app_assoc. now apply skip1_wide. }
  now rewrite E.
Qed.
Lemma skip_add n m s : skip_primitives (n + m) s = match skip_primitives n s with Some s' => skip_primitives m s' | None => None end.
Proof. revert s. induction n as [|n IH]; intros s; cbn; auto. destruct (skip1 s); auto. Qed.
Lemma skip_wide l1 w l2 n u : Forall json_ok (l1 ++ w :: l2) -> Forall narrow l1 -> primitive w -> ~ narrow w ->
  (length l1 <= n)%nat -> skip_primitives n (enc (l1 ++ w :: l2) ++ u) = Some (enc (w :: l2) ++ u).
Proof.
  intros Hok Hn Hp Hw Hl. apply Forall_app in Hok. destruct Hok as [Ho1 Ho2]. inversion Ho2; subst.
  replace n with (length l1 + (n - length l1))%nat by lia. rewrite skip_add. unfold enc. rewrite flat_map_app, <- app_assoc.
  fold (enc l1). fold (enc (w :: l2)). rewrite skip_narrow by auto. now apply skip_stuck.
Qed.

Lemma skip_put l cs u : Forall json_ok l -> Forall narrow l -> length l = 3%nat -> len (l ++ cs) < 2 ^ 31 ->
  put_changeset (unparse (JArr (l ++ cs)) ++ u) = Some (enc cs ++ u).
Proof.
  intros Ho Hn Hl Hs. unfold put_changeset. cbn [unparse]. rewrite <- app_assoc.
  rewrite skip_array_roundtrip by (pose proof (len_nonneg (l ++ cs)); lia).
  rewrite flat_map_app, <- app_assoc. rewrite <- Hl. now apply skip_narrow.
Qed.
