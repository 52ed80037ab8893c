(* What the writer prints of a clean value is a text of the grammar that denotes it. *)
From Coq Require Import Decimal DecimalZ DecimalPos DecimalFacts.
From Verif Require Import Lib M_Msgpack M_JsonText Spec_JsonText P_JsonText1 P_JsonText2 P_JsonText3 P_Msgpack3.

(* ------------------------------------------------------------------ strings *)
Lemma encode_cons c r : 32 <= c -> c <> 92 -> c <> 34 -> c <> 47 -> c <> 226 ->
  encode_json 0 (c :: r) = c :: encode_json 0 r.
Proof.
  intros. cbn [encode_json]. replace (c =? 226) with false by lia.
  replace ((32 <=? c) && negb (c =? 92) && negb (c =? 34) && negb (c =? 47)) with true by lia. reflexivity.
Qed.
Lemma encode_esc c r : c < 32 \/ c = 92 \/ c = 34 \/ c = 47 -> encode_json 0 (c :: r) = escape c ++ encode_json 0 r.
Proof.
  intros. cbn [encode_json]. replace (c =? 226) with false by lia.
  replace ((32 <=? c) && negb (c =? 92) && negb (c =? 34) && negb (c =? 47)) with false by lia. reflexivity.
Qed.
Lemma encode_e2 d e r : 128 <= d < 192 -> 128 <= e < 192 -> ~ (d = 128 /\ (e = 168 \/ e = 169)) ->
  encode_json 0 (226 :: d :: e :: r) = 226 :: d :: e :: encode_json 0 r.
Proof.
  intros Hd He N. assert (X : encode_json 0 (226 :: d :: e :: r) = 226 :: encode_json 0 (d :: e :: r)).
  { destruct (Z.eq_dec d 128) as [->|Nd].
    - assert (L : (Z.lor e 1 =? 169) = false).
      { apply Z.eqb_neq. intros L.
        assert (B : (negb (Z.lor e 1 =? 169) || (e =? 168) || (e =? 169)) = true).
        { apply (brute (fun e => negb (Z.lor e 1 =? 169) || (e =? 168) || (e =? 169)) 192); [reflexivity|lia]. }
        rewrite L in B. simpl in B. lia. }
      cbn [encode_json Z.eqb Pos.eqb]. rewrite L. reflexivity.
    - destruct d as [|q|q]; try lia.
      assert (Q : forall q : positive, q <> 128%positive -> forall (A : Type) (x y : A), match Z.pos q with 128 => x | _ => y end = y).
      { clear. intros q H A x y. do 8 (destruct q; try reflexivity); congruence. }
      cbn [encode_json]. change (226 =? 226) with true. cbv iota.
      rewrite (Q q) by congruence. reflexivity. }
  rewrite X. rewrite !encode_cons by lia. reflexivity.
Qed.
Lemma upper_hexdig n : 0 <= n < 16 -> hexdig (upper_hex n) = Some n.
Proof.
  intros H. assert (B : match hexdig (upper_hex n) with Some x => x =? n | None => false end = true).
  { apply (brute (fun n => match hexdig (upper_hex n) with Some x => x =? n | None => false end) 16); [reflexivity|lia]. }
  destruct (hexdig (upper_hex n)); [f_equal; lia|discriminate].
Qed.
Lemma escape_char rfc c : (rfc = true /\ (c = 0 \/ c = 8232 \/ c = 8233)) \/ 0 < c < 32 \/ c = 92 \/ c = 34 \/ c = 47 -> jchar rfc (escape c) c.
Proof.
  intros H. unfold escape.
  destruct (c =? 8) eqn:E1; [replace c with 8 by lia; apply jc_esc; cbn [In]; tauto|].
  destruct (c =? 12) eqn:E2; [replace c with 12 by lia; apply jc_esc; cbn [In]; tauto|].
  destruct (c =? 10) eqn:E3; [replace c with 10 by lia; apply jc_esc; cbn [In]; tauto|].
  destruct (c =? 13) eqn:E4; [replace c with 13 by lia; apply jc_esc; cbn [In]; tauto|].
  destruct (c =? 9) eqn:E5; [replace c with 9 by lia; apply jc_esc; cbn [In]; tauto|].
  destruct ((c =? 92) || (c =? 34) || (c =? 47)) eqn:E6.
  - assert (c = 92 \/ c = 34 \/ c = 47) as [->|[->| ->]] by lia; apply jc_esc; cbn [In]; tauto.
  - apply jc_u; [|split; lia|destruct H as [[H _]|H]; [now left|right; lia]].
    exists (upper_hex (c / 2 ^ 12)), (upper_hex (c / 2 ^ 8 mod 16)), (upper_hex (c / 2 ^ 4 mod 16)), (upper_hex (c mod 16)),
      (c / 2 ^ 12), (c / 2 ^ 8 mod 16), (c / 2 ^ 4 mod 16), (c mod 16).
    change (2 ^ 12) with 4096. change (2 ^ 8) with 256. change (2 ^ 4) with 16.
    rewrite !upper_hexdig by lia. repeat split. lia.
Qed.
Definition clean_char (rfc : bool) (c : Z) : Prop := scalar c /\ (rfc = true \/ c <> 0 /\ c <> 8232 /\ c <> 8233).
Lemma encode_char rfc c r : clean_char rfc c -> exists t, encode_json 0 (utf8 c ++ r) = t ++ encode_json 0 r /\ jchar rfc t c.
Proof.
  intros ([S1 S2] & NN). pose proof (jc_raw rfc c (conj S1 S2)) as J.
  destruct (Z.eq_dec c 8232) as [->|N8].
  { destruct NN as [->|NN]; [|lia]. exists (escape 8232). split; [reflexivity|]. apply escape_char. auto. }
  destruct (Z.eq_dec c 8233) as [->|N9].
  { destruct NN as [->|NN]; [|lia]. exists (escape 8233). split; [reflexivity|]. apply escape_char. auto. }
  unfold utf8 in J |- *.
  destruct (c <? 128) eqn:E1.
  { cbn [app]. destruct (Z_lt_dec c 32) as [L|L].
    { exists (escape c). rewrite encode_esc by lia. split; [reflexivity|]. apply escape_char.
      destruct (Z.eq_dec c 0); [destruct NN; [left; auto|lia]|lia]. }
    destruct ((c =? 92) || (c =? 34) || (c =? 47)) eqn:E2.
    { exists (escape c). rewrite encode_esc by lia. split; [reflexivity|]. apply escape_char. lia. }
    exists [c]. rewrite encode_cons by lia. split; [reflexivity|]. apply J; lia. }
  eexists. split; [|apply J; lia].
  destruct (c <? 2048) eqn:E2; [|destruct (c <? 65536) eqn:E3]; cbn [app].
  - rewrite !encode_cons by lia. reflexivity.
  - destruct (Z.eq_dec (c / 4096) 2) as [Q|Q].
    + replace (224 + c / 4096) with 226 by lia. rewrite encode_e2 by lia. reflexivity.
    + rewrite !encode_cons by lia. reflexivity.
  - rewrite !encode_cons by lia. reflexivity.
Qed.
Lemma encode_chars rfc cs : Forall (clean_char rfc) cs -> jstring rfc (34 :: encode_json 0 (flat_map utf8 cs) ++ [34]) (flat_map utf8 cs).
Proof.
  intros F. assert (X : jchars rfc (encode_json 0 (flat_map utf8 cs)) cs).
  { induction F as [|c cs Hc F IH]; [constructor|]. cbn [flat_map].
    destruct (encode_char rfc c (flat_map utf8 cs) Hc) as (t & -> & J). now constructor. }
  now apply js_quoted.
Qed.
Lemma encode_clean s : clean_string s -> jstring false (34 :: encode_json 0 s ++ [34]) s.
Proof. intros (cs & -> & F). apply encode_chars. revert F. apply Forall_impl. intros c (A & B). split; [exact A|now right]. Qed.
Lemma encode_utf8 s : utf8_string s -> jstring true (34 :: encode_json 0 s ++ [34]) s.
Proof. intros (cs & -> & F). apply encode_chars. revert F. apply Forall_impl. intros c A. split; [exact A|now left]. Qed.

(* ------------------------------------------------------------------ integers *)
Lemma uint_chars_digits d : Forall isdig (uint_chars d).
Proof. induction d; simpl; constructor; auto; unfold isdig; lia. Qed.
Lemma acc_value d : forall a, fold_left (fun x c => 10 * x + (c - 48)) (uint_chars d) (Zpos a) = Zpos (Pos.of_uint_acc d a).
Proof. induction d; intros a; cbn [uint_chars fold_left]; [reflexivity|..]; cbn [Pos.of_uint_acc]; rewrite <- IHd; f_equal; lia. Qed.
Lemma uint_value d : decimal (uint_chars d) = Z.of_N (Pos.of_uint d).
Proof.
  unfold decimal. induction d; cbn [uint_chars fold_left Pos.of_uint]; try reflexivity; try exact IHd;
    cbn [Z.of_N]; rewrite <- acc_value; reflexivity.
Qed.
Lemma uint_intpart p : intpart (uint_chars (Pos.to_uint p)).
Proof.
  assert (U : unorm (Pos.to_uint p) = Pos.to_uint p).
  { rewrite <- (DecimalPos.Unsigned.to_of (Pos.to_uint p)). rewrite DecimalPos.Unsigned.of_to. reflexivity. }
  pose proof (DecimalPos.Unsigned.to_uint_nonzero p) as NZ.
  pose proof (DecimalPos.Unsigned.to_uint_nonnil p) as NN.
  destruct (Pos.to_uint p) as [|d|d|d|d|d|d|d|d|d|d]; cbn [uint_chars];
    try (constructor; [lia|apply uint_chars_digits]); [congruence|].
  exfalso. apply (f_equal Decimal.nb_digits) in U. unfold unorm in U. cbn [nzhead] in U.
  destruct (nzhead d) eqn:E.
  - cbn in U. destruct d; try (cbn in U; discriminate). now apply NZ.
  - pose proof (nb_digits_nzhead d) as X. rewrite E in X. cbn [Decimal.nb_digits] in *. lia.
  - pose proof (nb_digits_nzhead d) as X. rewrite E in X. cbn [Decimal.nb_digits] in *. lia.
  - pose proof (nb_digits_nzhead d) as X. rewrite E in X. cbn [Decimal.nb_digits] in *. lia.
  - pose proof (nb_digits_nzhead d) as X. rewrite E in X. cbn [Decimal.nb_digits] in *. lia.
  - pose proof (nb_digits_nzhead d) as X. rewrite E in X. cbn [Decimal.nb_digits] in *. lia.
  - pose proof (nb_digits_nzhead d) as X. rewrite E in X. cbn [Decimal.nb_digits] in *. lia.
  - pose proof (nb_digits_nzhead d) as X. rewrite E in X. cbn [Decimal.nb_digits] in *. lia.
  - pose proof (nb_digits_nzhead d) as X. rewrite E in X. cbn [Decimal.nb_digits] in *. lia.
  - pose proof (nb_digits_nzhead d) as X. rewrite E in X. cbn [Decimal.nb_digits] in *. lia.
  - pose proof (nb_digits_nzhead d) as X. rewrite E in X. cbn [Decimal.nb_digits] in *. lia.
Qed.
Lemma int_text rfc strtod x : rfc = true \/ - 2 ^ 63 < x < 2 ^ 64 -> jnumber rfc strtod (int_chars x) (JInt x).
Proof.
  intros H. unfold int_chars. destruct x as [|p|p]; cbn [Z.to_int].
  - apply (jn_pos rfc strtod [48]); [constructor|]. right. reflexivity.
  - assert (V : decimal (uint_chars (Pos.to_uint p)) = Z.pos p).
    { rewrite uint_value, DecimalPos.Unsigned.of_to. reflexivity. }
    assert (J : jnumber rfc strtod (uint_chars (Pos.to_uint p)) (JInt (decimal (uint_chars (Pos.to_uint p))))).
    { apply jn_pos; [apply uint_intpart|]. destruct H as [H|H]; [now left|right; rewrite V; lia]. }
    rewrite V in J. exact J.
  - assert (V : decimal (uint_chars (Pos.to_uint p)) = Z.pos p).
    { rewrite uint_value, DecimalPos.Unsigned.of_to. reflexivity. }
    assert (J : jnumber rfc strtod (45 :: uint_chars (Pos.to_uint p)) (JInt (- decimal (uint_chars (Pos.to_uint p))))).
    { apply jn_neg; [apply uint_intpart|]. destruct H as [H|H]; [now left|right; rewrite V; lia]. }
    rewrite V in J. exact J.
Qed.

Ltac flat := repeat first [rewrite <- app_assoc | progress cbn [app]].
Ltac flat_in H := repeat first [rewrite <- app_assoc in H | progress cbn [app] in H].
(* ------------------------------------------------------------------ values *)
Section U.
Variable rfc : bool.
Variable str : list Z -> Prop.
Variable int : Z -> Prop.
Hypothesis str_ok : forall s, str s -> jstring rfc (34 :: encode_json 0 s ++ [34]) s.
Hypothesis int_ok : forall x, int x -> rfc = true \/ - 2 ^ 63 < x < 2 ^ 64.
Variable dshow : Z -> list Z.
Variable strtod : list Z -> Z.
Variable m : manip.

Section Items.
Variable sep ind : list Z.
Variable f : json -> list Z.
Variable colon : list Z.
Fixpoint aitems (rest : bool) (l : list json) : list Z :=
  match l with [] => [] | v :: l' => (if rest then sep else []) ++ ind ++ f v ++ aitems true l' end.
Fixpoint oitems (rest : bool) (l : list (list Z * json)) : list Z :=
  match l with
  | [] => []
  | (k, v) :: l' => (if rest then sep else []) ++ ind ++ 34 :: encode_json 0 k ++ 34 :: colon ++ f v ++ oitems true l'
  end.
End Items.
Lemma unparse_arr d l : jt_unparse dshow m d (JArr l) =
  let e := (d <? indent_depth m) && is_complex (JArr l) in
  91 :: aitems (snd (upx m e)) (if e then indent m (d + 1) else []) (jt_unparse dshow m (d + 1)) false l
     ++ (if e then indent m d else []) ++ [93].
Proof. reflexivity. Qed.
Lemma unparse_obj d l : jt_unparse dshow m d (JObj l) =
  let e := (d <? indent_depth m) && is_complex (JObj l) in
  123 :: oitems (snd (upx m e)) (if e then indent m (d + 1) else []) (jt_unparse dshow m (d + 1)) (fst (upx m e)) false l
     ++ (if e then indent m d else []) ++ [125].
Proof. reflexivity. Qed.
Lemma ws_app a b : ws a -> ws b -> ws (a ++ b). Proof. intros. now apply Forall_app. Qed.
Lemma ws_repeat c n : c = 32 \/ c = 9 -> ws (repeat c n).
Proof. intros H. induction n; simpl; constructor; auto. lia. Qed.
Lemma indent_ws d : ws (indent m d).
Proof. unfold indent. constructor; [lia|]. apply ws_app; apply ws_repeat; auto. Qed.
Lemma ind_ws (e : bool) d : ws (if e then indent m d else []).
Proof. destruct e; [apply indent_ws|constructor]. Qed.
Lemma sep_shape e : exists w, snd (upx m e) = 44 :: w /\ ws w.
Proof.
  unfold upx. destruct e; [exists []; split; [reflexivity|constructor]|].
  destruct (space_separator m); [exists [32]|exists []]; split; auto; repeat constructor; auto.
Qed.
Lemma colon_shape e : exists w, fst (upx m e) = 58 :: w /\ ws w.
Proof.
  unfold upx. destruct e; [exists [32]; split; [reflexivity|repeat constructor; auto]|].
  destruct (space_separator m); [exists [32]|exists []]; split; auto; repeat constructor; auto.
Qed.

Notation canonf := (fun kv : list Z * json => (fst kv, canon (snd kv))).
Lemma clean_arr l : good str int (JArr l) -> Forall (good str int) l.
Proof. simpl. induction l; simpl; intros H; constructor; tauto. Qed.
Lemma clean_obj l : good str int (JObj l) -> NoDup (map fst l) /\ Forall (fun kv => str (fst kv) /\ good str int (snd kv)) l.
Proof. simpl. intros [D H]. split; [exact D|]. clear D. induction l; simpl in *; constructor; tauto. Qed.
Lemma canon_keys l : map fst (map canonf l) = map fst l.
Proof. rewrite map_map. apply map_ext. reflexivity. Qed.

Lemma unparse_jtext j : good str int j -> forall d, jtext rfc strtod (jt_unparse dshow m d j) (canon j).
Proof.
  induction j as [|b|x|x|x|s|l IH|l IH] using json_ind2; intros C d.
  - constructor.
  - destruct b; constructor.
  - apply jt_num, int_text. apply int_ok. exact C.
  - apply jt_num. simpl in C |- *. apply int_text. right. lia.
  - destruct C.
  - apply jt_str. now apply str_ok.
  - apply clean_arr in C. rewrite unparse_arr. cbv zeta.
    set (e := (d <? indent_depth m) && is_complex (JArr l)). clearbody e.
    destruct (sep_shape e) as (w & -> & Hw). pose proof (ind_ws e (d + 1)) as W1. pose proof (ind_ws e d) as W2.
    set (ind := if e then indent m (d + 1) else []) in *. set (fin := if e then indent m d else []) in *. clearbody ind fin.
    rewrite app_assoc. cbn [canon].
    destruct l as [|v l]; [now apply jt_arr0|].
    apply jt_arr. cbn [aitems app].
    assert (X : forall l v w0, ws w0 -> Forall (fun j => good str int j -> forall d, jtext rfc strtod (jt_unparse dshow m d j) (canon j)) (v :: l) ->
      Forall (good str int) (v :: l) ->
      jitems rfc strtod (w0 ++ (jt_unparse dshow m (d + 1) v ++ aitems (44 :: w) ind (jt_unparse dshow m (d + 1)) true l) ++ fin) (map canon (v :: l))).
    { clear v l IH C. induction l as [|v2 l IHl]; intros v w0 H0 F1 F2; inversion F1 as [|? ? A1 A2]; inversion F2 as [|? ? B1 B2]; subst.
      - cbn [aitems map]. rewrite app_nil_r. apply ji_one; auto.
      - cbn [aitems map]. rewrite <- !app_assoc. cbn [app].
        apply (ji_more rfc strtod w0 (jt_unparse dshow m (d + 1) v) [] (canon v)); auto; [constructor|].
        specialize (IHl v2 (w ++ ind) (ws_app _ _ Hw W1) A2 B2). rewrite <- !app_assoc in IHl. exact IHl. }
    rewrite <- !app_assoc. specialize (X l v ind W1 IH C). rewrite <- !app_assoc in X. exact X.
  - apply clean_obj in C. destruct C as [D C]. rewrite unparse_obj. cbv zeta.
    set (e := (d <? indent_depth m) && is_complex (JObj l)). clearbody e.
    destruct (sep_shape e) as (w & -> & Hw). destruct (colon_shape e) as (wc & -> & Hwc).
    pose proof (ind_ws e (d + 1)) as W1. pose proof (ind_ws e d) as W2.
    set (ind := if e then indent m (d + 1) else []) in *. set (fin := if e then indent m d else []) in *. clearbody ind fin.
    rewrite app_assoc. cbn [canon].
    destruct l as [|[k v] l]; [now apply jt_obj0|].
    apply jt_obj; [|rewrite <- canon_keys in D; exact D]. cbn [oitems app]. clear D.
    assert (X : forall l k v w0, ws w0 -> Forall (fun kv => good str int (snd kv) -> forall d, jtext rfc strtod (jt_unparse dshow m d (snd kv)) (canon (snd kv))) ((k, v) :: l) ->
      Forall (fun kv => str (fst kv) /\ good str int (snd kv)) ((k, v) :: l) ->
      jmembers rfc strtod (w0 ++ (34 :: encode_json 0 k ++ [34]) ++ [] ++ 58 :: wc ++ jt_unparse dshow m (d + 1) v
         ++ oitems (44 :: w) ind (jt_unparse dshow m (d + 1)) (58 :: wc) true l ++ fin) (map canonf ((k, v) :: l))).
    { clear k v l IH C. induction l as [|[k2 v2] l IHl]; intros k v w0 H0 F1 F2; inversion F1 as [|? ? A1 A2]; inversion F2 as [|? ? B1 B2]; subst; cbn [fst snd] in *; destruct B1 as [B1 B1'].
      - cbn [oitems map]. apply jm_one; auto; constructor.
      - cbn [oitems map]. rewrite <- !app_assoc. cbn [app].
        apply (jm_more rfc strtod w0 (34 :: encode_json 0 k ++ [34]) [] wc (jt_unparse dshow m (d + 1) v) [] k (canon v)); auto; try constructor; try now apply str_ok.
        specialize (IHl k2 v2 (w ++ ind) (ws_app _ _ Hw W1) A2 B2). flat_in IHl. flat. exact IHl. }
    specialize (X l k v ind W1 IH C). flat_in X. flat. exact X.
Qed.

End U.

Lemma nesting_canon j : nesting (canon j) = nesting j.
Proof.
  induction j as [|b|x|x|x|s|l IH|l IH] using json_ind2; try reflexivity.
  - cbn [canon nesting]. f_equal. induction IH as [|v l Hv IH IH2]; [reflexivity|]. cbn [map fold_right]. now rewrite Hv, IH2.
  - cbn [canon nesting]. f_equal. induction IH as [|[k v] l Hv IH IH2]; [reflexivity|]. cbn [map fold_right fst snd] in *. now rewrite Hv, IH2.
Qed.
Lemma canon_canon j : canon (canon j) = canon j.
Proof.
  induction j as [|b|x|x|x|s|l IH|l IH] using json_ind2; try reflexivity.
  - cbn [canon]. f_equal. induction IH as [|v l Hv IH IH2]; [reflexivity|]. cbn [map]. now rewrite Hv, IH2.
  - cbn [canon]. f_equal. induction IH as [|[k v] l Hv IH IH2]; [reflexivity|]. cbn [map fst snd] in *. now rewrite Hv, IH2.
Qed.
Theorem unparse_parse dshow strtod m j : clean j -> nesting j <= 2048 ->
  exists j', assign_parse strtod (json_unparse dshow m j) = PValue j' /\ same_value j' j.
Proof.
  intros C D. destruct (parse_doc strtod [] (jt_unparse dshow m 0 j) (if newline_terminator m then [10] else []) (canon j))
    as (j' & H1 & H2).
  - constructor.
  - apply jtext_parsed. apply unparse_jtext with clean_string (fun x => - 2 ^ 63 < x < 2 ^ 63); [exact encode_clean|lia|exact C].
  - now rewrite nesting_canon.
  - destruct (newline_terminator m); [|constructor]. constructor; [auto|constructor].
  - destruct (newline_terminator m); simpl; lia.
  - exists j'. split; [exact H1|]. unfold same_value in *. now rewrite H2, canon_canon.
Qed.
Theorem unparse_json dshow strtod m j : plain j -> jdoc true strtod (json_unparse dshow m j) (canon j).
Proof.
  intros C. unfold json_unparse.
  apply (jd_doc true strtod [] (jt_unparse dshow m 0 j) (if newline_terminator m then [10] else [])); [constructor| | |now left].
  - apply unparse_jtext with utf8_string (fun x => - 2 ^ 63 <= x < 2 ^ 63); [exact encode_utf8|now left|exact C].
  - destruct (newline_terminator m); [|constructor]. constructor; [auto|constructor].
Qed.
