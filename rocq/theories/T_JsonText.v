(* JSON text theorems: C47 (parsing), C48 (round trip), C49 (text in pieces), C50 (safety of the parser). *)
From Verif Require Import Lib M_Msgpack M_JsonText Spec_JsonText Spec_JsonLax P_JsonText3 P_JsonText4 P_JsonText5 P_JsonText6 P_JsonText7 P_JsonText8 P_JsonText10.

(* ------------------------------------------------------------------ C47 *)
(* A text of JSON is accepted with the value it denotes. Partial: for the part of the RFC's grammar given by
   rfc = false (Spec_JsonText) and nesting up to 2048; the refutations below show that the parts left out are
   misread. *)
Theorem C47_text_parsed_partial : forall strtod t v, jdoc false strtod t v -> nesting v <= 2048 ->
  exists v', assign_parse strtod t = PValue v' /\ same_value v' v.
Proof. exact jdoc_parsed. Qed.
Print Assumptions C47_text_parsed_partial.
(* space, open bracket, -20, comma, space, open brace, quoted k, colon, a quoted u-escape of U+00E9 followed by
   raw U+1F600, close brace, close bracket, newline *)
Definition doc1 : list Z :=
  [32] ++ (91 :: ([] ++ [45; 50; 48] ++ [] ++ 44 :: ([32] ++ (123 :: ([] ++ [34; 107; 34] ++ [] ++ 58 :: [] ++
    (34 :: ([92; 117; 48; 48; 69; 57] ++ [240; 159; 152; 128]) ++ [34]) ++ []) ++ [125]) ++ [])) ++ [93]) ++ [10].
Definition val1 : json := JArr [JInt (-20); JObj [([107], JStr ([195; 169] ++ [240; 159; 152; 128]))]].
Example doc1_doc : jdoc false (fun _ => 0) doc1 val1.
Proof.
  apply jd_doc; [repeat constructor; auto| |repeat constructor; lia|right; simpl; lia]. apply jt_arr.
  apply ji_more; [constructor| |constructor|].
  - apply jt_num. apply (jn_neg false _ [50; 48]); [|right; reflexivity]. constructor; [lia|repeat constructor; unfold isdig; lia].
  - apply ji_one; [repeat constructor; auto| |constructor]. apply jt_obj; [|repeat constructor; simpl; tauto].
    apply jm_one; [constructor| |constructor|constructor|apply jt_str|constructor].
    + apply (js_quoted false [107] [107]). apply (jcs_cons false (utf8 107) 107 [] []); [|constructor]. apply jc_raw; [split; lia|lia..].
    + apply (js_quoted false ([92; 117; 48; 48; 69; 57] ++ [240; 159; 152; 128]) [233; 128512]).
      apply (jcs_cons false [92; 117; 48; 48; 69; 57] 233 [240; 159; 152; 128] [128512]).
      * apply jc_u; [|split; lia|right; lia]. now apply (hex4_ex 48 48 69 57 0 0 14 9).
      * apply (jcs_cons false (utf8 128512) 128512 [] []); [|constructor]. apply jc_raw; [split; lia|lia..].
Qed.
Example C47_example : assign_parse (fun _ => 0) doc1 = PValue val1.
Proof. reflexivity. Qed.

(* What is accepted is of the grammar of Spec_JsonLax, with the value given there: JSON, escapes of U+0800 to U+7FFF
   garbled, integers modulo 2^64, numbers without digits before the fraction, and names given twice. Partial: the
   claim is that only JSON is accepted. *)
Theorem C47_accepted_partial : forall strtod t v, assign_parse strtod t = PValue v -> ldoc strtod t v.
Proof. exact accepted_lax. Qed.
Print Assumptions C47_accepted_partial.
Example C47_accepted_example : exists v, assign_parse (fun _ => 0) doc1 = PValue v /\ ldoc (fun _ => 0) doc1 v.
Proof. exists val1. split; [reflexivity|]. apply accepted_lax. reflexivity. Qed.

(* The full claim, for the RFC's grammar, is false of the code: escapes of U+0800 to U+7FFF give other bytes ... *)
Theorem C47_escape_refuted : forall strtod, exists t v, jdoc true strtod t v /\ nesting v <= 2048
  /\ ~ exists v', assign_parse strtod t = PValue v' /\ same_value v' v.
Proof. intros strtod. exact (ex_intro _ _ (ex_intro _ _ (misread_escape strtod))). Qed.
Print Assumptions C47_escape_refuted.
(* ... the escape of U+0000 is refused ... *)
Theorem C47_nul_escape_refuted : forall strtod, jdoc true strtod [34; 92; 117; 48; 48; 48; 48; 34] (JStr [0])
  /\ assign_parse strtod [34; 92; 117; 48; 48; 48; 48; 34] = PRefused.
Proof. intros strtod. exact (conj (proj1 (misread_nul strtod)) eq_refl). Qed.
Print Assumptions C47_nul_escape_refuted.
(* ... so are surrogate pairs with a lower-case second unit (here U+1F600) ... *)
Theorem C47_surrogate_refuted : forall strtod,
  jdoc true strtod [34; 92; 117; 68; 56; 51; 68; 92; 117; 100; 101; 48; 48; 34] (JStr [240; 159; 152; 128])
  /\ assign_parse strtod [34; 92; 117; 68; 56; 51; 68; 92; 117; 100; 101; 48; 48; 34] = PRefused.
Proof. intros strtod. exact (conj (proj1 (misread_lower strtod)) eq_refl). Qed.
Print Assumptions C47_surrogate_refuted.
(* ... and texts with two bytes of white space at the end ... *)
Theorem C47_trailing_space_refuted : forall strtod, jdoc true strtod [49; 32; 32] (JInt 1)
  /\ assign_parse strtod [49; 32; 32] = PRefused.
Proof. intros strtod. exact (conj (proj1 (misread_spaces strtod)) eq_refl). Qed.
Print Assumptions C47_trailing_space_refuted.
(* ... integers from 2^64 on are taken modulo 2^64 ... *)
Theorem C47_big_integer_refuted : forall strtod, jdoc true strtod big (JInt (2 ^ 64)) /\ assign_parse strtod big = PValue (JUns 0).
Proof. intros strtod. exact (conj (proj1 (misread_big strtod)) eq_refl). Qed.
Print Assumptions C47_big_integer_refuted.
(* ... texts that are not JSON are accepted (minus, point, five) ... *)
Theorem C47_not_json_refuted : forall strtod, (forall v, ~ jdoc true strtod [45; 46; 53] v)
  /\ exists v, assign_parse strtod [45; 46; 53] = PValue v.
Proof. intros strtod. exact (conj (not_json strtod) (accepted_not_json strtod)). Qed.
Print Assumptions C47_not_json_refuted.
(* ... and of {"a":[1],"a":2} neither value remains: the second one is appended to the first. *)
Theorem C47_duplicate_names_refuted : forall strtod,
  assign_parse strtod [123; 34; 97; 34; 58; 91; 49; 93; 44; 34; 97; 34; 58; 50; 125] = PValue (JObj [([97], JArr [JInt 1; JInt 2])]).
Proof. intros strtod. exact eq_refl. Qed.
Print Assumptions C47_duplicate_names_refuted.

(* ------------------------------------------------------------------ C48 *)
(* What the writer prints, the parser reads back as the same value. Partial: without doubles, U+0000, U+2028,
   U+2029, bytes that are not UTF-8, and the integer -2^63 (clean), and for nesting up to 2048. *)
Theorem C48_text_roundtrip_partial : forall dshow strtod m j, clean j -> nesting j <= 2048 ->
  exists j', assign_parse strtod (json_unparse dshow m j) = PValue j' /\ same_value j' j.
Proof. exact unparse_parse. Qed.
Print Assumptions C48_text_roundtrip_partial.
Definition val2 : json :=
  JObj [([97; 34], JArr [JStr [10; 47; 226; 130; 172]; JNull; JArr []]); ([98], JUns (2 ^ 64 - 1)); ([], JInt (- 2 ^ 63 + 1))].
Example C48_example : clean val2 /\ nesting val2 = 3 /\
  assign_parse (fun _ => 0) (json_unparse (fun _ => []) (MkManip 2 3 true true) val2) = PValue (JObj
    [([97; 34], JArr [JStr [10; 47; 226; 130; 172]; JNull; JArr []]); ([98], JUns (2 ^ 64 - 1)); ([], JInt (- 2 ^ 63 + 1))]).
Proof.
  split; [|split; reflexivity]. unfold clean. cbn [good val2 fold_right fst snd map]. repeat split; try lia.
  - repeat constructor; simpl; intuition discriminate.
  - exists [97; 34]. split; [reflexivity|]. repeat constructor; lia.
  - exists [10; 47; 8364]. split; [reflexivity|]. repeat constructor; lia.
  - exists [98]. split; [reflexivity|]. repeat constructor; lia.
  - exists []. split; [reflexivity|]. constructor.
Qed.
(* What the writer prints is JSON by the RFC's grammar and denotes the value. Partial: without doubles and bytes that
   are not UTF-8; nothing else is left out. *)
Theorem C48_text_json_partial : forall dshow strtod m j, plain j -> jdoc true strtod (json_unparse dshow m j) (canon j).
Proof. exact unparse_json. Qed.
Print Assumptions C48_text_json_partial.
Example C48_json_example : plain (JArr [JStr [0; 226; 128; 168]; JInt (- 2 ^ 63)]).
Proof.
  unfold plain. cbn [good fold_right]. repeat split; try lia.
  exists [0; 8232]. split; [reflexivity|]. repeat constructor; lia.
Qed.
(* The full claim, for all values, is false of the code: for the string with the byte 0 ... *)
Theorem C48_nul_refuted : forall dshow strtod,
  ~ exists j', assign_parse strtod (json_unparse dshow default_manip (JStr [0])) = PValue j' /\ same_value j' (JStr [0]).
Proof. intros dshow strtod. exact (lost_nul strtod dshow). Qed.
Print Assumptions C48_nul_refuted.
(* ... for U+2028 ... *)
Theorem C48_line_separator_refuted : forall dshow strtod,
  ~ exists j', assign_parse strtod (json_unparse dshow default_manip (JStr [226; 128; 168])) = PValue j'
      /\ same_value j' (JStr [226; 128; 168]).
Proof. intros dshow strtod. exact (lost_2028 strtod dshow). Qed.
Print Assumptions C48_line_separator_refuted.
(* ... and for the smallest integer. *)
Theorem C48_smallest_integer_refuted : forall dshow strtod,
  ~ exists j', assign_parse strtod (json_unparse dshow default_manip (JInt (- 2 ^ 63))) = PValue j' /\ same_value j' (JInt (- 2 ^ 63)).
Proof. intros dshow strtod. exact (lost_min strtod dshow). Qed.
Print Assumptions C48_smallest_integer_refuted.

(* ------------------------------------------------------------------ C49 *)
(* A text given to the streaming parser in pieces has the outcome of the text in one, except that a text that is
   refused may be unfinished. Partial: no piece may end in the byte E0, ED, F0 or F4. *)
Theorem C49_pieces_partial : forall strtod pieces, pieces <> [] -> (forall s, In s pieces -> ~ badend s) ->
  outcome_of (feed strtod p_init pieces) = outcome_of (consume strtod true p_init (concat pieces))
  \/ (outcome_of (feed strtod p_init pieces) = Unfinished /\ outcome_of (consume strtod true p_init (concat pieces)) = Refused).
Proof. exact pieces_outcome. Qed.
Print Assumptions C49_pieces_partial.
(* So JSON in pieces is accepted with its value. *)
Theorem C49_document_in_pieces_partial : forall strtod t v pieces, jdoc false strtod t v -> nesting v <= 2048 -> concat pieces = t ->
  (forall s, In s pieces -> ~ badend s) ->
  exists v' r, outcome_of (feed strtod p_init pieces) = Accepted v' r /\ same_value v' v /\ ws r.
Proof. exact pieces_document. Qed.
Print Assumptions C49_document_in_pieces_partial.
(* And what is accepted in pieces is, after white space, a text of the grammar of Spec_JsonLax and what is left. *)
Theorem C49_accepted_in_pieces_partial : forall strtod pieces v r, (forall s, In s pieces -> ~ badend s) ->
  outcome_of (feed strtod p_init pieces) = Accepted v r ->
  exists w t, concat pieces = w ++ t ++ r /\ ws w /\ ltext strtod t v.
Proof. exact accepted_pieces. Qed.
Print Assumptions C49_accepted_in_pieces_partial.
(* Every byte a piece of its own, but for the byte F0. *)
Definition doc2 : list Z := [91; 34; 92; 117; 48; 48; 69; 57; 195; 169; 34; 44; 45; 49; 46; 53; 101; 51; 44; 116; 114; 117; 101; 93].
Example C49_example : (forall s, In s (map (fun c => [c]) doc2) -> ~ badend s) /\
  outcome_of (feed (fun t => len t) p_init (map (fun c => [c]) doc2))
    = Accepted (JArr [JStr [195; 169; 195; 169]; JDouble 6; JBool true]) [].
Proof.
  split; [|reflexivity]. intros s H (a & c & E & L). apply in_map_iff in H. destruct H as (x & <- & H).
  apply (app_inj_tail [] a) in E. destruct E as [_ ->]. unfold doc2 in H. cbn [In] in H. unfold lead in L. lia.
Qed.
(* Undefined for the string U+0800 cut after its first byte, which is accepted in one. *)
Theorem C49_pieces_refuted : forall strtod, exists pieces, outcome_of (feed strtod p_init pieces) = Undefined
  /\ outcome_of (consume strtod true p_init (concat pieces)) = Accepted (JStr [224; 160; 128]) [].
Proof. intros strtod. exact (ex_intro _ [[34; 224]; [160; 128; 34]] (conj eq_refl eq_refl)). Qed.
Print Assumptions C49_pieces_refuted.
(* The exception does occur: \uD800\ua is refused in one, but cut before the a the parser waits for more. *)
Theorem C49_refusal_refuted : forall strtod, exists pieces, outcome_of (feed strtod p_init pieces) = Unfinished
  /\ outcome_of (consume strtod true p_init (concat pieces)) = Refused.
Proof. intros strtod. exact (ex_intro _ [[34; 92; 117; 68; 56; 48; 48; 92; 117]; [97]] (conj eq_refl eq_refl)). Qed.
Print Assumptions C49_refusal_refuted.

(* ------------------------------------------------------------------ C50 *)
(* On any bytes in any pieces the parser's behaviour is defined. Partial: no piece may end in the byte E0, ED, F0
   or F4, and the text must not have a minus sign followed by digits of the value 2^63 modulo 2^64. *)
Theorem C50_defined_partial : forall strtod pieces, (forall s, In s pieces -> ~ badend s) -> ~ int_min (concat pieces) ->
  outcome_of (feed strtod p_init pieces) <> Undefined.
Proof. exact defined. Qed.
Print Assumptions C50_defined_partial.
Example C50_example : (forall s, In s [[91; 123]; [255]] -> ~ badend s) /\ ~ int_min (concat [[91; 123]; [255]])
  /\ outcome_of (feed (fun _ => 0) p_init [[91; 123]; [255]]) = Refused.
Proof.
  split; [|split; [|reflexivity]].
  - intros s [<-|[<-|[]]] (a & c & E & L); [apply (app_inj_tail [91] a) in E|apply (app_inj_tail [] a) in E]; unfold lead in L; lia.
  - intros (a & ds & t & E & _). assert (I : In 45 (concat [[91; 123]; [255]])) by (rewrite E; apply in_or_app; right; now left).
    cbn in I. lia.
Qed.
Theorem C50_smallest_integer_refuted : forall strtod,
  outcome_of (consume strtod true p_init [45; 57; 50; 50; 51; 51; 55; 50; 48; 51; 54; 56; 53; 52; 55; 55; 53; 56; 48; 56]) = Undefined.
Proof. exact int_min_ub. Qed.
Print Assumptions C50_smallest_integer_refuted.
(* The limit on nesting (2048) is no limit: values nested as deep as one likes are accepted. *)
Theorem C50_depth_limit_refuted : forall strtod n, exists t v, assign_parse strtod t = PValue v /\ n < nesting v.
Proof. exact deep_parsed. Qed.
Print Assumptions C50_depth_limit_refuted.
