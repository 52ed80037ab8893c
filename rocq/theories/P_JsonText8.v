(* The parser's outcomes in pieces, and texts on which the parser is wrong. *)
From Verif Require Import Lib M_Msgpack M_JsonText Spec_JsonText P_JsonText1 P_JsonText2 P_JsonText3 P_JsonText4 P_JsonText5 P_JsonText6 P_JsonText7.

Section P.
Variable strtod : list Z -> Z.

Lemma parse_outcome t v : assign_parse strtod t = PValue v <->
  exists r, outcome_of (consume strtod true p_init t) = Accepted v r /\ (r = [] \/ exists c, r = [c] /\ is_ws c = true).
Proof.
  unfold assign_parse, outcome_of. destruct (consume strtod true p_init t) as [p r| |].
  2, 3: split; [discriminate|intros (x & H & _); discriminate].
  destruct (ps p); [|split; [discriminate|intros (x & H & _); discriminate] ..].
  destruct r as [|c r].
  - split; [intros H; injection H as <-; eauto|intros (x & H & _); injection H as <- _; reflexivity].
  - destruct (is_ws c) eqn:W; [destruct r as [|d r]|].
    + split; [intros H; injection H as <-; exists [c]; eauto|intros (x & H & _); injection H as <- _; reflexivity].
    + split; [discriminate|]. intros (x & H & [->|(e & -> & _)]); discriminate.
    + split; [discriminate|]. intros (x & H & [->|(e & -> & E)]); [discriminate|]. injection H as _ -> _. congruence.
Qed.

Lemma pieces_outcome pieces : pieces <> [] -> (forall s, In s pieces -> ~ badend s) ->
  let a := outcome_of (feed strtod p_init pieces) in
  let b := outcome_of (consume strtod true p_init (concat pieces)) in
  a = b \/ (a = Unfinished /\ b = Refused).
Proof.
  intros N H a b. subst a b. destruct (feed_whole strtod pieces p_init N Logic.I) as [B|[->|[E1 E2]]].
  - apply inner_bad_in in B; [|exact strtod]. destruct B as (s & I & B). now destruct (H s I).
  - now left.
  - destruct (consume strtod true p_init (concat pieces)) as [p r| |]; cbn [err] in E1; try contradiction.
    destruct (feed strtod p_init pieces) as [q t| |]; cbn [err run] in E2; try (destruct E2; contradiction).
    cbn [outcome_of]. rewrite E1. destruct E2 as [E2|[(b & q' & E2) _]]; rewrite E2; auto.
Qed.
Lemma pieces_document t v pieces : jdoc false strtod t v -> nesting v <= 2048 -> concat pieces = t ->
  (forall s, In s pieces -> ~ badend s) ->
  exists v' r, outcome_of (feed strtod p_init pieces) = Accepted v' r /\ same_value v' v /\ ws r.
Proof.
  intros D N E H. destruct (jdoc_parsed strtod t v D N) as (v' & P & S).
  apply parse_outcome in P. destruct P as (r & P & W).
  assert (NE : pieces <> []).
  { intros ->. cbn in E. subst t. cbn in P. discriminate. }
  rewrite <- E in P. destruct (pieces_outcome pieces NE H) as [A|[A B]]; [|congruence].
  exists v', r. split; [congruence|]. split; [exact S|].
  destruct W as [->|(c & -> & W)]; [constructor|]. constructor; [|constructor]. unfold is_ws in W. lia.
Qed.
Lemma defined pieces : (forall s, In s pieces -> ~ badend s) -> ~ int_min (concat pieces) ->
  outcome_of (feed strtod p_init pieces) <> Undefined.
Proof.
  intros H1 H2. destruct (feed_defined strtod pieces H1 H2) as (p & r & ->). cbn. destruct (ps p); discriminate.
Qed.

(* Texts of JSON that are not read right. *)
Definition misread (t : list Z) (v : json) : Prop :=
  jdoc true strtod t v /\ nesting v <= 2048 /\ ~ exists v', assign_parse strtod t = PValue v' /\ same_value v' v.
Lemma str_doc t c : jchar true t c -> jdoc true strtod (34 :: t ++ [34]) (JStr (utf8 c)).
Proof.
  intros H. rewrite <- (app_nil_r (34 :: t ++ [34])). apply (jd_doc true strtod [] (34 :: t ++ [34]) []); [constructor| |constructor|now left].
  apply jt_str. assert (X : jchars true (t ++ []) [c]) by (constructor; [exact H|constructor]).
  apply js_quoted in X. cbn [flat_map] in X. rewrite !app_nil_r in X. exact X.
Qed.
Lemma hex4_ex a b c d a' b' c' d' x : hexdig a = Some a' -> hexdig b = Some b' -> hexdig c = Some c' -> hexdig d = Some d' ->
  x = 4096 * a' + 256 * b' + 16 * c' + d' -> hex4 [a; b; c; d] x.
Proof. intros. exists a, b, c, d, a', b', c', d'. repeat split; assumption. Qed.

Lemma misread_escape : misread [34; 92; 117; 48; 56; 48; 48; 34] (JStr [224; 160; 128]).
Proof.
  split; [|split; [cbn; lia|]].
  - apply (str_doc [92; 117; 48; 56; 48; 48] 2048). apply jc_u; [|split; lia|now left].
    now apply (hex4_ex 48 56 48 48 0 8 0 0).
  - intros (v' & H & S). vm_compute in H. injection H as <-. discriminate.
Qed.
Lemma misread_nul : misread [34; 92; 117; 48; 48; 48; 48; 34] (JStr [0]).
Proof.
  split; [|split; [cbn; lia|]].
  - apply (str_doc [92; 117; 48; 48; 48; 48] 0). apply jc_u; [|split; lia|now left].
    now apply (hex4_ex 48 48 48 48 0 0 0 0).
  - intros (v' & H & S). vm_compute in H. discriminate.
Qed.
Lemma misread_lower : misread [34; 92; 117; 68; 56; 51; 68; 92; 117; 100; 101; 48; 48; 34] (JStr [240; 159; 152; 128]).
Proof.
  split; [|split; [cbn; lia|]].
  - assert (X := jc_pair true [68; 56; 51; 68] [100; 101; 48; 48] 55357 56832).
    apply (str_doc [92; 117; 68; 56; 51; 68; 92; 117; 100; 101; 48; 48] 128512). apply X; [|lia| |lia|now left].
    + now apply (hex4_ex 68 56 51 68 13 8 3 13).
    + now apply (hex4_ex 100 101 48 48 13 14 0 0).
  - intros (v' & H & S). vm_compute in H. discriminate.
Qed.
Lemma misread_spaces : misread [49; 32; 32] (JInt 1).
Proof.
  split; [|split; [cbn; lia|]].
  - apply (jd_doc true strtod [] [49] [32; 32]); [constructor| |repeat constructor; auto|now left].
    apply jt_num. apply (jn_pos true strtod [49]); [|now left]. constructor; [lia|constructor].
  - intros (v' & H & S). vm_compute in H. discriminate.
Qed.
Definition big : list Z := [49; 56; 52; 52; 54; 55; 52; 52; 48; 55; 51; 55; 48; 57; 53; 53; 49; 54; 49; 54].
Lemma misread_big : misread big (JInt (2 ^ 64)).
Proof.
  split; [|split; [cbn; lia|]].
  - rewrite <- (app_nil_r big). apply (jd_doc true strtod [] big []); [constructor| |constructor|now left].
    apply jt_num. apply (jn_pos true strtod big); [|now left]. constructor; [lia|]. repeat constructor; unfold isdig; lia.
  - intros (v' & H & S). vm_compute in H. injection H as <-. vm_compute in S. discriminate.
Qed.
Lemma int_min_ub : outcome_of (consume strtod true p_init [45; 57; 50; 50; 51; 51; 55; 50; 48; 51; 54; 56; 53; 52; 55; 55; 53; 56; 48; 56]) = Undefined.
Proof. vm_compute. reflexivity. Qed.
(* A text that is not JSON but is accepted. *)
Lemma not_json v : ~ jdoc true strtod [45; 46; 53] v.
Proof.
  intros H. remember [45; 46; 53] as t eqn:E. destruct H as [w1 t w2 v W1 T W2 _].
  destruct w1 as [|a w1].
  2: { injection E as -> _. inversion W1 as [|? ? Q _]; subst. lia. }
  cbn [app] in E.
  assert (NI : forall t r, intpart t -> t ++ r <> 46 :: [53]).
  { intros x r [|c y B _] E0; [discriminate|]. injection E0 as -> _. lia. }
  assert (NM : forall t r, intpart t -> t ++ r <> 45 :: 46 :: [53]).
  { intros x r [|c y B _] E0; [discriminate|]. injection E0 as -> _. lia. }
  inversion T as [| | |t0 v0 HN|t0 s HS|w HW|t0 l HI|w HW|t0 l HM]; subst; try discriminate.
  - inversion HN as [t0 I0 _|t0 I0 _|m t0 f e Hm I0 Hf He Hn]; subst.
    + now apply NM in E.
    + cbn [app] in E. injection E as E. now apply NI in E.
    + rewrite <- !app_assoc in E. destruct Hm as [->| ->]; cbn [app] in E; [now apply NM in E|].
      injection E as E. now apply NI in E.
  - inversion HS; subst. discriminate.
Qed.
Lemma accepted_not_json : exists v, assign_parse strtod [45; 46; 53] = PValue v.
Proof. eexists. vm_compute. reflexivity. Qed.

(* Values that are not read back. *)
Definition lost (dshow : Z -> list Z) (m : manip) (j : json) : Prop :=
  ~ exists j', assign_parse strtod (json_unparse dshow m j) = PValue j' /\ same_value j' j.
Lemma lost_nul dshow : lost dshow default_manip (JStr [0]).
Proof. intros (j & H & _). vm_compute in H. discriminate. Qed.
Lemma lost_2028 dshow : lost dshow default_manip (JStr [226; 128; 168]).
Proof. intros (j & H & S). vm_compute in H. injection H as <-. discriminate. Qed.
Lemma lost_min dshow : lost dshow default_manip (JInt (- 2 ^ 63)).
Proof. intros (j & H & _). vm_compute in H. discriminate. Qed.
End P.
