(* Where the parser's behaviour is undefined; texts nested as deep as one likes. *)
From Verif Require Import Lib M_Msgpack M_JsonText Spec_JsonText P_JsonText1 P_JsonText2 P_JsonText3 P_JsonText4 P_JsonText5 P_JsonText6.

(* ------------------------------------------------------------------ numbers *)
Lemma take_fst c x : fst (take c x) = fst x. Proof. reflexivity. Qed.
Lemma pos9 s : fst (case9 s) = 9.
Proof. induction s as [|c r IH]; [reflexivity|]. unfold case9 in *. cbn [digits]. destruct (digit c); [exact IH|reflexivity]. Qed.
Lemma pos8 s : 4 <= fst (case8 s).
Proof. destruct s as [|c r]; [cbn; lia|]. cbn [case8]. destruct (digit c); [rewrite take_fst, pos9; lia|cbn; lia]. Qed.
Lemma pos6 s : 4 <= fst (case6 s).
Proof. destruct s as [|c r]; [cbn; lia|]. cbn [case6]. destruct ((c =? 43) || (c =? 45)); [rewrite take_fst|]; apply pos8. Qed.
Lemma pos_exp p s : 4 <= fst (maybe_exponent p s) \/ (fst (maybe_exponent p s) = p /\ fst (snd (maybe_exponent p s)) = []).
Proof.
  destruct s as [|c r]; [right; split; reflexivity|]. cbn [maybe_exponent]. destruct ((c =? 101) || (c =? 69)).
  - left. rewrite take_fst. apply pos6.
  - right. split; reflexivity.
Qed.
Lemma pos5 s : 4 <= fst (case5 s).
Proof.
  induction s as [|c r IH]; [cbn; lia|]. unfold case5 in *. cbn [digits]. destruct (digit c); [exact IH|].
  destruct (pos_exp 5 (c :: r)) as [H|[-> _]]; lia.
Qed.
Lemma pos4 s : 4 <= fst (case4 s).
Proof. destruct s as [|c r]; [cbn; lia|]. cbn [case4]. destruct (digit c); [rewrite take_fst; apply pos5|cbn; lia]. Qed.
Lemma pos3 p s : 4 <= fst (case3 p s) \/ (fst (case3 p s) = p /\ fst (snd (case3 p s)) = []).
Proof.
  destruct s as [|c r]; [right; split; reflexivity|]. cbn [case3]. destruct (c =? 46).
  - left. rewrite take_fst. apply pos4.
  - apply pos_exp.
Qed.
Lemma digit_isdig c : digit c = true -> isdig c. Proof. unfold digit, within, isdig. lia. Qed.
Lemma pos1 s : 4 <= fst (case1 s) \/ Forall isdig (fst (snd (case1 s))).
Proof.
  induction s as [|c r IH]; [right; constructor|]. unfold case1 in *. cbn [digits]. destruct (digit c) eqn:D.
  - rewrite take_fst. destruct IH as [IH|IH]; [now left|]. right. cbn [take fst snd]. constructor; [now apply digit_isdig|exact IH].
  - destruct (pos3 1 (c :: r)) as [H|[_ H]]; [now left|]. right. rewrite H. constructor.
Qed.
Lemma pos2 s : 4 <= fst (case2 s) \/ Forall isdig (fst (snd (case2 s))).
Proof.
  destruct s as [|c r]; [right; constructor|]. cbn [case2]. destruct (c =? 48) eqn:D.
  - rewrite take_fst. destruct (pos3 3 r) as [H|[_ H]]; [now left|]. right. cbn [take fst snd]. rewrite H. constructor; [unfold isdig; lia|constructor].
  - destruct (within c 49 58) eqn:W.
    + rewrite take_fst. destruct (pos1 r) as [H|H]; [now left|]. right. cbn [take fst snd]. constructor; [unfold isdig, within in *; lia|exact H].
    + destruct (pos3 2 (c :: r)) as [H|[_ H]]; [now left|]. right. rewrite H. constructor.
Qed.

Lemma int_min_suf r s : suf r s -> int_min r -> int_min s.
Proof. intros [a ->] (b & ds & t & -> & H). exists (a ++ b), ds, t. rewrite <- app_assoc. auto. Qed.
Lemma dv_mod : forall s x y, x mod 2 ^ 64 = y mod 2 ^ 64 ->
  (fold_left (fun x c => (x * 10 + c - 48) mod 2 ^ 64) s x) mod 2 ^ 64 = (fold_left (fun x c => 10 * x + (c - 48)) s y) mod 2 ^ 64.
Proof.
  induction s as [|c s IH]; intros x y H; cbn [fold_left]; [exact H|]. apply IH. rewrite Z.mod_mod by lia.
  replace (x * 10 + c - 48) with (10 * x + (c - 48)) by lia.
  rewrite (Z.add_mod (10 * x)), (Z.mul_mod 10 x), H, <- Z.mul_mod, <- Z.add_mod by lia. reflexivity.
Qed.
Lemma dv_range s : s <> [] -> 0 <= digits_value s < 2 ^ 64.
Proof.
  intros N. unfold digits_value. destruct s as [|c s]; [congruence|]. cbn [fold_left].
  assert (G : forall s x, 0 <= x < 2 ^ 64 -> 0 <= fold_left (fun x c => (x * 10 + c - 48) mod 2 ^ 64) s x < 2 ^ 64).
  { induction s0 as [|d s0 IH]; intros x H; cbn [fold_left]; [exact H|]. apply IH. apply Z.mod_pos_bound. lia. }
  apply G. apply Z.mod_pos_bound. lia.
Qed.

Section P.
Variable strtod : list Z -> Z.
Lemma value_none pos t : number_value strtod pos t = None -> pos < 4 /\ exists ds, t = 45 :: ds /\ digits_value ds = 2 ^ 63.
Proof.
  unfold number_value. destruct t as [|c [|d r]]; try discriminate.
  destruct (pos <? 4) eqn:P; [|discriminate]. destruct (c =? 45) eqn:C; [|discriminate].
  assert (c = 45) by lia. subst c. pose proof (dv_range (d :: r) ltac:(discriminate)) as RG.
  cbv zeta. unfold to_signed. destruct (_ =? - 2 ^ 63) eqn:E; [|discriminate]. intros _. split; [lia|].
  exists (d :: r). split; [reflexivity|].
  rewrite Z.mod_small in E by exact RG. destruct (digits_value (d :: r) <? 2 ^ (64 - 1)) eqn:Q in E; change (2 ^ (64 - 1)) with (2 ^ 63) in *; lia.
Qed.
Lemma number_ub c r pos tk rest : number_scan 0 (c :: r) = (pos, (tk, rest)) -> number_value strtod pos tk = None -> int_min (c :: r).
Proof.
  intros H V. apply value_none in V. destruct V as (P & ds & -> & V).
  pose proof (number_scan_splits 0 (c :: r)) as SP. rewrite H in SP. cbn [fst snd] in SP.
  exists [], ds, rest. cbn [app] in *. split; [now symmetry|].
  assert (c = 45) by congruence. subst c. unfold number_scan, case0 in H. cbn [Z.eqb Pos.eqb] in H.
  destruct (pos2 r) as [Q|Q]; unfold take in H; injection H as H1 H2 H3.
  - lia.
  - rewrite H2 in Q. split; [exact Q|]. unfold digits_value in V. unfold decimal.
    rewrite <- (dv_mod ds 0 0 eq_refl). rewrite V. reflexivity.
Qed.

(* ------------------------------------------------------------------ the shape of a parser *)
Definition shape (b : jbase) (p : parser) : Prop :=
  Forall (fun fs => fs <> []) (pstk p) /\
  match b with
  | BInitial => pstk p = []
  | BArrInitial | BArrValue | BArrDelim => exists l, pfoc p = JArr l
  | BObjInitial | BObjKey | BObjDelim => exists l, pfoc p = JObj l
  | BObjValue | BObjColon => exists l1 k l2 st, pstk p = [FObj l1 k l2] :: st
  end.
Definition lgood (s : list Z) (x : lres) : Prop :=
  match x with
  | LGo p r => suf r s /\ forall b, ps p = JRun b PNone -> shape b p
  | LRet p r => ps p = JFinal \/ ps p = JError
  | LUB => badend s \/ int_min s
  end.
Lemma good_value s b j p r : suf r s -> shape b p -> wants_value b = true -> lgood s (on_value b j p r).
Proof.
  intros HS [F S] W. unfold on_value.
  destruct b; try discriminate.
  - destruct (is_a j || is_o j) eqn:E; [|now left]. split; [exact HS|]. cbn [ps]. intros b H. injection H as <-.
    split; [exact F|]. cbn [pfoc]. destruct j; try discriminate; cbn [is_a]; eauto.
  - destruct S as [l S]. rewrite S. destruct (is_a j || is_o j) eqn:E; (split; [exact HS|]); cbn [ps]; intros b H; injection H as <-.
    + split; [constructor; [discriminate|exact F]|]. cbn [pfoc]. destruct j; try discriminate; cbn [is_a]; eauto.
    + split; [exact F|]. cbn. eauto.
  - destruct S as [l S]. rewrite S. destruct (is_a j || is_o j) eqn:E; (split; [exact HS|]); cbn [ps]; intros b H; injection H as <-.
    + split; [constructor; [discriminate|exact F]|]. cbn [pfoc]. destruct j; try discriminate; cbn [is_a]; eauto.
    + split; [exact F|]. cbn. eauto.
  - destruct S as (l1 & k & l2 & st & S). rewrite S in F |- *. inversion F as [|? ? F1 F2]; subst.
    destruct (is_a j || is_o j) eqn:E; (split; [exact HS|]); cbn [ps]; intros b H; injection H as <-.
    + split; [constructor; [|exact F2]|].
      * destruct (match pfoc p with JArr _ => _ | _ => _ end); discriminate.
      * cbn [pfoc]. destruct j; try discriminate; cbn [is_a]; eauto.
    + split; [exact F2|]. cbn [pfoc]. destruct (pfoc p); cbn; eauto.
Qed.
Lemma plug_shape : forall fs x, fs <> [] -> (exists l, plug fs x = JArr l) \/ (exists l, plug fs x = JObj l).
Proof.
  intros fs x N. destruct (exists_last N) as (fs' & f & ->). unfold plug. rewrite fold_left_app. cbn [fold_left].
  destruct f; cbn [plug1]; eauto.
Qed.
Lemma good_close s b p r : suf r s -> shape b p -> lgood s (on_close p r).
Proof.
  intros HS [F _]. unfold on_close. destruct (pstk p) as [|fs st] eqn:E; [now left|].
  inversion F as [|? ? F1 F2]; subst. split; [exact HS|]. cbn [ps]. intros b' H. injection H as <-.
  split; [exact F2|]. cbn [pfoc]. destruct (plug_shape fs (pfoc p) F1) as [[l ->]|[l ->]]; cbn [is_a]; eauto.
Qed.
Lemma good_key s b k p r : suf r s -> shape b p -> b = BObjInitial \/ b = BObjKey -> lgood s (on_key k p r).
Proof.
  intros HS [F S] B. assert (X : exists l, pfoc p = JObj l) by (destruct B as [->| ->]; exact S).
  destruct X as [l X]. unfold on_key. rewrite X. destruct (slot k l) as [[l1 x] l2]. split; [exact HS|]. cbn [ps].
  intros b' H. injection H as <-. split; [constructor; [discriminate|exact F]|]. cbn [pstk]. eauto 6.
Qed.
Lemma good_step cp b p c r : ps p = JRun b PNone -> shape b p -> lgood (c :: r) (consume_step strtod cp b p c r).
Proof.
  intros E S. assert (HR : suf r (c :: r)) by (apply suf_cons, suf_refl).
  assert (ST : forall b1, (b1 = b /\ wants_value b = true) \/ (b1 = BObjColon /\ (b = BObjInitial \/ b = BObjKey)) ->
     lgood (c :: r) (on_string b1 (string_loop 0 [] r) p (c :: r))).
  { intros b1 B. pose proof (loop_app [] r 0 [] (Nat.le_0_l _)) as X. pose proof (string_loop_suf r 0 []) as SF.
    destruct (string_loop 0 [] r) as [str t| |acc n|]; cbn [on_string].
    - specialize (SF _ _ eq_refl). apply (suf_cons c) in SF. destruct B as [[-> B]|[-> B]].
      + destruct b; try discriminate; now apply good_value.
      + now apply good_key with b.
    - now right.
    - split; [exists (c :: r); now rewrite app_nil_r|]. cbn [ps]. intros b' H. discriminate.
    - left. now apply badend_cons. }
  unfold consume_step. cbv zeta.
  destruct ((c =? 32) || (c =? 10) || (c =? 13) || (c =? 9)).
  { split; [exact HR|]. intros b' H. rewrite E in H. injection H as <-. exact S. }
  assert (ER : forall q s, lgood (c :: r) (p_error q s)) by (intros; now right).
  destruct (c =? 44).
  { destruct b; try apply ER; (split; [exact HR|]); cbn [ps with_state]; intros b' H; injection H as <-; exact S. }
  destruct (c =? 58).
  { destruct b; try apply ER; (split; [exact HR|]); cbn [ps with_state]; intros b' H; injection H as <-; exact S. }
  destruct (c =? 123). { destruct (wants_value b) eqn:W; cbn [andb]; [|apply ER]. destruct (negb _); [now apply good_value|apply ER]. }
  destruct (c =? 125). { destruct b; try apply ER; eapply good_close; eauto. }
  destruct (c =? 91). { destruct (wants_value b) eqn:W; cbn [andb]; [|apply ER]. destruct (negb _); [now apply good_value|apply ER]. }
  destruct (c =? 93). { destruct b; try apply ER; eapply good_close; eauto. }
  destruct (c =? 34).
  { destruct (wants_value b) eqn:W; [apply ST; auto|]. destruct b; try apply ER; apply ST; auto. }
  destruct ((c =? 110) || (c =? 102) || (c =? 116)).
  { destruct (wants_value b) eqn:W; [|apply ER]. pose proof (primitive_app [] r (if c =? 110 then 1 else if c =? 102 then 6 else 12)) as X.
    destruct (primitive _ r) as [|m|m t]; cbn [on_primitive]; [apply ER| |].
    - split; [exists (c :: r); now rewrite app_nil_r|]. cbn [ps with_state]. intros b' H. discriminate.
    - destruct X as [_ X]. apply good_value; auto. now apply suf_cons. }
  destruct ((c =? 45) || within c 48 58); [|apply ER]. destruct (wants_value b) eqn:W; [|apply ER].
  pose proof (number_scan_splits 0 (c :: r)) as SP. destruct (number_scan 0 (c :: r)) as [pos [tk t]] eqn:N. cbn [fst snd] in SP.
  assert (Ht : suf t (c :: r)) by (exists tk; now symmetry).
  assert (V : lgood (c :: r) (if Z.even pos then p_error p (c :: r) else match number_value strtod pos tk with Some j => on_value b j p t | None => LUB end)).
  { destruct (Z.even pos); [apply ER|]. destruct (number_value strtod pos tk) eqn:V; [now apply good_value|]. right. now apply number_ub with pos tk t. }
  unfold on_number. cbn [app]. destruct t; [destruct cp; [exact V|]|exact V].
  split; [exact Ht|]. cbn [ps]. intros b' H. discriminate.
Qed.
Theorem loop_ub cp : forall n s p b, (length s <= n)%nat -> ps p = JRun b PNone -> shape b p -> cloop strtod cp p s = CUB -> badend s \/ int_min s.
Proof.
  induction n as [|n IH]; intros s p b L E S H; (destruct s as [|c r]; [rewrite cloop_nil in H; discriminate|]); [simpl in L; lia|].
  rewrite (cloop_on strtod cp b p c r E) in H. pose proof (good_step cp b p c r E S) as G. pose proof (step_le strtod cp b p c r) as LE.
  destruct (consume_step strtod cp b p c r) as [p' r'|p' r'|]; cbn [consume_on lgood lgo_le] in *; [|discriminate|exact G].
  destruct G as [G1 G2]. fold (cloop strtod cp p' r') in H. destruct (ps p') as [| |b' q] eqn:E'.
  - rewrite cloop_stop in H by (rewrite E'; discriminate). discriminate.
  - rewrite cloop_stop in H by (rewrite E'; discriminate). discriminate.
  - destruct q; try (rewrite cloop_stop in H by (rewrite E'; discriminate); discriminate).
    destruct (IH r' p' b') as [B|B]; auto; [simpl in L; lia|left; now apply suf_badend with r'|right; now apply int_min_suf with r'].
Qed.
Theorem consume_ub cp s : consume strtod cp p_init s = CUB -> badend s \/ int_min s.
Proof. apply (loop_ub cp (length s) s p_init BInitial); auto. split; [constructor|reflexivity]. Qed.
Lemma inner_bad_in : forall pieces, inner_bad pieces -> exists s, In s pieces /\ badend s.
Proof. induction pieces as [|s [|s' m] IH]; cbn [inner_bad]; [tauto|tauto|]. intros [B|B]; [exists s; split; [now left|exact B]|]. destruct (IH B) as (x & H1 & H2). exists x. split; [now right|exact H2]. Qed.
Theorem feed_defined pieces : (forall s, In s pieces -> ~ badend s) -> ~ int_min (concat pieces) ->
  exists p r, feed strtod p_init pieces = CRet p r.
Proof.
  intros H1 H2. destruct pieces as [|s0 m0]; [cbn; eauto|]. set (pieces := s0 :: m0) in *.
  destruct (feed_whole strtod pieces p_init) as [B|RR]; [discriminate|exact Logic.I| |].
  - apply inner_bad_in in B. destruct B as (s & I & B). now destruct (H1 s I).
  - destruct (feed strtod p_init pieces) as [p r| |] eqn:F; [eauto|..].
    + exfalso. destruct RR as [E|[_ [[]|[]]]]. symmetry in E. apply consume_ub in E. destruct E as [(a & c & E & L)|E]; [|now apply H2].
      clear F. assert (G : forall ps : list (list Z), concat ps = a ++ [c] -> exists s, In s ps /\ badend s).
      { clear - L. induction ps as [|s ps IH] using rev_ind; intros E; [destruct a; discriminate|].
        rewrite concat_app in E. cbn [concat] in E. rewrite app_nil_r in E.
        destruct s as [|x s] using rev_ind.
        - rewrite app_nil_r in E. destruct (IH E) as (s & I & B). exists s. split; [apply in_or_app; now left|exact B].
        - rewrite app_assoc in E. apply app_inj_tail in E. destruct E as [_ ->]. exists (s ++ [c]). split; [apply in_or_app; right; now left|]. exists s, c. auto. }
      destruct (G pieces E) as (s & I & B). now destruct (H1 s I).
    + exfalso. destruct RR as [E|[_ [[]|[]]]]. symmetry in E. now apply consume_no_fuel in E.
Qed.

(* ------------------------------------------------------------------ depth *)
Fixpoint nest (n : nat) : json := match n with O => JArr [] | S n' => JArr [nest n'] end.
Fixpoint nest_text (n : nat) : list Z := match n with O => [91; 93] | S n' => 91 :: nest_text n' ++ [93] end.
Lemma nest_jtext n : jtext false strtod (nest_text n) (nest n).
Proof.
  induction n; cbn [nest nest_text]; [apply (jt_arr0 false strtod []); constructor|]. apply jt_arr.
  rewrite <- (app_nil_r (nest_text n)). apply (ji_one false strtod []); auto; constructor.
Qed.
Lemma nesting_nest n : nesting (nest n) = Z.of_nat n + 1.
Proof. induction n; [reflexivity|]. cbn [nest nesting fold_right]. lia. Qed.
Lemma open_many : forall m k s, (k + m <= 2048)%nat ->
  cloop strtod true (MkP (JRun BArrInitial PNone) (repeat [FArr []] k) (JArr []) []) (repeat 91 m ++ s)
  = cloop strtod true (MkP (JRun BArrInitial PNone) (repeat [FArr []] (m + k)) (JArr []) []) s.
Proof.
  induction m as [|m IH]; intros k s L; [reflexivity|]. cbn [repeat app].
  rewrite (cloop_go strtod true BArrInitial _ 91 (repeat 91 m ++ s) (MkP (JRun BArrInitial PNone) (repeat [FArr []] (S k)) (JArr []) []) (repeat 91 m ++ s)).
  - rewrite IH by lia. now rewrite Nat.add_succ_r.
  - reflexivity.
  - rewrite step_open_arr; [reflexivity|reflexivity|]. cbn [pstk]. unfold len. rewrite repeat_length. lia.
Qed.
Fixpoint wrap (n : nat) (j : json) : json := match n with O => j | S n' => wrap n' (JArr [j]) end.
Lemma nesting_wrap n : forall j, nesting (wrap n j) = Z.of_nat n + nesting j.
Proof.
  induction n as [|n IH]; intros j; [reflexivity|]. cbn [wrap]. rewrite IH. cbn [nesting fold_right].
  assert (0 <= nesting j). { destruct j; try (cbn; lia).
    - change (0 <= 1 + maxn l). pose proof (maxn_nonneg l). lia.
    - change (0 <= 1 + maxo l). pose proof (maxo_nonneg l). lia. }
  lia.
Qed.
Lemma close_many : forall k l x, cloop strtod true (MkP (JRun BArrDelim PNone) (repeat [FArr []] k) (JArr l) x) (repeat 93 (S k))
  = CRet (MkP JFinal [] (wrap k (JArr l)) x) [].
Proof.
  induction k as [|k IH]; intros l x.
  - cbn [repeat wrap]. rewrite (cloop_ret strtod true BArrDelim _ 93 [] (MkP JFinal [] (JArr l) x) []); reflexivity.
  - cbn [repeat wrap]. rewrite (cloop_go strtod true BArrDelim _ 93 (93 :: repeat 93 k) (MkP (JRun BArrDelim PNone) (repeat [FArr []] k) (JArr [JArr l]) x) (93 :: repeat 93 k)); [|reflexivity|reflexivity].
    apply (IH [JArr l] x).
Qed.
Definition deep_text (m n : nat) : list Z := repeat 91 m ++ [123; 34; 97; 34; 58] ++ nest_text n ++ 125 :: repeat 93 m.
Lemma deep_parsed0 m n : Z.of_nat m = 2047 ->
  exists v, assign_parse strtod (deep_text (S m) n) = PValue v /\ nesting v = 2050 + Z.of_nat n.
Proof.
  intros Hm. unfold deep_text. set (st := repeat [FArr []] m).
  assert (Ls : len st = 2047) by (unfold st, len; now rewrite repeat_length).
  set (s5 := nest_text n ++ 125 :: repeat 93 (S m)).
  assert (A : consume strtod true p_init (repeat 91 (S m) ++ [123; 34; 97; 34; 58] ++ s5)
    = cloop strtod true (MkP (JRun BObjValue PNone) ([FObj [] [97] []] :: [FArr []] :: st) JNull []) s5).
  { unfold consume. cbn [ps p_init]. fold (cloop strtod true p_init (repeat 91 (S m) ++ [123; 34; 97; 34; 58] ++ s5)).
    cbn [repeat app].
    rewrite (cloop_go strtod true BInitial p_init 91 _ (MkP (JRun BArrInitial PNone) (repeat [FArr []] 0) (JArr []) []) (repeat 91 m ++ [123; 34; 97; 34; 58] ++ s5)); [|reflexivity|reflexivity].
    rewrite open_many by lia. rewrite Nat.add_0_r. fold st. cbn [app].
    rewrite (cloop_go strtod true BArrInitial _ 123 _ (MkP (JRun BObjInitial PNone) ([FArr []] :: st) (JObj []) []) (34 :: 97 :: 34 :: 58 :: s5)); [|reflexivity|].
    2: { rewrite step_open_obj; [reflexivity|reflexivity|]. cbn [pstk]. rewrite Ls. discriminate. }
    rewrite (cloop_go strtod true BObjInitial _ 34 _ (MkP (JRun BObjColon PNone) ([FObj [] [97] []] :: [FArr []] :: st) JNull []) (58 :: s5)); [|reflexivity|reflexivity].
    rewrite (cloop_go strtod true BObjColon _ 58 _ (MkP (JRun BObjValue PNone) ([FObj [] [97] []] :: [FArr []] :: st) JNull []) s5); reflexivity. }
  unfold assign_parse. rewrite A. unfold s5.
  destruct (jtext_parsed strtod (nest_text n) (nest n) (nest_jtext n) _ _ _ _ (125 :: repeat 93 (S m)) (ctx_obj ([FArr []] :: st) [] [97] [] [])) as (v' & H1 & H2).
  - right. cbn [pstk]. unfold len in *. cbn [length]. lia.
  - apply (stops_delim strtod). right. right. reflexivity.
  - rewrite H1. cbn [app].
    rewrite (cloop_go strtod true BObjDelim _ 125 _ (MkP (JRun BArrDelim PNone) st (JArr [JObj [([97], v')]]) []) (repeat 93 (S m))); [|reflexivity|reflexivity].
    unfold st. rewrite (close_many m [JObj [([97], v')]] []). cbn [ps]. eexists. split; [reflexivity|].
    unfold result. cbn [pstk pfoc fold_left]. rewrite nesting_wrap.
    assert (N : nesting v' = Z.of_nat n + 1). { rewrite <- nesting_canon, H2, nesting_canon. apply nesting_nest. }
    cbn [nesting fold_right snd]. rewrite N, Hm. lia.
Qed.
Theorem deep_parsed n : exists t v, assign_parse strtod t = PValue v /\ n < nesting v.
Proof.
  destruct (deep_parsed0 (Z.to_nat 2047) (Z.to_nat n)) as (v & H1 & H2); [rewrite Z2Nat.id; lia|].
  eexists. exists v. split; [exact H1|]. rewrite H2. lia.
Qed.
End P.
