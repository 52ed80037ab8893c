(* Every text of the grammar is parsed to the value it denotes. *)
From Verif Require Import Lib M_Msgpack M_JsonText Spec_JsonText P_JsonText1 P_JsonText2.

Section P.
Variable strtod : list Z -> Z.
Notation cloop := (cloop strtod true).
Notation cstep := (consume_step strtod true).
Notation con := (consume_on strtod true).

(* A parser that waits for a value; F is the parser after it; m containers are open. *)
Inductive ctx : parser -> jbase -> (json -> parser) -> Z -> Prop :=
| ctx_arr b st l x : b = BArrInitial \/ b = BArrValue ->
    ctx (MkP (JRun b PNone) st (JArr l) x) b (fun v => MkP (JRun BArrDelim PNone) st (JArr (l ++ [v])) []) (len st + 1)
| ctx_obj st l1 k l2 x :
    ctx (MkP (JRun BObjValue PNone) ([FObj l1 k l2] :: st) JNull x) BObjValue
        (fun v => MkP (JRun BObjDelim PNone) st (JObj (l1 ++ (k, v) :: l2)) []) (len st + 1)
| ctx_init j x : ctx (MkP (JRun BInitial PNone) [] j x) BInitial (fun v => MkP JFinal [] v []) 0.
Definition room (p : parser) (m d : Z) : Prop := m + d <= 2048 \/ 2048 < len (pstk p).

Lemma ctx_ps p b F m : ctx p b F m -> ps p = JRun b PNone /\ wants_value b = true.
Proof. intros [b' st l x [->| ->]|st l1 k l2 x|j x]; auto. Qed.
Lemma ctx_scalar p b F m v r : ctx p b F m -> is_a v = false -> is_o v = false -> con (on_value b v p r) = cloop (F v) r.
Proof.
  intros H A O. destruct H as [b' st l x [->| ->]|st l1 k l2 x|j x]; unfold on_value; cbn [pfoc pstk]; rewrite A, O; try reflexivity.
  cbn [orb]. symmetry. apply cloop_stop. discriminate.
Qed.
Definition nextb (j : json) : jbase := if is_a j then BArrInitial else BObjInitial.
Lemma ctx_open p b F m d : ctx p b F m -> room p m d -> 0 < d ->
  len (pstk p) <> 2048 /\ exists st, len st = m
    /\ (2048 < len (pstk p) -> 2048 < len st)
    /\ (forall j r, is_a j || is_o j = true -> con (on_value b j p r) = cloop (MkP (JRun (nextb j) PNone) st j []) r)
    /\ (forall s j r, con (on_close (MkP s st j []) r) = cloop (F j) r).
Proof.
  intros H R D. unfold room in R. destruct H as [b' st l x Hb|st l1 k l2 x|j x]; cbn [pstk] in *.
  - split; [pose proof (len_nonneg st); lia|]. exists ([FArr l] :: st). rewrite len_cons. repeat split; try lia.
    + intros j r Hj. unfold on_value. cbn [pfoc pstk]. destruct Hb as [->| ->]; rewrite Hj; reflexivity.
  - rewrite len_cons in *. split; [pose proof (len_nonneg st); lia|]. exists ([FObj l1 k l2] :: st). rewrite len_cons. repeat split; try lia.
    intros j r Hj. unfold on_value. cbn [pfoc pstk]. rewrite Hj. reflexivity.
  - rewrite len_nil in *. split; [lia|]. exists []. rewrite len_nil. repeat split; try lia.
    + intros j' r Hj. unfold on_value. cbn [pfoc pstk]. rewrite Hj. reflexivity.
    + intros s j' r. unfold on_close. cbn [pstk]. cbn [consume_on]. symmetry. apply cloop_stop. discriminate.
Qed.

Lemma stops_ws w c r : ws w -> c = 44 \/ c = 93 \/ c = 125 -> stops (w ++ c :: r).
Proof.
  intros H Hc. destruct w as [|a w]; simpl.
  - unfold digit, within. lia.
  - inversion H as [|? ? Ha _]; subst. unfold digit, within. lia.
Qed.
Lemma stops_ws_end w : ws w -> stops w.
Proof. intros H. destruct w as [|a w]; simpl; [exact Logic.I|]. inversion H as [|? ? Ha _]; subst. unfold digit, within. lia. Qed.
Lemma stops_delim c r : c = 44 \/ c = 93 \/ c = 125 -> stops (c :: r).
Proof. exact (stops_ws [] c r (Forall_nil _)). Qed.

Lemma step_number b p c r : (c =? 45) || within c 48 58 = true -> wants_value b = true ->
  cstep b p c r = on_number strtod true b [] (number_scan 0 (c :: r)) p (c :: r).
Proof.
  intros H W. assert (R : c = 45 \/ 48 <= c <= 57) by (unfold within in H; lia).
  unfold consume_step. cbv zeta. rewrite H, W.
  repeat match goal with |- context [if ?x then _ else _] => replace x with false by lia end. reflexivity.
Qed.
Lemma cs_nonempty t k : jstring false t k -> exists t0 cs, t = 34 :: t0 ++ [34] /\ jchars false t0 cs /\ k = flat_map utf8 cs.
Proof. intros [t0 cs H]. eauto. Qed.

(* get_insert of a new key. *)
Lemma slot_new k l : ~ In k (map fst l) -> slot k l = (l, JNull, []).
Proof.
  assert (E : forall a b, bytes_eqb a b = true -> a = b).
  { induction a; destruct b; simpl; try discriminate; auto. intros X. apply andb_prop in X. destruct X as [X Y].
    f_equal; [lia|now apply IHa]. }
  induction l as [|[k' v] l IH]; simpl; intros H; [reflexivity|].
  destruct (bytes_eqb k k') eqn:B; [apply E in B; subst; tauto|]. rewrite IH by tauto. reflexivity.
Qed.

Definition PV (t : list Z) (v : json) : Prop := forall p b F m r, ctx p b F m -> room p m (nesting v) -> stops r ->
  exists v', cloop p (t ++ r) = cloop (F v') r /\ same_value v' v.
Definition maxn (l : list json) : Z := fold_right (fun x m => Z.max (nesting x) m) 0 l.
Definition maxo (l : list (list Z * json)) : Z := fold_right (fun kv m => Z.max (nesting (snd kv)) m) 0 l.
Lemma nesting_nonneg_max l : (forall x, In x l -> 0 <= nesting x) -> 0 <= maxn l.
Proof. induction l; simpl; intros; [lia|]. specialize (IHl (fun x Hx => H x (or_intror Hx))). unfold maxn in *. simpl. lia. Qed.
Lemma maxn_nonneg l : 0 <= maxn l. Proof. induction l; simpl; unfold maxn in *; simpl; lia. Qed.
Lemma maxo_nonneg l : 0 <= maxo l. Proof. induction l; simpl; unfold maxo in *; simpl; lia. Qed.
Definition PI (t : list Z) (l : list json) : Prop := forall b st l0 x r, b = BArrInitial \/ b = BArrValue ->
  len st + 1 + maxn l <= 2048 \/ 2048 < len st ->
  exists l', cloop (MkP (JRun b PNone) st (JArr l0) x) (t ++ 93 :: r)
             = cloop (MkP (JRun BArrDelim PNone) st (JArr (l0 ++ l')) []) (93 :: r) /\ map canon l' = map canon l.
Definition canonf (kv : list Z * json) : list Z * json := (fst kv, canon (snd kv)).
Definition PM (t : list Z) (l : list (list Z * json)) : Prop := forall b st l0 x r, b = BObjInitial \/ b = BObjKey ->
  len st + 1 + maxo l <= 2048 \/ 2048 < len st -> NoDup (map fst l0 ++ map fst l) ->
  exists l', cloop (MkP (JRun b PNone) st (JObj l0) x) (t ++ 125 :: r)
             = cloop (MkP (JRun BObjDelim PNone) st (JObj (l0 ++ l')) []) (125 :: r) /\ map canonf l' = map canonf l.

Lemma primitive_end n r : (nth n t_words 0 =? 0) = true -> primitive n r = PrDone n r.
Proof. intros H. destruct r; cbn [primitive]; now rewrite H. Qed.
Lemma pv_word t v : v = JNull /\ t = [110; 117; 108; 108] \/ v = JBool true /\ t = [116; 114; 117; 101]
  \/ v = JBool false /\ t = [102; 97; 108; 115; 101] -> PV t v.
Proof.
  intros H p b F m r C R S1. destruct (ctx_ps _ _ _ _ C) as [E W]. exists v. split; [|reflexivity].
  destruct H as [[-> ->]|[[-> ->]|[-> ->]]]; cbn [app]; rewrite (cloop_on strtod true b p _ _ E);
    (assert (X : forall c s, c = 110 \/ c = 102 \/ c = 116 ->
       cstep b p c s = on_primitive b (primitive (if c =? 110 then 1 else if c =? 102 then 6 else 12) s) p (c :: s));
     [intros c s [->|[->| ->]]; unfold consume_step; rewrite W; reflexivity|]); rewrite X by tauto.
  - rewrite <- (ctx_scalar p b F m JNull r C) by reflexivity.
    change (primitive _ _) with (primitive 4 r). now rewrite primitive_end.
  - rewrite <- (ctx_scalar p b F m (JBool true) r C) by reflexivity.
    change (primitive _ _) with (primitive 15 r). now rewrite primitive_end.
  - rewrite <- (ctx_scalar p b F m (JBool false) r C) by reflexivity.
    change (primitive _ _) with (primitive 10 r). now rewrite primitive_end.
Qed.
Lemma pv_num t v : jnumber false strtod t v -> PV t v.
Proof.
  intros H p b F m r C R S1. destruct (ctx_ps _ _ _ _ C) as [E W].
  destruct (jnumber_scan strtod t v r H S1) as (pos & v' & N1 & N2 & N3 & N4 & N5 & N6).
  destruct (jnumber_head strtod t v H) as (c & t' & -> & Hc).
  exists v'. split; [|exact N4].
  cbn [app] in *. rewrite (cloop_on strtod true b p _ _ E). rewrite step_number by assumption.
  rewrite N1. unfold on_number. rewrite N2. cbn [app]. rewrite N3.
  destruct r; now apply ctx_scalar with (m := m).
Qed.
Lemma pv_str t s : jstring false t s -> PV t (JStr s).
Proof.
  intros H p b F m r C R S1. destruct (ctx_ps _ _ _ _ C) as [E W].
  destruct (cs_nonempty _ _ H) as (t0 & cs & -> & Hc & ->).
  exists (JStr (flat_map utf8 cs)). split; [|reflexivity].
  cbn [app]. rewrite <- app_assoc. rewrite (cloop_on strtod true b p _ _ E).
  assert (X : forall s, cstep b p 34 s = on_string b (string_loop 0 [] s) p (34 :: s)).
  { intros s. unfold consume_step. rewrite W. reflexivity. }
  rewrite X. cbn [app]. rewrite (string_loop_chars t0 cs Hc). cbn [app on_string].
  assert (Y : b <> BObjColon) by (intros ->; discriminate).
  transitivity (con (on_value b (JStr (flat_map utf8 cs)) p r)); [destruct b; congruence|].
  now apply ctx_scalar with (m := m).
Qed.

Lemma step_open_arr b p r : wants_value b = true -> len (pstk p) <> 2048 -> cstep b p 91 r = on_value b (JArr []) p r.
Proof. intros W L. unfold consume_step. rewrite W. unfold max_depth. replace (len (pstk p) =? 2048) with false by lia. reflexivity. Qed.
Lemma step_open_obj b p r : wants_value b = true -> len (pstk p) <> 2048 -> cstep b p 123 r = on_value b (JObj []) p r.
Proof. intros W L. unfold consume_step. rewrite W. unfold max_depth. replace (len (pstk p) =? 2048) with false by lia. reflexivity. Qed.
Lemma step_close_arr b p r : b = BArrInitial \/ b = BArrDelim -> cstep b p 93 r = on_close p r.
Proof. intros [->| ->]; reflexivity. Qed.
Lemma step_close_obj b p r : b = BObjInitial \/ b = BObjDelim -> cstep b p 125 r = on_close p r.
Proof. intros [->| ->]; reflexivity. Qed.
Lemma nesting_arr l : nesting (JArr l) = 1 + maxn l. Proof. reflexivity. Qed.
Lemma nesting_obj l : nesting (JObj l) = 1 + maxo l. Proof. reflexivity. Qed.

Lemma pv_arr0 w : ws w -> PV (91 :: w ++ [93]) (JArr []).
Proof.
  intros Hw p b F m r C R S1. destruct (ctx_ps _ _ _ _ C) as [E W].
  destruct (ctx_open _ _ _ _ _ C R) as (N & st & L1 & L2 & O & K); [reflexivity|].
  exists (JArr []). split; [|reflexivity].
  cbn [app]. rewrite <- app_assoc. rewrite (cloop_on strtod true b p _ _ E), step_open_arr by assumption.
  rewrite O by reflexivity. rewrite cloop_ws with (b := BArrInitial); [|reflexivity|exact Hw].
  cbn [app]. rewrite (cloop_on strtod true BArrInitial) by reflexivity. rewrite step_close_arr by auto. apply K.
Qed.
Lemma pv_obj0 w : ws w -> PV (123 :: w ++ [125]) (JObj []).
Proof.
  intros Hw p b F m r C R S1. destruct (ctx_ps _ _ _ _ C) as [E W].
  destruct (ctx_open _ _ _ _ _ C R) as (N & st & L1 & L2 & O & K); [reflexivity|].
  exists (JObj []). split; [|reflexivity].
  cbn [app]. rewrite <- app_assoc. rewrite (cloop_on strtod true b p _ _ E), step_open_obj by assumption.
  rewrite O by reflexivity. rewrite cloop_ws with (b := BObjInitial); [|reflexivity|exact Hw].
  cbn [app]. rewrite (cloop_on strtod true BObjInitial) by reflexivity. rewrite step_close_obj by auto. apply K.
Qed.
Lemma pv_arr t l : PI t l -> PV (91 :: t ++ [93]) (JArr l).
Proof.
  intros HI p b F m r C R S1. destruct (ctx_ps _ _ _ _ C) as [E W]. rewrite nesting_arr in R.
  pose proof (maxn_nonneg l) as M0.
  destruct (ctx_open _ _ _ _ _ C R) as (N & st & L1 & L2 & O & K); [lia|].
  destruct (HI BArrInitial st [] [] r) as (l' & H1 & H2); [auto|unfold room in R; lia|].
  exists (JArr l'). split.
  2: { unfold same_value. simpl. now rewrite H2. }
  cbn [app]. rewrite <- app_assoc. rewrite (cloop_on strtod true b p _ _ E), step_open_arr by assumption.
  rewrite O by reflexivity. cbn [app]. unfold nextb. cbn [is_a]. rewrite H1. cbn [app].
  rewrite (cloop_on strtod true BArrDelim) by reflexivity. rewrite step_close_arr by auto. apply K.
Qed.
Lemma pv_obj t l : PM t l -> NoDup (map fst l) -> PV (123 :: t ++ [125]) (JObj l).
Proof.
  intros HI D p b F m r C R S1. destruct (ctx_ps _ _ _ _ C) as [E W]. rewrite nesting_obj in R.
  pose proof (maxo_nonneg l) as M0.
  destruct (ctx_open _ _ _ _ _ C R) as (N & st & L1 & L2 & O & K); [lia|].
  destruct (HI BObjInitial st [] [] r) as (l' & H1 & H2); [auto|unfold room in R; lia|exact D|].
  exists (JObj l'). split.
  2: { unfold same_value. simpl. f_equal. exact H2. }
  cbn [app]. rewrite <- app_assoc. rewrite (cloop_on strtod true b p _ _ E), step_open_obj by assumption.
  rewrite O by reflexivity. cbn [app]. unfold nextb. cbn [is_a]. rewrite H1. cbn [app].
  rewrite (cloop_on strtod true BObjDelim) by reflexivity. rewrite step_close_obj by auto. apply K.
Qed.
Lemma maxn_cons v l : maxn (v :: l) = Z.max (nesting v) (maxn l). Proof. reflexivity. Qed.
Lemma maxo_cons k v l : maxo ((k, v) :: l) = Z.max (nesting v) (maxo l). Proof. reflexivity. Qed.
Lemma pi_one w1 t w2 v : ws w1 -> PV t v -> ws w2 -> PI (w1 ++ t ++ w2) [v].
Proof.
  intros W1 HV W2 b st l0 x r Hb R. rewrite maxn_cons in R.
  destruct (HV _ _ _ _ (w2 ++ 93 :: r) (ctx_arr b st l0 x Hb)) as (v' & H1 & H2);
    [unfold room; cbn [pstk]; lia|apply stops_ws; auto|].
  exists [v']. split.
  2: { simpl. f_equal. exact H2. }
  rewrite <- !app_assoc. rewrite cloop_ws with (b := b); [|reflexivity|exact W1].
  rewrite H1. now apply cloop_ws with (b := BArrDelim).
Qed.
Lemma pi_more w1 t w2 v t' l : ws w1 -> PV t v -> ws w2 -> PI t' l -> PI (w1 ++ t ++ w2 ++ 44 :: t') (v :: l).
Proof.
  intros W1 HV W2 HI b st l0 x r Hb R. rewrite maxn_cons in R. pose proof (maxn_nonneg l) as M0.
  destruct (HV _ _ _ _ (w2 ++ 44 :: t' ++ 93 :: r) (ctx_arr b st l0 x Hb)) as (v' & H1 & H2);
    [unfold room; cbn [pstk]; lia|apply stops_ws; auto|].
  destruct (HI BArrValue st (l0 ++ [v']) [] r) as (l' & H3 & H4); [auto|lia|].
  exists (v' :: l'). split.
  2: { simpl. f_equal; [exact H2|exact H4]. }
  rewrite <- !app_assoc. rewrite cloop_ws with (b := b); [|reflexivity|exact W1]. cbn [app].
  rewrite H1. rewrite cloop_ws with (b := BArrDelim); [|reflexivity|exact W2].
  rewrite (cloop_on strtod true BArrDelim) by reflexivity.
  change (con (cstep BArrDelim (MkP (JRun BArrDelim PNone) st (JArr (l0 ++ [v'])) []) 44 (t' ++ 93 :: r)))
    with (cloop (MkP (JRun BArrValue PNone) st (JArr (l0 ++ [v'])) []) (t' ++ 93 :: r)).
  rewrite H3. now rewrite <- app_assoc.
Qed.

(* A key, the colon and the value. *)
Lemma member w1 tk w2 w3 t k v : ws w1 -> jstring false tk k -> ws w2 -> ws w3 -> PV t v -> forall b st l0 x s,
  b = BObjInitial \/ b = BObjKey -> len st + 1 + nesting v <= 2048 \/ 2048 < len st -> ~ In k (map fst l0) -> stops s ->
  exists v', cloop (MkP (JRun b PNone) st (JObj l0) x) (w1 ++ tk ++ w2 ++ 58 :: w3 ++ t ++ s)
    = cloop (MkP (JRun BObjDelim PNone) st (JObj (l0 ++ [(k, v')])) []) s /\ same_value v' v.
Proof.
  intros W1 Hk W2 W3 HV b st l0 x s Hb R Hn Hs.
  destruct (HV _ _ _ _ s (ctx_obj st l0 k [] [])) as (v' & H1 & H2).
  { unfold room. cbn [pstk]. rewrite len_cons. lia. }
  { exact Hs. }
  exists v'. split; [|exact H2].
  rewrite cloop_ws with (b := b); [|reflexivity|exact W1].
  destruct (cs_nonempty _ _ Hk) as (t0 & cs & -> & Hc & ->).
  cbn [app]. rewrite <- app_assoc. rewrite (cloop_on strtod true b) by reflexivity.
  assert (X : forall p s, cstep b p 34 s = on_string BObjColon (string_loop 0 [] s) p (34 :: s)).
  { intros p s0. destruct Hb as [->| ->]; reflexivity. }
  rewrite X. cbn [app]. rewrite (string_loop_chars t0 cs Hc). cbn [app on_string].
  unfold on_key. cbn [pfoc pstk]. rewrite slot_new by assumption. rewrite consume_on_go.
  rewrite cloop_ws with (b := BObjColon); [|reflexivity|exact W2].
  rewrite (cloop_on strtod true BObjColon) by reflexivity.
  match goal with |- con (cstep BObjColon ?p 58 ?r) = _ =>
    change (con (cstep BObjColon p 58 r)) with (cloop (with_state p (JRun BObjValue PNone)) r) end.
  rewrite cloop_ws with (b := BObjValue); [|reflexivity|exact W3].
  exact H1.
Qed.
Lemma pm_one w1 tk w2 w3 t w4 k v : ws w1 -> jstring false tk k -> ws w2 -> ws w3 -> PV t v -> ws w4 ->
  PM (w1 ++ tk ++ w2 ++ 58 :: w3 ++ t ++ w4) [(k, v)].
Proof.
  intros W1 Hk W2 W3 HV W4 b st l0 x r Hb R D. rewrite maxo_cons in R.
  destruct (member w1 tk w2 w3 t k v W1 Hk W2 W3 HV b st l0 x (w4 ++ 125 :: r) Hb) as (v' & H1 & H2).
  - lia.
  - intros Hin. simpl in D. apply NoDup_remove_2 in D. apply D. rewrite app_nil_r. exact Hin.
  - apply stops_ws; auto.
  - exists [(k, v')]. split.
    2: { simpl. f_equal. unfold canonf. simpl. now rewrite H2. }
    rewrite <- !app_assoc. cbn [app]. rewrite <- !app_assoc. rewrite H1. now apply cloop_ws with (b := BObjDelim).
Qed.
Lemma pm_more w1 tk w2 w3 t w4 k v t' l : ws w1 -> jstring false tk k -> ws w2 -> ws w3 -> PV t v -> ws w4 -> PM t' l ->
  PM (w1 ++ tk ++ w2 ++ 58 :: w3 ++ t ++ w4 ++ 44 :: t') ((k, v) :: l).
Proof.
  intros W1 Hk W2 W3 HV W4 HM b st l0 x r Hb R D. rewrite maxo_cons in R. pose proof (maxo_nonneg l) as M0.
  destruct (member w1 tk w2 w3 t k v W1 Hk W2 W3 HV b st l0 x (w4 ++ 44 :: t' ++ 125 :: r) Hb) as (v' & H1 & H2).
  - lia.
  - intros Hin. simpl in D. apply NoDup_remove_2 in D. apply D. apply in_or_app. now left.
  - apply stops_ws; auto.
  - destruct (HM BObjKey st (l0 ++ [(k, v')]) [] r) as (l' & H3 & H4); [auto|lia| |].
    { rewrite map_app. simpl. rewrite <- app_assoc. exact D. }
    exists ((k, v') :: l'). split.
    2: { simpl. f_equal; [|exact H4]. unfold canonf. simpl. now rewrite H2. }
    rewrite <- !app_assoc. cbn [app]. rewrite <- !app_assoc. cbn [app]. rewrite H1.
    rewrite cloop_ws with (b := BObjDelim); [|reflexivity|exact W4].
    rewrite (cloop_on strtod true BObjDelim) by reflexivity.
    match goal with |- con (cstep BObjDelim ?p 44 ?r) = _ =>
      change (con (cstep BObjDelim p 44 r)) with (cloop (with_state p (JRun BObjKey PNone)) r) end.
    unfold with_state. cbn [pstk pfoc pstr]. rewrite H3. now rewrite <- app_assoc.
Qed.

Scheme jtext_mut := Minimality for jtext Sort Prop
  with jitems_mut := Minimality for jitems Sort Prop
  with jmembers_mut := Minimality for jmembers Sort Prop.
Lemma jtext_parsed t v : jtext false strtod t v -> PV t v.
Proof.
  intros H. revert t v H. apply (jtext_mut false strtod PV PI PM).
  - apply pv_word. auto.
  - apply pv_word. auto.
  - apply pv_word. auto.
  - apply pv_num.
  - apply pv_str.
  - apply pv_arr0.
  - intros. now apply pv_arr.
  - apply pv_obj0.
  - intros. now apply pv_obj.
  - intros. now apply pi_one.
  - intros. now apply pi_more.
  - intros. now apply pm_one.
  - intros. now apply pm_more.
Qed.
Lemma jitems_parsed t l : jitems false strtod t l -> PI t l.
Proof.
  intros H. revert t l H. apply (jitems_mut false strtod PV PI PM).
  - apply pv_word. auto.
  - apply pv_word. auto.
  - apply pv_word. auto.
  - apply pv_num.
  - apply pv_str.
  - apply pv_arr0.
  - intros. now apply pv_arr.
  - apply pv_obj0.
  - intros. now apply pv_obj.
  - intros. now apply pi_one.
  - intros. now apply pi_more.
  - intros. now apply pm_one.
  - intros. now apply pm_more.
Qed.

Lemma parse_doc w1 t w2 v : ws w1 -> PV t v -> nesting v <= 2048 -> ws w2 -> (length w2 <= 1)%nat ->
  exists v', assign_parse strtod (w1 ++ t ++ w2) = PValue v' /\ same_value v' v.
Proof.
  intros W1 HV D W2 L. destruct (HV _ _ _ _ w2 (ctx_init JNull [])) as (v' & H1 & H2).
  - left. lia.
  - now apply stops_ws_end.
  - exists v'. split; [|exact H2]. unfold assign_parse, consume. cbn [ps p_init].
    change (consume_loop strtod true (length (w1 ++ t ++ w2)) p_init (w1 ++ t ++ w2)) with (cloop p_init (w1 ++ t ++ w2)).
    rewrite cloop_ws with (b := BInitial); [|reflexivity|exact W1].
    unfold p_init. rewrite H1. rewrite cloop_stop by discriminate. cbn [ps].
    destruct w2 as [|c [|c2 w2]]; [reflexivity| |simpl in L; lia].
    inversion W2 as [|? ? Hc _]; subst.
    replace (is_ws c) with true by (unfold is_ws; lia). reflexivity.
Qed.
Theorem jdoc_parsed t v : jdoc false strtod t v -> nesting v <= 2048 ->
  exists v', assign_parse strtod t = PValue v' /\ same_value v' v.
Proof.
  intros [w1 t0 w2 v0 W1 HT W2 [X|L]] D; [discriminate|]. apply parse_doc; auto. now apply jtext_parsed.
Qed.
End P.
