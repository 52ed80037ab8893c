(* Every text that is accepted is one of the grammar of Spec_JsonLax, with the value that grammar gives it. *)
From Verif Require Import Lib M_Msgpack M_JsonText Spec_JsonText Spec_JsonLax P_JsonText1 P_JsonText2 P_JsonText3 P_JsonText4 P_JsonText8 P_JsonText9.

Section P.
Variable strtod : list Z -> Z.
Notation cloop := (cloop strtod true).
Notation cstep := (consume_step strtod true).
Notation con := (consume_on strtod true).

Definition fin (x : cres) : Prop := exists p r, x = CRet p r /\ ps p = JFinal.
Lemma fin_error p s : fin (con (p_error p s)) -> False.
Proof. intros (p' & r & E & H). injection E as <- <-. discriminate. Qed.
Lemma fin_ub : fin (con LUB) -> False.
Proof. intros (p' & r & E & H). discriminate. Qed.
Lemma fin_nil p b q : ps p = JRun b q -> fin (cloop p []) -> False.
Proof. intros E (p' & r & X & H). rewrite cloop_nil in X. injection X as <- <-. congruence. Qed.
Lemma fin_part p b q s : ps p = JRun b q -> q <> PNone -> fin (cloop p s) -> False.
Proof.
  intros E Q (p' & r & X & H). rewrite cloop_stop in X by (intros b' Y; congruence). injection X as <- <-. congruence.
Qed.

(* A parser that waits for a value; F is the parser after it. *)
Inductive cx : parser -> jbase -> (json -> parser) -> Prop :=
| cx_arr b st l : b = BArrInitial \/ b = BArrValue ->
    cx (MkP (JRun b PNone) st (JArr l) []) b (fun v => MkP (JRun BArrDelim PNone) st (JArr (l ++ [v])) [])
| cx_obj st l1 k old l2 :
    cx (MkP (JRun BObjValue PNone) ([FObj l1 k l2] :: st) old []) BObjValue
       (fun v => MkP (JRun BObjDelim PNone) st (JObj (l1 ++ (k, merge old v) :: l2)) [])
| cx_init j : cx (MkP (JRun BInitial PNone) [] j []) BInitial (fun v => MkP JFinal [] v []).
Lemma cx_ps p b F : cx p b F -> ps p = JRun b PNone /\ wants_value b = true.
Proof. intros [b' st l [->| ->]|st l1 k old l2|j]; auto. Qed.
Lemma cx_scalar p b F v r : cx p b F -> is_a v = false -> is_o v = false -> con (on_value b v p r) = cloop (F v) r.
Proof.
  intros H A O. destruct H as [b' st l [->| ->]|st l1 k old l2|j]; unfold on_value; cbn [pfoc pstk]; rewrite A, O; try reflexivity.
  - cbn [orb]. destruct old; reflexivity.
  - cbn [orb]. symmetry. apply cloop_stop. discriminate.
Qed.
Lemma cx_open p b F : cx p b F -> exists st,
    (forall j r, is_a j || is_o j = true -> con (on_value b j p r) = cloop (MkP (JRun (nextb j) PNone) st j []) r)
    /\ (forall s j r, con (on_close (MkP s st j []) r) = cloop (F j) r).
Proof.
  intros H. destruct H as [b' st l Hb|st l1 k old l2|j].
  - exists ([FArr l] :: st). split; [|reflexivity].
    intros j r Hj. unfold on_value. cbn [pfoc pstk]. destruct Hb as [->| ->]; rewrite Hj; reflexivity.
  - exists ((match old with JArr a => [FArr a] | _ => [] end ++ [FObj l1 k l2]) :: st). split.
    + intros j r Hj. unfold on_value. cbn [pfoc pstk]. rewrite Hj. reflexivity.
    + intros s j r. destruct old; reflexivity.
  - exists []. split.
    + intros j' r Hj. unfold on_value. cbn [pfoc pstk]. rewrite Hj. reflexivity.
    + intros s j' r. unfold on_close. cbn [pstk]. cbn [consume_on]. symmetry. apply cloop_stop. discriminate.
Qed.
Lemma slot_add k : forall l l1 x l2, slot k l = (l1, x, l2) -> forall v, l1 ++ (k, merge x v) :: l2 = add l k v.
Proof.
  assert (E : forall a b, bytes_eqb a b = true <-> a = b).
  { induction a; destruct b; simpl; split; try discriminate; auto.
    - intros X. apply andb_prop in X. destruct X as [X Y]. f_equal; [lia|now apply IHa].
    - intros X. injection X as -> ->. apply andb_true_intro. split; [lia|now apply IHa]. }
  induction l as [|[k' y] l IH]; simpl; intros l1 x l2 H v.
  - injection H as <- <- <-. reflexivity.
  - destruct (list_eq_dec Z.eq_dec k k') as [->|N].
    + replace (bytes_eqb k' k') with true in H by (symmetry; now apply E). injection H as <- <- <-. reflexivity.
    + destruct (bytes_eqb k k') eqn:B; [apply E in B; congruence|].
      destruct (slot k l) as [[m1 y1] m2] eqn:S1. injection H as <- <- <-. cbn [app]. f_equal. now apply IH.
Qed.

Lemma ws_split s : exists w r, s = w ++ r /\ ws w /\ match r with [] => True | c :: _ => ~ wsb c end.
Proof.
  induction s as [|c s (w & r & -> & W & H)]; [exists [], []; repeat split; constructor|].
  destruct (is_ws c) eqn:E.
  - exists (c :: w), r. split; [reflexivity|]. split; [|exact H]. constructor; [unfold is_ws in E; lia|exact W].
  - exists [], (c :: w ++ r). split; [reflexivity|]. split; [constructor|]. unfold is_ws, wsb in *. lia.
Qed.
Lemma skip_ws p b s : fin (cloop p s) -> ps p = JRun b PNone ->
  exists w c r, s = w ++ c :: r /\ ws w /\ ~ wsb c /\ cloop p s = con (cstep b p c r) /\ fin (con (cstep b p c r)).
Proof.
  intros H E. destruct (ws_split s) as (w & r & -> & W & N). rewrite (cloop_ws strtod true b p w r E W) in *.
  destruct r as [|c r]; [now apply fin_nil with (b := b) (q := PNone) in H|].
  exists w, c, r. rewrite (cloop_on strtod true b p c r E) in *. auto.
Qed.
Ltac noerr := try (exfalso; match goal with
  | H : fin (con (p_error _ _)) |- _ => exact (fin_error _ _ H)
  end).
Lemma step_value b p c r : fin (con (cstep b p c r)) -> wants_value b = true -> ~ wsb c -> (b = BArrInitial -> c <> 93) ->
  (c = 123 /\ cstep b p c r = on_value b (JObj []) p r) \/ (c = 91 /\ cstep b p c r = on_value b (JArr []) p r)
  \/ (c = 34 /\ cstep b p c r = on_string b (string_loop 0 [] r) p (c :: r))
  \/ ((c = 110 \/ c = 102 \/ c = 116) /\
      cstep b p c r = on_primitive b (primitive (if c =? 110 then 1 else if c =? 102 then 6 else 12) r) p (c :: r))
  \/ ((c =? 45) || within c 48 58 = true /\ cstep b p c r = on_number strtod true b [] (number_scan 0 (c :: r)) p (c :: r)).
Proof.
  intros H W N N2. unfold consume_step in *. cbv zeta in *. rewrite W in *.
  destruct (_ || _ || _ || _) eqn:E1; [unfold wsb in N; lia|].
  destruct (c =? 44) eqn:E2; [destruct b; try discriminate; noerr|].
  destruct (c =? 58) eqn:E3; [destruct b; try discriminate; noerr|].
  destruct (c =? 123) eqn:E4.
  { destruct (true && _); noerr. left. split; [lia|reflexivity]. }
  destruct (c =? 125) eqn:E5; [destruct b; try discriminate; noerr|].
  destruct (c =? 91) eqn:E6.
  { destruct (true && _); noerr. right. left. split; [lia|reflexivity]. }
  destruct (c =? 93) eqn:E7; [destruct b; try discriminate; noerr; specialize (N2 eq_refl); lia|].
  destruct (c =? 34) eqn:E8; [right; right; left; split; [lia|reflexivity]|].
  destruct ((c =? 110) || (c =? 102) || (c =? 116)) eqn:E9; [right; right; right; left; split; [lia|reflexivity]|].
  destruct ((c =? 45) || within c 48 58) eqn:E10; noerr. right. right. right. right. split; reflexivity.
Qed.
Ltac settle := noerr; try solve [left; split; [lia|reflexivity] | right; split; [lia|reflexivity] | split; [lia|reflexivity]
  | left; split; [reflexivity|]; split; [lia|reflexivity]].
Lemma step_close_or p b c r : fin (con (cstep b p c r)) -> ~ wsb c ->
  (b = BArrDelim -> (c = 44 /\ cstep b p c r = LGo (with_state p (JRun BArrValue PNone)) r) \/ (c = 93 /\ cstep b p c r = on_close p r))
  /\ (b = BObjDelim -> (c = 44 /\ cstep b p c r = LGo (with_state p (JRun BObjKey PNone)) r) \/ (c = 125 /\ cstep b p c r = on_close p r))
  /\ (b = BObjColon -> c = 58 /\ cstep b p c r = LGo (with_state p (JRun BObjValue PNone)) r)
  /\ (b = BObjInitial \/ b = BObjKey -> (b = BObjInitial /\ c = 125 /\ cstep b p c r = on_close p r)
      \/ (c = 34 /\ cstep b p c r = on_string BObjColon (string_loop 0 [] r) p (c :: r))).
Proof.
  intros H N. unfold consume_step in *. cbv zeta in *.
  destruct (_ || _ || _ || _) eqn:E1; [unfold wsb in N; lia|].
  split; [|split; [|split]]; [intros ->|intros ->|intros ->|intros [-> | ->]]; cbn [wants_value andb] in *.
  all: destruct (c =? 44) eqn:E2; settle.
  all: destruct (c =? 58) eqn:E3; settle.
  all: destruct (c =? 123) eqn:E4; settle.
  all: destruct (c =? 125) eqn:E5; settle.
  all: destruct (c =? 91) eqn:E6; settle.
  all: destruct (c =? 93) eqn:E7; settle.
  all: destruct (c =? 34) eqn:E8; settle.
  all: destruct ((c =? 110) || (c =? 102) || (c =? 116)); settle.
  all: destruct ((c =? 45) || within c 48 58); settle.
Qed.

Definition V (n : nat) : Prop := forall p b F c s, (length (c :: s) <= n)%nat -> cx p b F -> ~ wsb c -> (b = BArrInitial -> c <> 93) ->
  fin (con (cstep b p c s)) ->
  exists t r v, c :: s = t ++ r /\ (length r <= length s)%nat /\ ltext strtod t v /\ con (cstep b p c s) = cloop (F v) r.
Definition A (n : nat) : Prop := forall s st b l, (length s <= n)%nat -> b = BArrInitial \/ b = BArrValue ->
  fin (cloop (MkP (JRun b PNone) st (JArr l) []) s) ->
  (b = BArrInitial /\ exists w r, s = w ++ 93 :: r /\ ws w
     /\ cloop (MkP (JRun b PNone) st (JArr l) []) s = con (on_close (MkP (JRun b PNone) st (JArr l) []) r)) \/
  (exists t l' r, s = t ++ 93 :: r /\ litems strtod t l'
     /\ cloop (MkP (JRun b PNone) st (JArr l) []) s = con (on_close (MkP (JRun BArrDelim PNone) st (JArr (l ++ l')) []) r)).
Definition madd := fold_left (fun l (kv : list Z * json) => add l (fst kv) (snd kv)).
Definition O (n : nat) : Prop := forall s st b l, (length s <= n)%nat -> b = BObjInitial \/ b = BObjKey ->
  fin (cloop (MkP (JRun b PNone) st (JObj l) []) s) ->
  (b = BObjInitial /\ exists w r, s = w ++ 125 :: r /\ ws w
     /\ cloop (MkP (JRun b PNone) st (JObj l) []) s = con (on_close (MkP (JRun b PNone) st (JObj l) []) r)) \/
  (exists t l' r, s = t ++ 125 :: r /\ lmembers strtod t l'
     /\ cloop (MkP (JRun b PNone) st (JObj l) []) s = con (on_close (MkP (JRun BObjDelim PNone) st (JObj (madd l' l)) []) r)).

Lemma value_inv n : A n -> O n -> V (S n).
Proof.
  intros HA HO p b F c s L C N N2 H. destruct (cx_ps p b F C) as [E W]. cbn [length] in L.
  destruct (step_value b p c s H W N N2) as [[-> X]|[[-> X]|[[-> X]|[[Hc X]|[Hc X]]]]]; rewrite X in *.
  - destruct (cx_open p b F C) as (st & OV & CL). rewrite (OV (JObj []) s eq_refl) in *. unfold nextb in *. cbn [is_a] in *.
    destruct (HO s st BObjInitial [] ltac:(lia) (or_introl eq_refl) H) as [(_ & w & r & -> & Hw & Y)|(t & l' & r & -> & Hm & Y)]; rewrite Y, CL.
    + exists (123 :: w ++ [125]), r, (JObj []). split; [cbn [app]; now rewrite <- app_assoc|]. split; [rewrite app_length; simpl; lia|].
      split; [now apply lt_obj0|reflexivity].
    + exists (123 :: t ++ [125]), r, (JObj (members l')). split; [cbn [app]; now rewrite <- app_assoc|]. split; [rewrite app_length; simpl; lia|].
      split; [now apply lt_obj|reflexivity].
  - destruct (cx_open p b F C) as (st & OV & CL). rewrite (OV (JArr []) s eq_refl) in *. unfold nextb in *. cbn [is_a] in *.
    destruct (HA s st BArrInitial [] ltac:(lia) (or_introl eq_refl) H) as [(_ & w & r & -> & Hw & Y)|(t & l' & r & -> & Hm & Y)]; rewrite Y, CL.
    + exists (91 :: w ++ [93]), r, (JArr []). split; [cbn [app]; now rewrite <- app_assoc|]. split; [rewrite app_length; simpl; lia|].
      split; [now apply lt_arr0|reflexivity].
    + exists (91 :: t ++ [93]), r, (JArr l'). split; [cbn [app]; now rewrite <- app_assoc|]. split; [rewrite app_length; simpl; lia|].
      split; [now apply lt_arr|reflexivity].
  - destruct (string_loop 0 [] s) as [str r| |str part|] eqn:SL; cbn [on_string] in *.
    + apply (string_loop_inv (length s)) in SL; [|lia]. destruct SL as (t & bs & -> & Hl & ->). cbn [app] in *.
      assert (Y : b <> BObjColon) by (intros ->; discriminate).
      assert (Q : match b with BObjColon => on_key bs p r | _ => on_value b (JStr bs) p r end = on_value b (JStr bs) p r) by (destruct b; congruence).
      rewrite Q in *. exists (34 :: t ++ [34]), r, (JStr bs). split; [cbn [app]; now rewrite <- app_assoc|]. split; [rewrite app_length; simpl; lia|].
      split; [apply lt_str; now constructor|]. now apply cx_scalar.
    + now apply fin_error in H.
    + exfalso. rewrite consume_on_go in H. eapply fin_part; [| |exact H]; [reflexivity|discriminate].
    + now apply fin_ub in H.
  - destruct (primitive _ s) as [|m|m r] eqn:PR in *; cbn [on_primitive] in *.
    + now apply fin_error in H.
    + exfalso. rewrite consume_on_go in H. eapply fin_part; [| |exact H]; [reflexivity|discriminate].
    + apply primitive_inv in PR. destruct PR as (P1 & P2 & P3). destruct Hc as [->|[->| ->]].
      * destruct (P1 eq_refl) as [-> ->]. exists [110; 117; 108; 108], r, JNull. split; [reflexivity|]. split; [simpl; lia|].
        split; [constructor|]. now apply cx_scalar.
      * destruct (P2 eq_refl) as [-> ->]. exists [102; 97; 108; 115; 101], r, (JBool false). split; [reflexivity|]. split; [simpl; lia|].
        split; [constructor|]. now apply cx_scalar.
      * destruct (P3 eq_refl) as [-> ->]. exists [116; 114; 117; 101], r, (JBool true). split; [reflexivity|]. split; [simpl; lia|].
        split; [constructor|]. now apply cx_scalar.
  - pose proof (number_first strtod c s Hc) as LN.
    destruct (number_scan 0 (c :: s)) as [pos [t r]] eqn:NS. unfold on_number in *. cbn [app fst snd] in *.
    assert (Q : fin (con (if Z.even pos then p_error p (c :: s) else match number_value strtod pos t with Some j => on_value b j p r | None => LUB end))).
    { destruct r; exact H. }
    assert (Q2 : con (match r with [] | _ => if Z.even pos then p_error p (c :: s)
        else match number_value strtod pos t with Some j => on_value b j p r | None => LUB end end)
      = con (if Z.even pos then p_error p (c :: s) else match number_value strtod pos t with Some j => on_value b j p r | None => LUB end)).
    { destruct r; reflexivity. }
    destruct (Z.even pos) eqn:EV; [now apply fin_error in Q|].
    destruct (number_value strtod pos t) as [v|] eqn:NV; [|now apply fin_ub in Q].
    destruct (number_inv strtod c s pos t r v Hc NS EV NV) as [S1 S2]. exists t, r, v. split; [exact S1|]. split; [exact LN|].
    split; [now apply lt_num|]. destruct (lnumber_scalar strtod t v S2) as [S3 S4].
    transitivity (con (on_value b v p r)); [destruct r; reflexivity|]. now apply cx_scalar.
Qed.
Lemma len_split (w : list Z) c s n : (length (w ++ c :: s) <= n)%nat -> (length (c :: s) <= n)%nat.
Proof. rewrite app_length. simpl. lia. Qed.
Lemma arr_inv n : A n -> V (S n) -> A (S n).
Proof.
  intros HA HV s st b l L Hb H.
  destruct (skip_ws _ b s H eq_refl) as (w & c & r & -> & Hw & N & X & FI). rewrite X.
  assert (CASE : (b = BArrInitial /\ c = 93) \/ (b = BArrInitial -> c <> 93)).
  { destruct (Z.eq_dec c 93); [|tauto]. destruct Hb as [->| ->]; [auto|right; discriminate]. }
  destruct CASE as [[-> ->]|N2].
  { left. split; [reflexivity|]. exists w, r. split; [reflexivity|]. split; [exact Hw|reflexivity]. }
  right. destruct (HV _ b _ c r (len_split _ _ _ _ L) (cx_arr b st l Hb) N N2 FI) as (t & r1 & v & E1 & L1 & T & Y).
  rewrite Y in *. destruct (skip_ws _ BArrDelim r1 FI eq_refl) as (w2 & d & r2 & -> & Hw2 & ND & X2 & FI2).
  rewrite X2. destruct (step_close_or _ _ _ _ FI2 ND) as (K & _). destruct (K eq_refl) as [[-> Z1]|[-> Z1]]; rewrite Z1 in *.
  - rewrite consume_on_go in *. unfold with_state in *. cbn [pstk pfoc pstr] in *.
    destruct (HA r2 st BArrValue (l ++ [v])) as [[Q _]|(t2 & l' & r3 & -> & Hi & Z2)]; auto.
    { rewrite app_length in L1, L. simpl in L1, L. lia. }
    { discriminate. }
    exists (w ++ t ++ w2 ++ 44 :: t2), (v :: l'), r3. split.
    { rewrite E1. rewrite <- !app_assoc. cbn [app]. now rewrite <- ?app_assoc. }
    split; [now apply li_more|]. rewrite Z2. now rewrite <- app_assoc.
  - exists (w ++ t ++ w2), [v], r2. split; [rewrite E1; now rewrite <- !app_assoc|]. split; [now apply li_one|reflexivity].
Qed.
Lemma obj_inv n : O n -> V (S n) -> O (S n).
Proof.
  intros HO HV s st b l L Hb H.
  destruct (skip_ws _ b s H eq_refl) as (w & c & r & -> & Hw & N & X & FI). rewrite X.
  destruct (step_close_or _ _ _ _ FI N) as (_ & _ & _ & K). destruct (K Hb) as [(-> & -> & Z1)|[-> Z1]].
  { left. split; [reflexivity|]. exists w, r. split; [reflexivity|]. split; [exact Hw|now rewrite Z1]. }
  right. clear K. rewrite Z1 in *. destruct (string_loop 0 [] r) as [k r1| |str part|] eqn:SL; cbn [on_string] in *.
  2: now apply fin_error in FI.
  2: { exfalso. rewrite consume_on_go in FI. eapply fin_part; [| |exact FI]; [reflexivity|discriminate]. }
  2: now apply fin_ub in FI.
  apply (string_loop_inv (length r)) in SL; [|lia]. destruct SL as (tk & bs & -> & Hl & ->). cbn [app] in *.
  unfold on_key in *. cbn [pfoc] in *. destruct (slot bs l) as [[l1 old] l2] eqn:SLOT. pose proof (slot_add bs l l1 old l2 SLOT) as AD.
  rewrite consume_on_go in *. cbn [pstk] in *.
  destruct (skip_ws _ BObjColon r1 FI eq_refl) as (w2 & d & r2 & -> & Hw2 & ND & X2 & FI2). rewrite X2.
  destruct (step_close_or _ _ _ _ FI2 ND) as (_ & _ & K & _). destruct (K eq_refl) as [-> Z2]. clear K. rewrite Z2 in *.
  rewrite consume_on_go in *. unfold with_state in *. cbn [pstk pfoc pstr] in *.
  destruct (skip_ws _ BObjValue r2 FI2 eq_refl) as (w3 & e & r3 & -> & Hw3 & NE & X3 & FI3). rewrite X3.
  assert (L3 : (length (e :: r3) <= S n)%nat).
  { rewrite app_length in L. cbn [length] in L |- *. rewrite app_length in L. cbn [length] in L. rewrite app_length in L. cbn [length] in L.
    rewrite app_length in L. cbn [length] in L. lia. }
  destruct (HV _ BObjValue _ e r3 L3 (cx_obj st l1 bs old l2) NE ltac:(discriminate) FI3) as (t & r4 & v & E4 & L4 & T & Y).
  rewrite Y in *. cbv beta in *. rewrite (AD v) in *.
  destruct (skip_ws _ BObjDelim r4 FI3 eq_refl) as (w4 & f & r5 & -> & Hw4 & NF & X5 & FI5). rewrite X5.
  destruct (step_close_or _ _ _ _ FI5 NF) as (_ & K & _). destruct (K eq_refl) as [[-> Z5]|[-> Z5]]; rewrite Z5 in *.
  - rewrite consume_on_go in *. unfold with_state in *. cbn [pstk pfoc pstr] in *.
    destruct (HO r5 st BObjKey (add l bs v)) as [[Q _]|(t2 & l' & r6 & -> & Hi & Z6)]; auto.
    { rewrite app_length in L4. simpl in L3, L4. lia. }
    { discriminate. }
    exists (w ++ (34 :: tk ++ [34]) ++ w2 ++ 58 :: w3 ++ t ++ w4 ++ 44 :: t2), ((bs, v) :: l'), r6. split.
    { rewrite E4. flat. reflexivity. }
    split; [apply lm_more; auto; now constructor|]. rewrite Z6. reflexivity.
  - exists (w ++ (34 :: tk ++ [34]) ++ w2 ++ 58 :: w3 ++ t ++ w4), [(bs, v)], r5.
    split; [rewrite E4; flat; reflexivity|]. split; [apply lm_one; auto; now constructor|reflexivity].
Qed.
Lemma all_inv n : V n /\ A n /\ O n.
Proof.
  induction n as [|n (HV & HA & HO)].
  - split; [intros p b F c s L; simpl in L; lia|]. split; intros s st b l L Hb H; (destruct s; [|simpl in L; lia]);
      exfalso; eapply fin_nil; try exact H; reflexivity.
  - pose proof (value_inv n HA HO) as HV'. split; [exact HV'|]. split; [now apply arr_inv|now apply obj_inv].
Qed.

Theorem accepted_lax t v : assign_parse strtod t = PValue v -> ldoc strtod t v.
Proof.
  intros H. unfold assign_parse, consume in H. cbn [ps p_init] in H.
  change (consume_loop strtod true (length t) p_init t) with (cloop p_init t) in H.
  assert (FI : fin (cloop p_init t)).
  { destruct (cloop p_init t) as [p r| |]; try discriminate. exists p, r. split; [reflexivity|]. destruct (ps p); congruence || reflexivity || (destruct r; discriminate). }
  destruct (skip_ws p_init BInitial t FI eq_refl) as (w & c & r & -> & Hw & N & X & FI2). rewrite X in H.
  destruct (proj1 (all_inv (length (c :: r))) p_init BInitial _ c r (Nat.le_refl _) (cx_init JNull) N ltac:(discriminate) FI2)
    as (t0 & r0 & v0 & E & _ & T & Y).
  rewrite Y in H. rewrite cloop_stop in H by discriminate. cbn [ps] in H. rewrite E.
  destruct r0 as [|d r0].
  - injection H as <-. apply ld_doc; auto. constructor.
  - destruct (is_ws d) eqn:W; [|discriminate]. destruct r0; [|discriminate]. injection H as <-.
    apply ld_doc; auto. constructor; [unfold is_ws in W; lia|constructor].
Qed.
Theorem accepted_stream s v r : outcome_of (consume strtod true p_init s) = Accepted v r ->
  exists w t, s = w ++ t ++ r /\ ws w /\ ltext strtod t v.
Proof.
  intros H. unfold consume in H. cbn [ps p_init] in H.
  change (consume_loop strtod true (length s) p_init s) with (cloop p_init s) in H.
  assert (FI : fin (cloop p_init s)).
  { destruct (cloop p_init s) as [p q| |]; try discriminate. exists p, q. split; [reflexivity|]. simpl in H. destruct (ps p); congruence. }
  destruct (skip_ws p_init BInitial s FI eq_refl) as (w & c & q & -> & Hw & N & X & FI2). rewrite X in H.
  destruct (proj1 (all_inv (length (c :: q))) p_init BInitial _ c q (Nat.le_refl _) (cx_init JNull) N ltac:(discriminate) FI2)
    as (t0 & r0 & v0 & E & _ & T & Y).
  rewrite Y in H. rewrite cloop_stop in H by discriminate. cbn [outcome_of ps] in H. injection H as <- <-.
  exists w, t0. rewrite E. auto.
Qed.
Theorem accepted_pieces pieces v r : (forall s, In s pieces -> ~ badend s) -> outcome_of (feed strtod p_init pieces) = Accepted v r ->
  exists w t, concat pieces = w ++ t ++ r /\ ws w /\ ltext strtod t v.
Proof.
  intros B H. destruct pieces as [|s0 pieces]; [discriminate|].
  destruct (pieces_outcome strtod (s0 :: pieces) ltac:(discriminate) B) as [E|[E _]]; [|congruence].
  apply accepted_stream. congruence.
Qed.
End P.
