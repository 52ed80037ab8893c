(* The parser gives the same on a text in pieces as on the text in one. *)
From Verif Require Import Lib M_Msgpack M_JsonText Spec_JsonText P_JsonText1 P_JsonText2 P_JsonText3 P_JsonText5.

Definition suf (r s : list Z) : Prop := exists a, s = a ++ r.
Lemma suf_refl s : suf s s. Proof. now exists []. Qed.
Lemma suf_cons c r s : suf r s -> suf r (c :: s). Proof. intros [a ->]. now exists (c :: a). Qed.
Lemma suf_badend r s : suf r s -> badend r -> badend s.
Proof. intros [a ->] (b & c & -> & L). exists (a ++ b), c. rewrite app_assoc. auto. Qed.

Lemma string_loop_suf : forall s k acc str r, string_loop k acc s = SDone str r -> suf r s.
Proof.
  induction s as [|c s IH]; intros k acc str r H; [discriminate|]. cbn [string_loop] in H. destruct k.
  - destruct (string_char c s); try discriminate; [apply IH in H; now apply suf_cons|]. injection H as <- <-. apply suf_cons, suf_refl.
  - apply IH in H; now apply suf_cons.
Qed.
Lemma string_part_suf : forall s acc part str r, string_part acc part s = SDone str r -> suf r s.
Proof.
  induction s as [|c s IH]; intros acc part str r H; destruct part; try discriminate.
  - now apply string_loop_suf in H.
  - rewrite string_part_eq in H. cbv zeta in H. destruct (fails _ _ _); [discriminate|].
    destruct (completes _ _); [|apply IH in H; now apply suf_cons].
    destruct (string_loop 0 _ _); try discriminate. apply IH in H; now apply suf_cons.
Qed.
(* ------------------------------------------------------------------ words *)
Lemma primitive_app s2 : forall s1 n,
  match primitive n s1 with
  | PrErr => primitive n (s1 ++ s2) = PrErr
  | PrPart m => primitive n (s1 ++ s2) = primitive m s2
  | PrDone m r => primitive n (s1 ++ s2) = PrDone m (r ++ s2) /\ suf r s1
  end.
Proof.
  induction s1 as [|c r IH]; intros n.
  - cbn [primitive app]. destruct (nth n t_words 0 =? 0) eqn:E; [|reflexivity]. rewrite (primitive_end _ _ E). split; [reflexivity|apply suf_refl].
  - cbn [app primitive]. destruct (nth n t_words 0 =? 0); [split; [reflexivity|apply suf_refl]|].
    destruct (nth n t_words 0 =? c); [|reflexivity]. specialize (IH (S n)). destruct (primitive (S n) r); auto.
    destruct IH. split; [assumption|now apply suf_cons].
Qed.

(* ------------------------------------------------------------------ numbers *)
Definition after (t : list Z) (x : nres) : nres := (fst x, (t ++ fst (snd x), snd (snd x))).
Definition ext1 (f : list Z -> nres) (s1 : list Z) : Prop := forall s2,
  match snd (snd (f s1)) with
  | [] => f (s1 ++ s2) = after (fst (snd (f s1))) (number_scan (fst (f s1)) s2) /\ fst (f s1) <> 0
  | c :: r => f (s1 ++ s2) = (fst (f s1), (fst (snd (f s1)), (c :: r) ++ s2))
  end.
Lemma ext1_take f g c r : (forall s2, f (c :: r ++ s2) = take c (g (r ++ s2))) -> ext1 g r -> ext1 f (c :: r).
Proof.
  intros H G s2. specialize (G s2). pose proof (H []) as H0. rewrite app_nil_r in H0. rewrite H0. cbn [app]. rewrite H.
  unfold take at 1. cbn [fst snd]. destruct (snd (snd (g r))) as [|a x] eqn:E.
  - destruct G as [-> G]. unfold after, take. cbn [fst snd app]. split; [reflexivity|exact G].
  - rewrite G. unfold take. reflexivity.
Qed.
Lemma after_nil x : after [] x = x. Proof. destruct x as [a [b c]]. reflexivity. Qed.
Ltac ext_nil := intros s2; cbn [app]; cbn [fst snd]; split; [rewrite ?after_nil; reflexivity|discriminate].
Lemma ext9 s : ext1 case9 s.
Proof.
  induction s as [|c r IH]; [ext_nil|]. unfold case9. destruct (digit c) eqn:D.
  - apply (ext1_take _ case9); [|exact IH]. intros s2. unfold case9. cbn [digits]. now rewrite D.
  - intros s2. cbn [digits app]. rewrite D. reflexivity.
Qed.
Lemma ext8 s : ext1 case8 s.
Proof.
  destruct s as [|c r]; [ext_nil|]. destruct (digit c) eqn:D.
  - apply (ext1_take _ case9); [|apply ext9]. intros s2. cbn [case8]. now rewrite D.
  - intros s2. cbn [case8 app]. rewrite D. reflexivity.
Qed.
Lemma ext1_eq f g c r : (forall s2, f (c :: r ++ s2) = g (c :: r ++ s2)) -> ext1 g (c :: r) -> ext1 f (c :: r).
Proof.
  intros H G s2. specialize (G s2). pose proof (H []) as H0. rewrite app_nil_r in H0. cbn [app] in *. rewrite H0, H. exact G.
Qed.
Lemma ext6 s : ext1 case6 s.
Proof.
  destruct s as [|c r]; [ext_nil|]. destruct ((c =? 43) || (c =? 45)) eqn:D.
  - apply (ext1_take _ case8); [|apply ext8]. intros s2. cbn [case6]. now rewrite D.
  - apply (ext1_eq _ case8); [|apply ext8]. intros s2. cbn [case6]. now rewrite D.
Qed.
Lemma ext_exp p c r : ext1 (maybe_exponent p) (c :: r).
Proof.
  destruct ((c =? 101) || (c =? 69)) eqn:D.
  - apply (ext1_take _ case6); [|apply ext6]. intros s2. cbn [maybe_exponent]. now rewrite D.
  - intros s2. cbn [maybe_exponent app]. rewrite D. reflexivity.
Qed.
Lemma ext5 s : ext1 case5 s.
Proof.
  induction s as [|c r IH]; [ext_nil|]. unfold case5. destruct (digit c) eqn:D.
  - apply (ext1_take _ case5); [|exact IH]. intros s2. unfold case5. cbn [digits]. now rewrite D.
  - apply (ext1_eq _ (maybe_exponent 5)); [|apply ext_exp]. intros s2. cbn [digits]. now rewrite D.
Qed.
Lemma ext4 s : ext1 case4 s.
Proof.
  destruct s as [|c r]; [ext_nil|]. destruct (digit c) eqn:D.
  - apply (ext1_take _ case5); [|apply ext5]. intros s2. cbn [case4]. now rewrite D.
  - intros s2. cbn [case4 app]. rewrite D. reflexivity.
Qed.
Lemma ext3_ne p c r : ext1 (case3 p) (c :: r).
Proof.
  destruct (c =? 46) eqn:D.
  - apply (ext1_take _ case4); [|apply ext4]. intros s2. cbn [case3]. now rewrite D.
  - apply (ext1_eq _ (maybe_exponent p)); [|apply ext_exp]. intros s2. cbn [case3]. now rewrite D.
Qed.
Lemma ext3 s : ext1 (case3 3) s.
Proof. destruct s as [|c r]; [ext_nil|apply ext3_ne]. Qed.
Lemma ext1' s : ext1 case1 s.
Proof.
  induction s as [|c r IH]; [ext_nil|]. unfold case1. destruct (digit c) eqn:D.
  - apply (ext1_take _ case1); [|exact IH]. intros s2. unfold case1. cbn [digits]. now rewrite D.
  - apply (ext1_eq _ (case3 1)); [|apply ext3_ne]. intros s2. cbn [digits]. now rewrite D.
Qed.
Lemma ext2 s : ext1 case2 s.
Proof.
  destruct s as [|c r]; [ext_nil|]. destruct (c =? 48) eqn:D.
  - apply (ext1_take _ (case3 3)); [|apply ext3]. intros s2. cbn [case2]. now rewrite D.
  - destruct (within c 49 58) eqn:W.
    + apply (ext1_take _ case1); [|apply ext1']. intros s2. cbn [case2]. now rewrite D, W.
    + apply (ext1_eq _ (case3 2)); [|apply ext3_ne]. intros s2. cbn [case2]. now rewrite D, W.
Qed.
Lemma ext0 c r : ext1 case0 (c :: r).
Proof.
  destruct (c =? 45) eqn:D.
  - apply (ext1_take _ case2); [|apply ext2]. intros s2. cbn [case0]. now rewrite D.
  - apply (ext1_eq _ case2); [|apply ext2]. intros s2. cbn [case0]. now rewrite D.
Qed.
Lemma number_ext n s : n <> 0 \/ s <> [] -> ext1 (number_scan n) s.
Proof.
  intros H. unfold number_scan.
  destruct (n =? 0) eqn:E0. { destruct s as [|c r]; [exfalso; destruct H; [lia|congruence]|]. apply ext0. }
  destruct (n =? 1) eqn:E1; [apply ext1'|]. destruct (n =? 2) eqn:E2; [apply ext2|]. destruct (n =? 3) eqn:E3; [apply ext3|].
  destruct (n =? 4) eqn:E4; [apply ext4|]. destruct (n =? 5) eqn:E5; [apply ext5|]. destruct (n =? 6) eqn:E6; [apply ext6|].
  destruct (n =? 8) eqn:E8; [apply ext8|]. destruct (n =? 9) eqn:E9; [apply ext9|].
  intros s2. cbn [fst snd]. destruct s as [|c r]; [|reflexivity]. split; [|lia]. cbn [app]. rewrite after_nil.
  unfold number_scan. now rewrite E0, E1, E2, E3, E4, E5, E6, E8, E9.
Qed.

(* ------------------------------------------------------------------ the parser *)
Section P.
Variable strtod : list Z -> Z.

Definition lapp (x : lres) (s2 : list Z) : lres :=
  match x with LGo p s => LGo p (s ++ s2) | LRet p s => LRet p (s ++ s2) | LUB => LUB end.
Definition inv (p : parser) : Prop :=
  match ps p with
  | JRun _ (PString n) => exists pre tail, pstr p = pre ++ tail /\ n = length tail /\ pend tail
  | JRun _ (PNumber n) => n <> 0
  | _ => True
  end.
Definition err (x : cres) : Prop := match x with CRet p _ => ps p = JError | _ => False end.
Definition run (x : cres) : Prop := match x with CRet p r => (exists b q, ps p = JRun b q) /\ r = [] | _ => False end.
(* a: in pieces, b: in one. *)
Definition R (a b : cres) : Prop := a = b \/ (err b /\ (err a \/ run a)).
Lemma R_refl a : R a a. Proof. now left. Qed.
Lemma R_trans a b c : R a b -> R b c -> R a c.
Proof.
  intros [->|[E1 E2]] H; [exact H|]. destruct H as [<-|[E3 E4]]; right; auto.
Qed.

Inductive Ext (cp : bool) (s1 s2 : list Z) : lres -> lres -> Prop :=
| E_go p r b : ps p = JRun b PNone -> suf r s1 -> Ext cp s1 s2 (LGo p r) (LGo p (r ++ s2))
| E_fin p r : ps p = JFinal -> Ext cp s1 s2 (LRet p r) (LRet p (r ++ s2))
| E_err p r p' r' : ps p = JError -> ps p' = JError -> Ext cp s1 s2 (LRet p r) (LRet p' r')
| E_part p b q y : ps p = JRun b q -> q <> PNone -> inv p -> R (consume strtod cp p s2) (consume_on strtod cp y) -> Ext cp s1 s2 (LGo p []) y
| E_ub : Ext cp s1 s2 LUB LUB
| E_bad y : badend s1 -> Ext cp s1 s2 LUB y.

Section E.
Variable cp : bool.
Variable s2 : list Z.

Lemma ext_value s1 b j p r : suf r s1 -> Ext cp s1 s2 (on_value b j p r) (on_value b j p (r ++ s2)).
Proof.
  intros H. unfold on_value. destruct b; destruct (is_a j || is_o j); try (destruct (pstk p)); try constructor; auto;
    try (eapply E_go; [reflexivity|exact H]).
Qed.
Lemma ext_close s1 p r : suf r s1 -> Ext cp s1 s2 (on_close p r) (on_close p (r ++ s2)).
Proof. intros H. unfold on_close. destruct (pstk p); [now constructor|]. eapply E_go; [reflexivity|exact H]. Qed.
Lemma ext_key s1 k p r : suf r s1 -> Ext cp s1 s2 (on_key k p r) (on_key k p (r ++ s2)).
Proof.
  intros H. unfold on_key. destruct (pfoc p); try apply E_ub. destruct (slot k l) as [[l1 x] l2]. eapply E_go; [reflexivity|exact H].
Qed.
Lemma ext_error s1 p s s' p' : Ext cp s1 s2 (p_error p s) (p_error p' s').
Proof. apply E_err; reflexivity. Qed.

Lemma same_value_parser b j p p' r : pstk p = pstk p' -> pfoc p = pfoc p' -> on_value b j p r = on_value b j p' r.
Proof. intros E1 E2. unfold on_value. now rewrite E1, E2. Qed.
Lemma same_key_parser k p p' r : pstk p = pstk p' -> pfoc p = pfoc p' -> on_key k p r = on_key k p' r.
Proof. intros E1 E2. unfold on_key. now rewrite E1, E2. Qed.

Definition srel (s1 : list Z) (x y : sres) : Prop :=
  match x with
  | SDone str r => y = SDone str (r ++ s2) /\ suf r s1
  | SErr => y = SErr
  | SPart acc' n' => sle (string_part acc' n' s2) y /\ exists pre' tail', acc' = pre' ++ tail' /\ n' = length tail' /\ pend tail'
  | SUB => badend s1
  end.
Lemma ext_string s1 b x y p s s' : srel s1 x y -> Ext cp s1 s2 (on_string b x p s) (on_string b y p s').
Proof.
  intros H. destruct x as [str r| |acc n|]; cbn [srel] in H.
  - destruct H as [-> H]. cbn [on_string]. destruct b; first [apply ext_key | apply ext_value]; exact H.
  - subst y. apply ext_error.
  - destruct H as [L (pre & tl & -> & -> & P)]. cbn [on_string].
    eapply E_part; [reflexivity|discriminate|exists pre, tl; auto|].
    unfold consume. cbn [ps pstr]. destruct L as [<-|[-> (acc' & n' & ->)]].
    + cbn [pstr]. destruct (string_part (pre ++ tl) (length tl) s2) as [str r| |acc' n'|]; cbn [on_string].
      * left. destruct b; reflexivity.
      * right. split; [reflexivity|left; reflexivity].
      * left. reflexivity.
      * left. reflexivity.
    + cbn [on_string]. right. split; [reflexivity|]. right. rewrite consume_on_go.
      rewrite cloop_nil. simpl. eauto.
  - apply E_bad. exact H.
Qed.
Lemma srel_loop s1 s : suf s s1 -> srel s1 (string_loop 0 [] s) (string_loop 0 [] (s ++ s2)).
Proof.
  intros H. pose proof (loop_app s2 s 0 [] (Nat.le_0_l _)) as X. unfold srel.
  pose proof (string_loop_suf s 0 []) as SF.
  destruct (string_loop 0 [] s) as [str r| |acc n|].
  - split; [exact X|]. destruct H as [a ->]. destruct (SF _ _ eq_refl) as [b ->]. exists (a ++ b). now rewrite app_assoc.
  - exact X.
  - destruct X as (pre & tl & -> & -> & P & ->). split; [now apply part_loop|eauto].
  - now apply suf_badend with s.
Qed.
Lemma ext_primitive s1 b n p s t s' : suf t s1 -> Ext cp s1 s2 (on_primitive b (primitive n t) p s) (on_primitive b (primitive n (t ++ s2)) p s').
Proof.
  intros H. pose proof (primitive_app s2 t n) as X. destruct (primitive n t) as [|m|m r]; cbn [on_primitive].
  - rewrite X. apply ext_error.
  - rewrite X. eapply E_part; [reflexivity|discriminate|exact Logic.I|].
    unfold consume. cbn [ps with_state]. destruct (primitive m s2) as [|k|k r]; cbn [on_primitive].
    + right. split; [reflexivity|left; reflexivity].
    + left. reflexivity.
    + left. reflexivity.
  - destruct X as [-> X]. cbn [on_primitive]. apply ext_value. destruct H as [a ->]. destruct X as [c ->]. exists (a ++ c). now rewrite app_assoc.
Qed.
Lemma ext_number s1 b bf n p s t s' : suf t s1 -> n <> 0 \/ t <> [] ->
  Ext cp s1 s2 (on_number strtod false b bf (number_scan n t) p s) (on_number strtod cp b bf (number_scan n (t ++ s2)) p s').
Proof.
  intros H N. pose proof (number_ext n t N s2) as X. pose proof (number_scan_splits n t) as SP.
  destruct (number_scan n t) as [pos [tk r]]. cbn [fst snd] in X, SP. destruct r as [|c r].
  - destruct X as [-> X]. unfold on_number at 1. eapply E_part; [reflexivity|discriminate|exact X|].
    unfold consume. cbn [ps pstr]. unfold after. destruct (number_scan pos s2) as [pos2 [t2 r2]]. cbn [fst snd].
    unfold on_number. rewrite <- app_assoc. destruct r2 as [|d r2]; [destruct cp; [|left; reflexivity]|].
    all: destruct (Z.even pos2); [right; split; [reflexivity|left; reflexivity]|].
    all: left; destruct (number_value strtod pos2 (bf ++ tk ++ t2)); reflexivity.
  - rewrite X. unfold on_number. cbn [app]. destruct (Z.even pos); [apply ext_error|].
    destruct (number_value strtod pos (bf ++ tk)); [|apply E_ub].
    change (c :: r ++ s2) with ((c :: r) ++ s2). apply ext_value.
    destruct H as [a ->]. exists (a ++ tk). rewrite <- SP. now rewrite app_assoc.
Qed.
Lemma ext_step s1 b p c r : suf (c :: r) s1 -> ps p = JRun b PNone ->
  Ext cp s1 s2 (consume_step strtod false b p c r) (consume_step strtod cp b p c (r ++ s2)).
Proof.
  intros H E. assert (HR : suf r s1) by (destruct H as [a ->]; exists (a ++ [c]); now rewrite <- app_assoc).
  unfold consume_step. cbv zeta.
  destruct ((c =? 32) || (c =? 10) || (c =? 13) || (c =? 9)); [eapply E_go; eauto|].
  destruct (c =? 44). { destruct b; try apply ext_error; eapply E_go; try reflexivity; exact HR. }
  destruct (c =? 58). { destruct b; try apply ext_error; eapply E_go; try reflexivity; exact HR. }
  destruct (c =? 123). { destruct (wants_value b && negb (len (pstk p) =? max_depth)); [now apply ext_value|apply ext_error]. }
  destruct (c =? 125). { destruct b; try apply ext_error; now apply ext_close. }
  destruct (c =? 91). { destruct (wants_value b && negb (len (pstk p) =? max_depth)); [now apply ext_value|apply ext_error]. }
  destruct (c =? 93). { destruct b; try apply ext_error; now apply ext_close. }
  destruct (c =? 34).
  { destruct (wants_value b); [apply ext_string; now apply srel_loop|].
    destruct b; try apply ext_error; apply ext_string; now apply srel_loop. }
  destruct ((c =? 110) || (c =? 102) || (c =? 116)).
  { destruct (wants_value b); [|apply ext_error]. now apply ext_primitive. }
  destruct ((c =? 45) || within c 48 58); [|apply ext_error].
  destruct (wants_value b); [|apply ext_error].
  change (c :: r ++ s2) with ((c :: r) ++ s2). apply ext_number; [exact H|right; discriminate].
Qed.

Definition concl (s1 : list Z) (x y : cres) : Prop :=
  badend s1 \/
  match x with
  | CUB => y = CUB
  | CFuel => False
  | CRet p1 r1 =>
    match ps p1 with
    | JFinal => y = CRet p1 (r1 ++ s2)
    | JError => err y
    | JRun _ _ => r1 = [] /\ inv p1 /\ R (consume strtod cp p1 s2) y
    end
  end.
Lemma concl_suf r s x y : suf r s -> concl r x y -> concl s x y.
Proof. intros H [B|C]; [left; now apply suf_badend with r|now right]. Qed.
Lemma ext_loop : forall n s p b, (length s <= n)%nat -> ps p = JRun b PNone ->
  concl s (cloop strtod false p s) (cloop strtod cp p (s ++ s2)).
Proof.
  assert (C : forall s x y n, Ext cp s s2 x y -> lgo_le x n ->
    (forall s p b, (length s <= n)%nat -> ps p = JRun b PNone -> concl s (cloop strtod false p s) (cloop strtod cp p (s ++ s2))) ->
    concl s (consume_on strtod false x) (consume_on strtod cp y)).
  { intros s x y n X L IH. destruct X as [p r b E S|p r E|p r p' r' E E'|p b q y E Q I H| |y B].
    - rewrite !consume_on_go. apply concl_suf with r; [exact S|]. cbn [lgo_le] in L. now apply IH with b.
    - right. cbn [consume_on]. now rewrite E.
    - right. cbn [consume_on]. rewrite E. exact E'.
    - right. rewrite consume_on_go, cloop_nil. rewrite E. auto.
    - right. reflexivity.
    - left. exact B. }
  induction n as [|n IH]; intros s p b L E.
  - destruct s; [|simpl in L; lia]. right. rewrite cloop_nil. rewrite E. cbn [app]. split; [reflexivity|]. split; [unfold inv; now rewrite E|].
    left. unfold consume. now rewrite E.
  - destruct s as [|c r].
    + right. rewrite cloop_nil. rewrite E. cbn [app]. split; [reflexivity|]. split; [unfold inv; now rewrite E|].
      left. unfold consume. now rewrite E.
    + cbn [app]. rewrite !(cloop_on strtod _ b p c) by exact E.
      apply (C (c :: r) _ _ n); [apply ext_step; [apply suf_refl|exact E]| |exact IH].
      apply (lgo_weak strtod) with (n := length r); [cbn [length] in L; apply le_S_n; exact L|apply step_le].
Qed.
Lemma consume_split s1 p : inv p -> concl s1 (consume strtod false p s1) (consume strtod cp p (s1 ++ s2)).
Proof.
  intros I. assert (L : forall s p b, ps p = JRun b PNone -> concl s (cloop strtod false p s) (cloop strtod cp p (s ++ s2))).
  { intros s q b E. now apply ext_loop with (length s) b. }
  assert (C : forall x y, Ext cp s1 s2 x y -> concl s1 (consume_on strtod false x) (consume_on strtod cp y)).
  { intros x y X. destruct X as [p' r b E S|p' r E|p' r p'' r' E E'|p' b q y E Q H0 H| |y B].
    - rewrite !consume_on_go. apply concl_suf with r; [exact S|]. now apply L with b.
    - right. cbn [consume_on]. now rewrite E.
    - right. cbn [consume_on]. rewrite E. exact E'.
    - right. rewrite consume_on_go, cloop_nil. rewrite E. auto.
    - right. reflexivity.
    - left. exact B. }
  unfold consume. unfold inv in I. destruct (ps p) as [| |b [|n|n|n]] eqn:E.
  - right. fold (cloop strtod false p s1). fold (cloop strtod cp p (s1 ++ s2)). rewrite !cloop_stop by (rewrite E; discriminate). rewrite E. reflexivity.
  - right. fold (cloop strtod false p s1). fold (cloop strtod cp p (s1 ++ s2)). rewrite !cloop_stop by (rewrite E; discriminate). rewrite E. exact E.
  - now apply L with b.
  - apply C. destruct I as (pre & tl & -> & -> & P). apply ext_string.
    pose proof (part_app s2 s1 pre tl P) as X. cbv zeta in X. pose proof (string_part_suf s1 (pre ++ tl) (length tl)) as SF. unfold srel.
    destruct (string_part (pre ++ tl) (length tl) s1); auto. split; [exact X|]. now apply SF with str.
  - apply C. apply ext_primitive, suf_refl.
  - apply C. apply ext_number; [apply suf_refl|now left].
Qed.
End E.

(* A text in pieces. *)
Fixpoint inner_bad (pieces : list (list Z)) : Prop :=
  match pieces with
  | [] => False
  | s :: more => match more with [] => False | _ => badend s \/ inner_bad more end
  end.
Theorem feed_whole : forall pieces p, pieces <> [] -> inv p ->
  inner_bad pieces \/ R (feed strtod p pieces) (consume strtod true p (concat pieces)).
Proof.
  induction pieces as [|s more IH]; intros p N I; [congruence|].
  destruct more as [|s' more]; [right; cbn [feed concat]; rewrite app_nil_r; apply R_refl|].
  set (m := s' :: more) in *. assert (Hm : m <> []) by discriminate.
  change (feed strtod p (s :: m)) with (match consume strtod false p s with
    | CRet p' r => match ps p' with JRun _ _ => feed strtod p' m | _ => CRet p' (r ++ concat m) end
    | x => x end).
  change (concat (s :: m)) with (s ++ concat m). change (inner_bad (s :: m)) with (badend s \/ inner_bad m).
  destruct (consume_split true (concat m) s p I) as [B|C]; [tauto|].
  destruct (consume strtod false p s) as [p' r| |]; [|right; rewrite C; apply R_refl|destruct C].
  destruct (ps p') as [| |b q] eqn:E.
  - right. rewrite C. apply R_refl.
  - right. right. split; [exact C|]. left. exact E.
  - destruct C as (-> & I' & C). destruct (IH p' Hm I') as [B|H]; [tauto|]. right. now apply R_trans with (consume strtod true p' (concat m)).
Qed.
End P.
