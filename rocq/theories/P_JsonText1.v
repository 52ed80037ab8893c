(* The parser's loop: every turn takes at least one byte; the fuel is enough; runs of turns compose. *)
From Verif Require Import Lib M_Msgpack M_JsonText.

Section P.
Variable strtod : list Z -> Z.

Lemma string_loop_len : forall s k acc str r, string_loop k acc s = SDone str r -> (length r < length s)%nat.
Proof.
  induction s as [|c s IH]; simpl; intros k acc str r H; [discriminate|].
  destruct k.
  - destruct (string_char c s) eqn:E; try discriminate.
    + apply IH in H. lia.
    + injection H as <- <-. lia.
  - apply IH in H. lia.
Qed.
Lemma string_part_len : forall s acc part str r, string_part acc part s = SDone str r -> (length r < length s)%nat.
Proof.
  induction s as [|c s IH]; intros acc part str r H; destruct part; try (simpl in H; discriminate).
  - cbn [string_part] in H. now apply string_loop_len in H.
  - cbn [string_part] in H.
    destruct (_ || _) in H; [discriminate|].
    destruct (_ || _) in H.
    + destruct (string_loop _ _ _) in H; try discriminate. apply IH in H. simpl. lia.
    + apply IH in H. simpl. lia.
Qed.
Lemma primitive_len : forall s n m r, primitive n s = PrDone m r -> (length r <= length s)%nat.
Proof.
  induction s as [|c s IH]; cbn [primitive]; intros n m r H; destruct (nth n t_words 0 =? 0);
    try (injection H as <- <-; lia); try discriminate.
  destruct (nth n t_words 0 =? c); [|discriminate]. apply IH in H. simpl. lia.
Qed.

(* What a number takes, followed by what is left, is the input. *)
Definition splits (f : list Z -> nres) : Prop := forall s, fst (snd (f s)) ++ snd (snd (f s)) = s.
Lemma take_app c x : fst (snd (take c x)) ++ snd (snd (take c x)) = c :: (fst (snd x) ++ snd (snd x)).
Proof. reflexivity. Qed.
Lemma digits_splits k : splits k -> splits (digits k).
Proof.
  intros H s. induction s as [|c s IH]; simpl; [apply H|].
  destruct (digit c); [|apply H]. rewrite take_app. now rewrite IH.
Qed.
Ltac sp := repeat match goal with
  | |- _ => reflexivity
  | |- context [match ?s with [] => _ | _ :: _ => _ end] => destruct s
  | |- context [if ?b then _ else _] => destruct b
  | |- _ => rewrite take_app
  | |- _ :: _ = _ :: _ => f_equal
  end.
Lemma case9_splits : splits case9. Proof. apply digits_splits. intros s. reflexivity. Qed.
Lemma case8_splits : splits case8. Proof. intros s. unfold case8. sp. apply case9_splits. Qed.
Lemma case6_splits : splits case6. Proof. intros s. unfold case6. sp; apply case8_splits. Qed.
Lemma maybe_exponent_splits p : splits (maybe_exponent p). Proof. intros s. unfold maybe_exponent. sp; apply case6_splits. Qed.
Lemma case5_splits : splits case5. Proof. apply digits_splits, maybe_exponent_splits. Qed.
Lemma case4_splits : splits case4. Proof. intros s. unfold case4. sp; apply case5_splits. Qed.
Lemma case3_splits p : splits (case3 p). Proof. intros s. unfold case3. sp; first [apply case4_splits | apply maybe_exponent_splits]. Qed.
Lemma case1_splits : splits case1. Proof. apply digits_splits, case3_splits. Qed.
Lemma case2_splits : splits case2. Proof. intros s. unfold case2. sp; first [apply case3_splits | apply case1_splits]. Qed.
Lemma case0_splits : splits case0. Proof. intros s. unfold case0. sp; apply case2_splits. Qed.
Lemma number_scan_splits p : splits (number_scan p).
Proof.
  intros s. unfold number_scan.
  repeat (match goal with |- context [if ?b then _ else _] => destruct b end;
    [first [apply case0_splits | apply case1_splits | apply case2_splits | apply case3_splits | apply case4_splits
       | apply case5_splits | apply case6_splits | apply case8_splits | apply case9_splits]|]).
  reflexivity.
Qed.
Lemma number_scan_len p s : (length (snd (snd (number_scan p s))) <= length s)%nat.
Proof. rewrite <- (number_scan_splits p s) at 2. rewrite app_length. lia. Qed.

(* A step gives at most what follows the byte. *)
Definition lres_le (x : lres) (n : nat) : Prop :=
  match x with LGo _ s => (length s <= n)%nat | LRet _ s => (length s <= n)%nat | LUB => True end.
Lemma lres_le_weak x n m : (n <= m)%nat -> lres_le x n -> lres_le x m.
Proof. destruct x; simpl; lia || auto. Qed.
Definition lgo_le (x : lres) (n : nat) : Prop := match x with LGo _ s => (length s <= n)%nat | _ => True end.
Lemma on_value_le b j p s : lgo_le (on_value b j p s) (length s).
Proof. unfold on_value. destruct b; destruct (is_a j || is_o j); simpl; auto; destruct (pstk p); simpl; auto. Qed.
Lemma on_close_le p s : lgo_le (on_close p s) (length s).
Proof. unfold on_close. destruct (pstk p); simpl; auto. Qed.
Lemma on_key_le k p s : lgo_le (on_key k p s) (length s).
Proof. unfold on_key. destruct (pfoc p); simpl; auto. destruct (slot k l) as [[? ?] ?]. simpl. auto. Qed.
Lemma lgo_weak x n m : (n <= m)%nat -> lgo_le x n -> lgo_le x m.
Proof. destruct x; simpl; lia || auto. Qed.
Lemma on_string_le b x p s n : (forall str r, x = SDone str r -> (length r <= n)%nat) -> lgo_le (on_string b x p s) n.
Proof.
  intros H. destruct x; simpl; auto with arith.
  destruct b; (eapply lgo_weak; [eapply H; reflexivity|]); first [apply on_key_le | apply on_value_le].
Qed.
Lemma on_primitive_le b x p s n : (forall m r, x = PrDone m r -> (length r <= n)%nat) -> lgo_le (on_primitive b x p s) n.
Proof. intros H. destruct x; simpl; auto with arith. eapply lgo_weak; [eapply H; reflexivity|]. apply on_value_le. Qed.
Lemma on_number_le cp b bf x p s n : (length (snd (snd x)) <= n)%nat -> lgo_le (on_number strtod cp b bf x p s) n.
Proof.
  destruct x as [pos [tk r]]. simpl. intros H. unfold on_number.
  destruct r; [destruct cp|]; try (destruct (Z.even pos); [exact Logic.I|destruct (number_value _ _ _);
    [eapply lgo_weak; [exact H|apply on_value_le]|exact Logic.I]]).
  simpl. lia.
Qed.
Lemma number_first c r : (c =? 45) || within c 48 58 = true ->
  (length (snd (snd (number_scan 0 (c :: r)))) <= length r)%nat.
Proof.
  intros H. unfold number_scan, case0. simpl (0 =? 0). cbv iota.
  assert (Hle : forall f, splits f -> forall s, (length (snd (snd (f s))) <= length s)%nat).
  { intros f Hf s. rewrite <- (Hf s) at 2. rewrite app_length. lia. }
  destruct (c =? 45) eqn:E; simpl.
  - apply Hle, case2_splits.
  - destruct (c =? 48) eqn:E2; simpl; [apply Hle, case3_splits|].
    destruct (within c 49 58) eqn:E3; simpl; [apply Hle, case1_splits|].
    exfalso. simpl in H. unfold within in *. lia.
Qed.
Lemma step_le cp b p c r : lgo_le (consume_step strtod cp b p c r) (length r).
Proof.
  unfold consume_step. cbv zeta.
  repeat match goal with
  | |- lgo_le (if (?c =? 45) || _ then _ else _) _ => destruct ((c =? 45) || within c 48 58) eqn:?
  | |- lgo_le (if ?x then _ else _) _ => destruct x
  | |- lgo_le (match ?x with BInitial => _ | _ => _ end) _ => destruct x
  | |- lgo_le (LGo _ _) _ => simpl; lia
  | |- lgo_le (p_error _ _) _ => exact Logic.I
  | |- lgo_le (on_value _ _ _ _) _ => apply on_value_le
  | |- lgo_le (on_close _ _) _ => apply on_close_le
  | |- lgo_le (on_string _ _ _ _) _ => apply on_string_le; intros ? ? HH; apply string_loop_len in HH; lia
  | |- lgo_le (on_primitive _ _ _ _) _ => apply on_primitive_le; intros ? ? HH; now apply primitive_len in HH
  | |- lgo_le (on_number _ _ _ _ _ _ _) _ => apply on_number_le, number_first; assumption
  end.
Qed.

Lemma loop_fuel cp : forall n p s fuel, (length s <= n)%nat -> (length s <= fuel)%nat ->
  consume_loop strtod cp fuel p s = consume_loop strtod cp (length s) p s.
Proof.
  induction n as [|n IH]; intros p s fuel H1 H2.
  - destruct s; [|simpl in H1; lia]. destruct fuel; cbn [consume_loop length]; destruct (ps p); try destruct p0; reflexivity.
  - destruct s as [|c r].
    { destruct fuel; cbn [consume_loop length]; destruct (ps p); try destruct p0; reflexivity. }
    destruct fuel as [|f]; [simpl in H2; lia|]. simpl in H1, H2.
    cbn [consume_loop length]. destruct (ps p) as [| |b q]; try reflexivity. destruct q; try reflexivity.
    pose proof (step_le cp b p c r) as L. destruct (consume_step strtod cp b p c r) as [p' s'| |]; try reflexivity.
    simpl in L. rewrite (IH p' s' f) by lia. rewrite (IH p' s' (length r)) by lia. reflexivity.
Qed.
Lemma loop_no_fuel cp : forall n p s, (length s <= n)%nat -> consume_loop strtod cp (length s) p s <> CFuel.
Proof.
  induction n as [|n IH]; intros p s H.
  - destruct s; [|simpl in H; lia]. cbn [consume_loop length]. destruct (ps p); try destruct p0; discriminate.
  - destruct s as [|c r]; [cbn [consume_loop length]; destruct (ps p); try destruct p0; discriminate|].
    cbn [consume_loop length]. destruct (ps p) as [| |b q]; try discriminate. destruct q; try discriminate.
    pose proof (step_le cp b p c r) as L. destruct (consume_step strtod cp b p c r) as [p' s'| |]; try discriminate.
    simpl in L, H. rewrite (loop_fuel cp (length r)) by lia. apply IH. lia.
Qed.

Definition cloop (cp : bool) (p : parser) (s : list Z) : cres := consume_loop strtod cp (length s) p s.
Lemma cloop_go cp b p c r p' s' : ps p = JRun b PNone -> consume_step strtod cp b p c r = LGo p' s' ->
  cloop cp p (c :: r) = cloop cp p' s'.
Proof.
  intros E H. unfold cloop. cbn [length consume_loop]. rewrite E, H.
  pose proof (step_le cp b p c r) as L. rewrite H in L. simpl in L. now apply loop_fuel with (n := length r).
Qed.
Lemma cloop_ret cp b p c r p' s' : ps p = JRun b PNone -> consume_step strtod cp b p c r = LRet p' s' ->
  cloop cp p (c :: r) = CRet p' s'.
Proof. intros E H. unfold cloop. cbn [length consume_loop]. now rewrite E, H. Qed.
Lemma cloop_on cp b p c r : ps p = JRun b PNone ->
  cloop cp p (c :: r) = consume_on strtod cp (consume_step strtod cp b p c r).
Proof.
  intros E. unfold cloop, consume_on. cbn [length consume_loop]. rewrite E.
  pose proof (step_le cp b p c r) as L. destruct (consume_step strtod cp b p c r); auto.
  simpl in L. now apply loop_fuel with (n := length r).
Qed.
Lemma consume_on_go cp p s : consume_on strtod cp (LGo p s) = cloop cp p s. Proof. reflexivity. Qed.
Lemma cloop_nil cp p : cloop cp p [] = CRet p [].
Proof. unfold cloop. cbn [consume_loop length]. destruct (ps p); try destruct p0; reflexivity. Qed.
Lemma cloop_stop cp p s : (forall b, ps p <> JRun b PNone) -> cloop cp p s = CRet p s.
Proof. intros H. unfold cloop. destruct s; cbn [consume_loop length]; destruct (ps p) as [| |b q]; try reflexivity; destruct q; try reflexivity; now destruct (H b). Qed.

Theorem consume_no_fuel cp p s : consume strtod cp p s <> CFuel.
Proof.
  unfold consume. destruct (ps p) as [| |b q]; try (apply (loop_no_fuel cp (length s)); lia).
  assert (X : forall x, consume_on strtod cp x <> CFuel).
  { intros x. destruct x; simpl; try discriminate. apply (loop_no_fuel cp (length s0)). lia. }
  destruct q; try apply X. apply (loop_no_fuel cp (length s)). lia.
Qed.

(* White space is skipped in every state. *)
Definition wsb (c : Z) : Prop := c = 32 \/ c = 9 \/ c = 10 \/ c = 13.
Lemma step_ws cp b p c r : wsb c -> consume_step strtod cp b p c r = LGo p r.
Proof. intros [-> | [-> | [-> | ->]]]; reflexivity. Qed.
Lemma cloop_ws cp b p w s : ps p = JRun b PNone -> Forall wsb w -> cloop cp p (w ++ s) = cloop cp p s.
Proof.
  intros E. induction w as [|c w IH]; intros H; [reflexivity|].
  inversion H; subst. simpl. rewrite (cloop_go cp b p c (w ++ s) p (w ++ s)); auto. now apply step_ws.
Qed.
End P.
