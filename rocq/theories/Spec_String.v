(* Specification: lexicographic order on byte strings, independent of any model helper. *)
From Verif Require Import Lib.

(* The order a user expects of "sorted keys": first differing byte decides; a proper prefix is smaller. *)
Fixpoint lex_compare (a b : list Z) : comparison :=
  match a, b with
  | [], [] => Eq
  | [], _ :: _ => Lt
  | _ :: _, [] => Gt
  | x :: a', y :: b' => match x ?= y with Eq => lex_compare a' b' | c => c end
  end.

Definition lex_lt (a b : list Z) : Prop := lex_compare a b = Lt.
Definition lex_le (a b : list Z) : Prop := lex_compare a b <> Gt.

Lemma lex_compare_refl a : lex_compare a a = Eq.
Proof. induction a; simpl; auto. rewrite Z.compare_refl. auto. Qed.

Lemma lex_compare_eq a b : lex_compare a b = Eq <-> a = b.
Proof.
  split; [|intros ->; apply lex_compare_refl].
  revert b. induction a as [|x a IH]; destruct b as [|y b]; simpl; try discriminate; auto.
  destruct (x ?= y) eqn:E; try discriminate. apply Z.compare_eq in E. intros H. f_equal; auto.
Qed.

Lemma lex_compare_antisym a b : lex_compare b a = CompOpp (lex_compare a b).
Proof.
  revert b. induction a as [|x a IH]; destruct b as [|y b]; simpl; auto.
  rewrite (Z.compare_antisym x y). destruct (x ?= y); simpl; auto.
Qed.

Lemma lex_lt_trans a b c : lex_lt a b -> lex_lt b c -> lex_lt a c.
Proof.
  unfold lex_lt. revert b c. induction a as [|x a IH]; destruct b as [|y b]; destruct c as [|z c];
    simpl; try discriminate; auto.
  destruct (x ?= y) eqn:E1; destruct (y ?= z) eqn:E2; try discriminate; intros H1 H2;
    rewrite ?Z.compare_eq_iff, ?Z.compare_lt_iff in *; subst.
  - rewrite Z.compare_refl. eauto.
  - apply Z.compare_lt_iff in E2. now rewrite E2.
  - apply Z.compare_lt_iff in E1. now rewrite E1.
  - assert (E : (x ?= z) = Lt) by (apply Z.compare_lt_iff; lia). now rewrite E.
Qed.

Lemma lex_lt_irrefl a : ~ lex_lt a a.
Proof. unfold lex_lt. rewrite lex_compare_refl. discriminate. Qed.

Lemma lex_trichotomy a b : lex_lt a b \/ a = b \/ lex_lt b a.
Proof.
  unfold lex_lt. rewrite (lex_compare_antisym a b). destruct (lex_compare a b) eqn:E; auto.
  - right; left. now apply lex_compare_eq.
Qed.

Lemma lex_le_lt_eq a b : lex_le a b <-> lex_lt a b \/ a = b.
Proof.
  unfold lex_le, lex_lt. rewrite <- (lex_compare_eq a b). destruct (lex_compare a b); intuition congruence.
Qed.

Lemma lex_app_prefix p a b : lex_compare (p ++ a) (p ++ b) = lex_compare a b.
Proof. induction p; simpl; auto. now rewrite Z.compare_refl. Qed.
