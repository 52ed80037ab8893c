(* Property theorems: C20 (wrapping counters compare in issue order). *)
From Verif Require Import Lib M_Circular P_Circular.

(* Two counters issued as the i-th and j-th value of an n-bit wrapping counter, less than half the range
   apart, compare exactly as i and j do, under every comparison operator; their difference is i - j. *)
Theorem C20_issue_order : forall n, 8 <= n -> forall i j, - 2 ^ (n - 1) < i - j < 2 ^ (n - 1) ->
  ci_lt n (ci_wrap n i) (ci_wrap n j) = (i <? j) /\ ci_gt n (ci_wrap n i) (ci_wrap n j) = (j <? i) /\
  ci_le n (ci_wrap n i) (ci_wrap n j) = (i <=? j) /\ ci_ge n (ci_wrap n i) (ci_wrap n j) = (j <=? i) /\
  ci_less_equal n (ci_wrap n i) (ci_wrap n j) = (i <=? j) /\
  ci_diff n (ci_wrap n i) (ci_wrap n j) = i - j /\
  (ci_wrap n i = ci_wrap n j <-> i = j).
Proof. exact ci_order. Qed.
Print Assumptions C20_issue_order.

Theorem C20_irreflexive : forall n, 8 <= n -> forall a, ci_lt n a a = false.
Proof. exact ci_irrefl. Qed.
Print Assumptions C20_irreflexive.

(* Asymmetric and total on distinct values that are not exactly half the range apart. *)
Theorem C20_asymmetric_total : forall n, 8 <= n -> forall a b, 0 <= a < 2 ^ n -> 0 <= b < 2 ^ n ->
  (a - b) mod 2 ^ n <> 2 ^ (n - 1) -> a <> b -> ci_lt n a b = negb (ci_lt n b a).
Proof. exact ci_asym. Qed.
Print Assumptions C20_asymmetric_total.

Theorem C20_transitive : forall n, 8 <= n -> forall a b c, 0 <= a < 2 ^ n -> 0 <= b < 2 ^ n -> 0 <= c < 2 ^ n ->
  ci_lt n a b = true -> ci_lt n b c = true -> (b - a) mod 2 ^ n + (c - b) mod 2 ^ n < 2 ^ (n - 1) ->
  ci_lt n a c = true.
Proof. exact ci_trans. Qed.
Print Assumptions C20_transitive.

(* Without the half-range restriction transitivity fails: the restriction is not an artefact of the proof. *)
Theorem C20_transitive_unrestricted_refuted : exists n a b c, 8 <= n /\ 0 <= a < 2 ^ n /\ 0 <= b < 2 ^ n /\ 0 <= c < 2 ^ n /\
  ci_lt n a b = true /\ ci_lt n b c = true /\ ci_lt n a c = false.
Proof. exists 64, 0, (2 ^ 63 - 1), (2 ^ 63 + 5). vm_compute. repeat split; congruence. Qed.
Print Assumptions C20_transitive_unrestricted_refuted.

Theorem C20_next_nonzero : forall n, 8 <= n -> forall v, 0 <= v < 2 ^ n -> 0 < ci_next_nonzero n v < 2 ^ n /\
  (v <> 0 -> ci_lt n v (ci_next_nonzero n v) = true) /\
  (v <> 2 ^ n - 1 -> ci_next_nonzero n v = v + 1).
Proof. exact ci_next_spec. Qed.
Print Assumptions C20_next_nonzero.

(* Witnesses at the wrap-around point of a 64-bit counter. *)
Example c20_wrap : ci_lt 64 (ci_wrap 64 (2 ^ 64 - 1)) (ci_wrap 64 (2 ^ 64 + 3)) = true /\
  ci_wrap 64 (2 ^ 64 + 3) = 3 /\ - 2 ^ 63 < (2 ^ 64 - 1) - (2 ^ 64 + 3) < 2 ^ 63 /\
  ci_next_nonzero 64 (2 ^ 64 - 1) = 1.
Proof. vm_compute. repeat split; congruence. Qed.
Example c20_trans_hyps : ci_lt 64 (2 ^ 64 - 2) 5 = true /\ ci_lt 64 5 10 = true /\
  (5 - (2 ^ 64 - 2)) mod 2 ^ 64 + (10 - 5) mod 2 ^ 64 < 2 ^ 63.
Proof. vm_compute. repeat split; congruence. Qed.
