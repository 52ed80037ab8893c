(* hashcode and to_i. *)
From Verif Require Import Lib Spec_Natcmp M_Strnum Spec_Strnum.

Lemma hash_same m o o' s : m = X86 \/ m = Other false -> hashcode m o s = hashcode m o' s.
Proof. intros [-> | ->]; unfold hashcode; destruct s as [|a s]; auto. destruct o, o'; auto. Qed.
Lemma mix_range k j h : 0 <= mix k j h < 2 ^ 32.
Proof. unfold mix, add32. apply Z.mod_pos_bound. lia. Qed.
Lemma hash_range m o s : 0 <= hashcode m o s < 2 ^ 32.
Proof. unfold hashcode. destruct s; [lia|apply mix_range]. Qed.
Lemma hash_differs : exists s, hashcode (Other true) false s <> hashcode (Other true) true s.
Proof. exists [97; 98]. vm_compute. discriminate. Qed.

Lemma is_digit c : isdigit c = true <-> digit c.
Proof. unfold isdigit, digit. lia. Qed.
Lemma to_u_value d : forall x t, Forall digit d -> ends t -> 0 <= x < 2 ^ 64 -> to_u x (d ++ t) = (x * 10 ^ len d + value d) mod 2 ^ 64.
Proof.
  induction d as [|c d IH]; intros x t H He Hx; cbn [app to_u].
  - change (len (@nil Z)) with 0. cbn [value]. replace (x * 10 ^ 0 + 0) with x by lia. rewrite Z.mod_small by lia. destruct t as [|c t]; auto. cbn [to_u]. simpl in He. destruct (isdigit c) eqn:E; auto. apply is_digit in E. contradiction.
  - inversion H as [|? ? H1 H2]; subst. replace (isdigit c) with true by (symmetry; apply is_digit; auto). rewrite IH by (auto; apply Z.mod_pos_bound; lia). cbn [value]. rewrite len_cons. pose proof (len_nonneg d). rewrite Z.pow_add_r by lia. change (10 ^ 1) with 10.
    rewrite Z.add_mod by lia. rewrite Zmult_mod_idemp_l. rewrite <- Z.add_mod by lia. f_equal. ring.
Qed.
Lemma signed64_mod v x : x = v mod 2 ^ 64 -> - 2 ^ 63 <= signed64 x < 2 ^ 63 /\ (signed64 x - v) mod 2 ^ 64 = 0.
Proof.
  intros ->. pose proof (Z.mod_pos_bound v (2 ^ 64) ltac:(lia)) as B. unfold signed64. pose proof (Z.div_mod v (2 ^ 64) ltac:(lia)) as D. destruct (2 ^ 63 <=? v mod 2 ^ 64) eqn:E; (split; [lia|]).
  - replace (v mod 2 ^ 64 - 2 ^ 64 - v) with ((- (v / 2 ^ 64) - 1) * 2 ^ 64) by lia. apply Z.mod_mul. lia.
  - replace (v mod 2 ^ 64 - v) with ((- (v / 2 ^ 64)) * 2 ^ 64) by lia. apply Z.mod_mul. lia.
Qed.
Lemma rest_value (neg : bool) d t : number d -> ends t -> let v := if neg then - value d else value d in - 2 ^ 63 <= to_i_rest neg (d ++ t) < 2 ^ 63 /\ (to_i_rest neg (d ++ t) - v) mod 2 ^ 64 = 0.
Proof.
  intros (N & H) He v. destruct d as [|c d]; [contradiction|]. inversion H as [|? ? H1 H2]; subst. cbn [app to_i_rest]. replace (isdigit c) with true by (symmetry; apply is_digit; auto). rewrite to_u_value by (auto; unfold digit in H1; lia). apply signed64_mod. subst v. change ((c - 48) * 10 ^ len d + value d) with (value (c :: d)).
  destruct neg; auto. rewrite <- !Z.sub_0_l. rewrite Zminus_mod_idemp_r. auto.
Qed.
Lemma to_i_value s v : begins s v -> - 2 ^ 63 <= to_i s < 2 ^ 63 /\ (to_i s - v) mod 2 ^ 64 = 0.
Proof.
  intros (g & neg & d & t & -> & Hg & Hd & Ht & ->). pose proof (rest_value neg d t Hd Ht) as R. cbv zeta in R. destruct Hg; cbn [app]; try exact R.
  destruct Hd as (N & H). destruct d as [|c d]; [contradiction|]. inversion H as [|? ? H1 H2]; subst. cbn [app to_i] in *. unfold digit in H1. replace ((c =? 45) || (c =? 43)) with false by lia. exact R.
Qed.
Lemma to_i_exact s v : begins s v -> - 2 ^ 63 <= v < 2 ^ 63 -> to_i s = v.
Proof.
  intros H B. destruct (to_i_value s v H) as (R & M). apply Z.mod_divide in M; [|lia]. destruct M as (k & M). assert (k = 0) by lia. subst k. lia.
Qed.
Lemma split_digits s : exists d t, s = d ++ t /\ Forall digit d /\ ends t.
Proof.
  induction s as [|c s (d & t & -> & H & He)]; [exists [], []; simpl; auto|]. destruct (isdigit c) eqn:E; [apply is_digit in E; exists (c :: d), t; auto|]. exists [], (c :: d ++ t). simpl. split; auto. split; auto. intros C. apply is_digit in C. congruence.
Qed.
Lemma rest_none neg s : (exists c s', s = c :: s' /\ digit c) \/ to_i_rest neg s = 0.
Proof. destruct s as [|c s]; auto. cbn [to_i_rest]. destruct (isdigit c) eqn:E; auto. apply is_digit in E. left. eauto. Qed.
Lemma to_i_other s : (exists v, begins s v) \/ to_i s = 0.
Proof.
  assert (K : forall g neg s, sign g neg -> (exists c s', s = c :: s' /\ digit c) -> exists v, begins (g ++ s) v).
  { intros g neg s0 Hg (c & s' & -> & Hc). destruct (split_digits s') as (d & t & -> & Hd & Ht). eexists. exists g, neg, (c :: d), t. split; [reflexivity|]. split; [exact Hg|]. split; [split; [discriminate|auto]|]. split; [auto|reflexivity]. }
  destruct s as [|c s]; [right; reflexivity|]. cbn [to_i]. destruct (c =? 45) eqn:E; [|destruct (c =? 43) eqn:F]; cbn [orb].
  - destruct (rest_none true s) as [H|H]; auto. left. replace c with 45 by lia. exact (K [45] true s SMinus H).
  - destruct (rest_none false s) as [H|H]; auto. left. replace c with 43 by lia. exact (K [43] false s SPlus H).
  - destruct (rest_none false (c :: s)) as [H|H]; auto. left. exact (K [] false (c :: s) SNone H).
Qed.
(* 2^64. *)
Definition big : list Z := [49; 56; 52; 52; 54; 55; 52; 52; 48; 55; 51; 55; 48; 57; 53; 53; 49; 54; 49; 54].
Lemma to_i_wraps : exists s v, begins s v /\ 0 < v /\ to_i s = 0.
Proof.
  exists big, (2 ^ 64). split; [|split; [lia|vm_compute; reflexivity]]. exists [], false, big, []. split; [reflexivity|]. split; [constructor|]. split; [|split; [exact I|reflexivity]]. split; [discriminate|]. unfold big, digit. repeat constructor; lia.
Qed.
