(* Proofs about node searches. *)
From Verif Require Import Lib M_Key M_Permuter M_Search.

Section S.
Context (perm : nat -> nat) (cmp : nat -> Z) (n : nat).
Let c (i : nat) : Z := cmp (perm i).
(* strictly sorted: once the search key is not larger, it is strictly smaller than everything after. *)
Hypothesis sorted : forall i j, (i < j < n)%nat -> c i <= 0 -> c j < 0.

Definition is_lower (i : nat) : Prop := (i <= n)%nat /\ (forall j, (j < i)%nat -> c j > 0) /\ (forall j, (i <= j < n)%nat -> c j <= 0).
Definition is_upper (i : nat) : Prop := (i <= n)%nat /\ (forall j, (j < i)%nat -> c j >= 0) /\ (forall j, (i <= j < n)%nat -> c j < 0).

Lemma is_lower_unique i j : is_lower i -> is_lower j -> i = j.
Proof.
  intros (A & B & C) (A' & B' & C'). destruct (lt_eq_lt_dec i j) as [[H|]|H]; auto.
  - specialize (B' i H). specialize (C i ltac:(intros; lia)). lia.
  - specialize (B j H). specialize (C' j ltac:(intros; lia)). lia.
Qed.
Lemma is_upper_unique i j : is_upper i -> is_upper j -> i = j.
Proof.
  intros (A & B & C) (A' & B' & C'). destruct (lt_eq_lt_dec i j) as [[H|]|H]; auto.
  - specialize (B' i H). specialize (C i ltac:(intros; lia)). lia.
  - specialize (B j H). specialize (C' j ltac:(intros; lia)). lia.
Qed.

Definition lower_res (r : nat * option nat) : Prop :=
  is_lower (fst r) /\
  snd r = if (fst r <? n)%nat then (if c (fst r) =? 0 then Some (perm (fst r)) else None) else None.

Lemma lower_lin_spec : forall k l, (l + k = n)%nat -> (forall j, (j < l)%nat -> c j > 0) ->
  lower_res (lower_lin perm cmp k l).
Proof.
  induction k as [|k IH]; intros l E Hl; cbn [lower_lin].
  - split; cbn [fst snd]; [split; [lia|split; [auto|intros; lia]]|]. destruct (Nat.ltb_spec l n); [lia|auto].
  - destruct (Z.ltb_spec (cmp (perm l)) 0) as [L|L].
    + split; cbn [fst snd].
      * split; [lia|split; auto]. intros j Hj. destruct (Nat.eq_dec j l) as [->|]; [unfold c; lia|].
        specialize (sorted l j ltac:(intros; lia)). unfold c in *. lia.
      * destruct (Nat.ltb_spec l n); auto. destruct (Z.eqb_spec (c l) 0); auto. unfold c in *. lia.
    + destruct (Z.eqb_spec (cmp (perm l)) 0) as [L0|L0].
      * split; cbn [fst snd].
        -- split; [lia|split; auto]. intros j Hj. destruct (Nat.eq_dec j l) as [->|]; [unfold c; lia|].
           specialize (sorted l j ltac:(intros; lia)). unfold c in *. lia.
        -- destruct (Nat.ltb_spec l n); [|lia]. unfold c. rewrite L0. reflexivity.
      * apply IH; [lia|]. intros j Hj. destruct (Nat.eq_dec j l) as [->|]; [unfold c; lia|]. apply Hl. lia.
Qed.

Lemma upper_lin_spec : forall k l, (l + k = n)%nat -> (forall j, (j < l)%nat -> c j >= 0) ->
  is_upper (upper_lin perm cmp k l).
Proof.
  induction k as [|k IH]; intros l E Hl; cbn [upper_lin].
  - split; [lia|split; [auto|intros; lia]].
  - destruct (Z.ltb_spec (cmp (perm l)) 0) as [L|L].
    + split; [lia|split; auto]. intros j Hj. destruct (Nat.eq_dec j l) as [->|]; [unfold c; lia|].
      specialize (sorted l j ltac:(intros; lia)). unfold c in *. lia.
    + apply IH; [lia|]. intros j Hj. destruct (Nat.eq_dec j l) as [->|]; [unfold c; lia|]. apply Hl. lia.
Qed.

Lemma div2_mid l r : (l < r)%nat -> (l <= Nat.div2 (l + r) < r)%nat.
Proof. intros. rewrite Nat.div2_div. split; [apply Nat.div_le_lower_bound|apply Nat.div_lt_upper_bound]; lia. Qed.

Lemma lower_bin_spec : forall fuel l r, (r - l < fuel)%nat -> (l <= r <= n)%nat ->
  (forall j, (j < l)%nat -> c j > 0) -> (forall j, (r <= j < n)%nat -> c j < 0) ->
  exists res, lower_bin perm cmp fuel l r = Some res /\ lower_res res.
Proof.
  induction fuel as [|f IH]; intros l r Hf Hr Hl Hh; [lia|]. cbn [lower_bin].
  destruct (Nat.ltb_spec l r).
  - pose proof (div2_mid l r H) as Hm. set (m := Nat.div2 (l + r)) in *. cbv zeta.
    destruct (Z.ltb_spec (cmp (perm m)) 0).
    + apply IH; auto; try lia. intros j Hj. destruct (Nat.eq_dec j m) as [->|]; [unfold c; lia|].
      apply (sorted m j); [lia|unfold c; lia].
    + destruct (Z.eqb_spec (cmp (perm m)) 0) as [E|E].
      * eexists. split; [reflexivity|]. split; cbn [fst snd].
        -- split; [lia|]. split.
           ++ intros j Hj. destruct (Z_le_gt_dec (c j) 0); [|lia]. specialize (sorted j m ltac:(intros; lia) ltac:(auto)). unfold c in *. lia.
           ++ intros j Hj. destruct (Nat.eq_dec j m) as [->|]; [unfold c; lia|].
              specialize (sorted m j ltac:(intros; lia) ltac:(unfold c; lia)). lia.
        -- destruct (Nat.ltb_spec m n); [|lia]. unfold c. rewrite E. reflexivity.
      * apply IH; auto; try lia. intros j Hj.
        destruct (Z_le_gt_dec (c j) 0); [|lia]. destruct (Nat.eq_dec j m) as [->|]; [unfold c in *; lia|].
        specialize (sorted j m ltac:(intros; lia) ltac:(auto)). unfold c in *. lia.
  - eexists. split; [reflexivity|]. assert (l = r) by lia. subst r. split; cbn [fst snd].
    + split; [lia|split; [auto|intros j Hj; specialize (Hh j Hj); lia]].
    + destruct (Nat.ltb_spec l n); auto. destruct (Z.eqb_spec (c l) 0); auto. specialize (Hh l ltac:(intros; lia)). lia.
Qed.

Lemma upper_bin_spec : forall fuel l r, (r - l < fuel)%nat -> (l <= r <= n)%nat ->
  (forall j, (j < l)%nat -> c j >= 0) -> (forall j, (r <= j < n)%nat -> c j < 0) ->
  exists res, upper_bin perm cmp fuel l r = Some res /\ is_upper res.
Proof.
  induction fuel as [|f IH]; intros l r Hf Hr Hl Hh; [lia|]. cbn [upper_bin].
  destruct (Nat.ltb_spec l r).
  - pose proof (div2_mid l r H) as Hm. set (m := Nat.div2 (l + r)) in *. cbv zeta.
    destruct (Z.ltb_spec (cmp (perm m)) 0).
    + apply IH; auto; try lia. intros j Hj. destruct (Nat.eq_dec j m) as [->|]; [unfold c; lia|].
      apply (sorted m j); [lia|unfold c; lia].
    + destruct (Z.eqb_spec (cmp (perm m)) 0) as [E|E].
      * eexists. split; [reflexivity|]. split; [lia|]. split.
        -- intros j Hj. destruct (Z_lt_ge_dec (c j) 0); [|lia]. destruct (Nat.eq_dec j m) as [->|]; [unfold c in *; lia|].
           specialize (sorted j m ltac:(intros; lia) ltac:(intros; lia)). unfold c in *. lia.
        -- intros j Hj. apply (sorted m j); [lia|unfold c; lia].
      * apply IH; auto; try lia. intros j Hj.
        destruct (Z_lt_ge_dec (c j) 0); [|lia]. destruct (Nat.eq_dec j m) as [->|]; [unfold c in *; lia|].
        specialize (sorted j m ltac:(intros; lia) ltac:(intros; lia)). unfold c in *. lia.
  - eexists. split; [reflexivity|]. assert (l = r) by lia. subst r.
    split; [lia|split; [auto|intros j Hj; specialize (Hh j Hj); lia]].
Qed.

End S.

(* ---- nodes ---- *)
Lemma icompare_lt a b : icompare a b < 0 <-> a < b.
Proof. unfold icompare. destruct (Z.compare_spec a b); lia. Qed.
Lemma icompare_gt a b : icompare a b > 0 <-> a > b.
Proof. unfold icompare. destruct (Z.compare_spec a b); lia. Qed.
Lemma icompare_eq a b : icompare a b = 0 <-> a = b.
Proof. unfold icompare. destruct (Z.compare_spec a b); lia. Qed.

(* Strictly increasing list of slices. *)
Definition keys_sorted (ks : list Z) : Prop := forall i j, (i < j < length ks)%nat -> nth i ks 0 < nth j ks 0.

Lemma inter_upper_spec ks ik : keys_sorted ks ->
  let r := inter_upper ks ik in
  (r <= length ks)%nat /\ (forall j, (j < r)%nat -> nth j ks 0 <= ik) /\ (forall j, (r <= j < length ks)%nat -> ik < nth j ks 0) /\
  inter_upper_binary ks ik = Some r.
Proof.
  intros Hs r.
  assert (S : forall i j, (i < j < length ks)%nat -> icompare ik (nth i ks 0) <= 0 -> icompare ik (nth j ks 0) < 0).
  { intros i j Hij H. apply (proj2 (icompare_lt _ _)). specialize (Hs i j Hij). destruct (Z_le_gt_dec ik (nth i ks 0)); [lia|].
    assert (icompare ik (nth i ks 0) > 0) by (apply icompare_gt; lia). lia. }
  pose proof (upper_lin_spec (fun i => i) (fun p => icompare ik (nth p ks 0)) (length ks) S (length ks) 0 ltac:(intros; lia) ltac:(intros; lia)) as U.
  fold (inter_upper ks ik) in U. fold r in U.
  destruct (upper_bin_spec (fun i => i) (fun p => icompare ik (nth p ks 0)) (length ks) S (Datatypes.S (length ks)) 0 (length ks)
    ltac:(intros; lia) ltac:(intros; lia) ltac:(intros; lia) ltac:(intros; lia)) as (r2 & E & U2).
  assert (r2 = r) by exact (is_upper_unique _ _ _ S _ _ U2 U). subst r2.
  destruct U as (A & B & C). split; [auto|]. split; [|split; [|exact E]].
  - intros j Hj. specialize (B j Hj). cbn in B. destruct (Z_le_gt_dec (nth j ks 0) ik); auto.
    assert (icompare ik (nth j ks 0) < 0) by (apply (proj2 (icompare_lt _ _)); lia). lia.
  - intros j Hj. specialize (C j Hj). cbn in C. exact (proj1 (icompare_lt _ _) C).
Qed.

(* Leaf entries: strictly increasing in (slice, length class); 0..8 for short keys, 9 for "longer". *)
Definition lenclass (l : Z) : Z := Z.min l 9.
Definition entry_lt (a b : Z * Z) : Prop := fst a < fst b \/ (fst a = fst b /\ lenclass (snd a) < lenclass (snd b)).
Lemma key_compare_sign ik l ik' l' :
  (key_compare ik l ik' l' < 0 <-> entry_lt (ik, l) (ik', l')) /\
  (key_compare ik l ik' l' = 0 <-> ik = ik' /\ lenclass l = lenclass l') \/ (8 < l' /\ l <= 8) .
Proof.
  destruct (Z_le_gt_dec l 8), (Z_le_gt_dec l' 8); try (right; lia); left; unfold key_compare, entry_lt, lenclass; cbn [fst snd];
    pose proof (icompare_lt ik ik'); pose proof (icompare_eq ik ik');
    destruct (Z.eqb_spec (icompare ik ik') 0), (Z.ltb_spec 8 l); try lia;
    destruct (Z.leb_spec l' 8); lia.
Qed.
Lemma key_compare_lt ik l ik' l' : key_compare ik l ik' l' < 0 <-> entry_lt (ik, l) (ik', l').
Proof.
  unfold key_compare, entry_lt, lenclass; cbn [fst snd].
  pose proof (icompare_lt ik ik'); pose proof (icompare_eq ik ik').
  destruct (Z.eqb_spec (icompare ik ik') 0), (Z.ltb_spec 8 l); try lia; destruct (Z.leb_spec l' 8); lia.
Qed.
Lemma key_compare_eq ik l ik' l' : key_compare ik l ik' l' = 0 <-> ik = ik' /\ lenclass l = lenclass l'.
Proof.
  unfold key_compare, lenclass.
  pose proof (icompare_lt ik ik'); pose proof (icompare_eq ik ik').
  destruct (Z.eqb_spec (icompare ik ik') 0), (Z.ltb_spec 8 l); try lia; destruct (Z.leb_spec l' 8); lia.
Qed.
Lemma entry_lt_trans a b c : entry_lt a b -> entry_lt b c -> entry_lt a c.
Proof. unfold entry_lt. lia. Qed.
Lemma entry_total a b : entry_lt a b \/ (fst a = fst b /\ lenclass (snd a) = lenclass (snd b)) \/ entry_lt b a.
Proof. unfold entry_lt. lia. Qed.

(* The live entries of a leaf, in permutation order. *)
Definition leaf_sorted (x : Z) (ikey0 keylenx : nat -> Z) : Prop :=
  forall i j, (i < j < perm_size x)%nat ->
    entry_lt (ikey0 (perm_get x i), keylenx (perm_get x i)) (ikey0 (perm_get x j), keylenx (perm_get x j)).

Lemma leaf_lower_spec x ikey0 keylenx k : leaf_sorted x ikey0 keylenx ->
  let r := leaf_lower x ikey0 keylenx k in
  let e j := (ikey0 (perm_get x j), keylenx (perm_get x j)) in
  let ke := (k_ikey k, k_len k) in
  (fst r <= perm_size x)%nat /\
  (forall j, (j < fst r)%nat -> entry_lt (e j) ke) /\
  (forall p, snd r = Some p -> (fst r < perm_size x)%nat /\ p = perm_get x (fst r) /\ fst (e (fst r)) = k_ikey k /\ lenclass (snd (e (fst r))) = lenclass (k_len k)) /\
  (snd r = None -> forall j, (fst r <= j < perm_size x)%nat -> entry_lt ke (e j)) /\
  (forall j, (fst r < j < perm_size x)%nat -> entry_lt ke (e j)) /\
  leaf_lower_binary x ikey0 keylenx k = Some r.
Proof.
  intros Hs r e ke.
  set (cmp := fun p => key_compare (k_ikey k) (k_len k) (ikey0 p) (keylenx p)).
  assert (CL : forall j, cmp (perm_get x j) < 0 <-> entry_lt ke (e j)) by (intros; apply key_compare_lt).
  assert (CE : forall j, cmp (perm_get x j) = 0 <-> k_ikey k = fst (e j) /\ lenclass (k_len k) = lenclass (snd (e j))) by (intros; apply key_compare_eq).
  assert (S : forall i j, (i < j < perm_size x)%nat -> cmp (perm_get x i) <= 0 -> cmp (perm_get x j) < 0).
  { intros i j Hij H. apply CL. specialize (Hs i j Hij). fold (e i) in Hs. fold (e j) in Hs.
    destruct (Z.eq_dec (cmp (perm_get x i)) 0) as [E|E].
    - apply CE in E. unfold entry_lt, ke in *. cbn [fst snd] in *. lia.
    - assert (entry_lt ke (e i)) by (apply CL; lia). eapply entry_lt_trans; eauto. }
  pose proof (lower_lin_spec (perm_get x) cmp (perm_size x) S (perm_size x) 0 ltac:(intros; lia) ltac:(intros; lia)) as U.
  change (lower_lin (perm_get x) cmp (perm_size x) 0) with r in U.
  destruct (lower_bin_spec (perm_get x) cmp (perm_size x) S (Datatypes.S (perm_size x)) 0 (perm_size x)
    ltac:(intros; lia) ltac:(intros; lia) ltac:(intros; lia) ltac:(intros; lia)) as (r2 & E & U2).
  assert (r2 = r).
  { destruct U as [U1 U3], U2 as [U4 U5]. assert (fst r2 = fst r) by exact (is_lower_unique _ _ _ S _ _ U4 U1).
    destruct r2, r. cbn [fst snd] in *. subst. congruence. }
  subst r2. destruct U as [(A & B & C) D].
  split; [auto|]. split; [|split; [|split; [|split; [|exact E]]]].
  - intros j Hj. specialize (B j Hj). destruct (entry_total (e j) ke) as [?|[[E1 E2]|?]]; auto.
    + assert (cmp (perm_get x j) = 0) by (apply CE; split; symmetry; auto). lia.
    + assert (cmp (perm_get x j) < 0) by now apply CL. lia.
  - intros p Hp. rewrite D in Hp. destruct (Nat.ltb_spec (fst r) (perm_size x)); [|discriminate].
    destruct (Z.eqb_spec (cmp (perm_get x (fst r))) 0) as [E0|]; [|discriminate]. injection Hp as <-.
    apply CE in E0. destruct E0. repeat split; auto.
  - intros Hn j Hj. apply CL. destruct (Nat.eq_dec j (fst r)) as [->|].
    + rewrite D in Hn. destruct (Nat.ltb_spec (fst r) (perm_size x)); [|lia].
      destruct (Z.eqb_spec (cmp (perm_get x (fst r))) 0); [discriminate|]. specialize (C (fst r) ltac:(intros; lia)). cbn in C. lia.
    + apply (S (fst r)); [lia|]. apply C. lia.
  - intros j Hj. apply CL. apply (S (fst r)); [lia|]. apply C. lia.
Qed.
