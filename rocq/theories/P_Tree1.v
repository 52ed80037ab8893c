(* Basic facts about the tree model: heap access, array moves, internode search. *)
From Verif Require Import Lib M_Key M_Permuter M_Search P_Search M_Tree.

(* lia splits on every disequality in the context; try without them first. *)
Ltac lia_all := Lia.lia.
Ltac lia := first [ solve [ repeat match goal with H : ~ _ |- _ => clear H | H : _ <-> _ |- _ => clear H | H : _ \/ _ |- _ => clear H end; lia_all ] | lia_all ].

Lemma upd_same {A} (f : nat -> A) i v : upd f i v i = v.
Proof. unfold upd. now rewrite Nat.eqb_refl. Qed.
Lemma upd_other {A} (f : nat -> A) i v j : j <> i -> upd f i v j = f j.
Proof. intros. unfold upd. destruct (Nat.eqb_spec j i); congruence. Qed.
Lemma upd_eq {A} (f : nat -> A) i v j : upd f i v j = if Nat.eq_dec j i then v else f j.
Proof. unfold upd. destruct (Nat.eqb_spec j i), (Nat.eq_dec j i); congruence. Qed.

Lemma bind_ok {A B} (m : res A) (f : A -> res B) b : bind m f = Ok b <-> exists a, m = Ok a /\ f a = Ok b.
Proof.
  destruct m; cbn.
  - split; [eauto|]. intros (x & E & H). now inversion E; subst.
  - split; [discriminate|]. now intros (x & E & H).
Qed.
Lemma bind_ret {A B} (a : A) (f : A -> res B) : bind (Ok a) f = f a. Proof. reflexivity. Qed.

Lemma hget_some h a n : hp_node h a = Some n -> hget h a = Ok n.
Proof. unfold hget. now intros ->. Qed.
Lemma hleaf_some h a l : hp_node h a = Some (NLeaf l) -> hleaf h a = Ok l.
Proof. unfold hleaf. intros E. now rewrite (hget_some _ _ _ E). Qed.
Lemma hinter_some h a i : hp_node h a = Some (NInter i) -> hinter h a = Ok i.
Proof. unfold hinter. intros E. now rewrite (hget_some _ _ _ E). Qed.
Lemma hset_same h a n : hp_node (hset h a n) a = Some n.
Proof. cbn. apply upd_same. Qed.
Lemma hset_other h a n b : b <> a -> hp_node (hset h a n) b = hp_node h b.
Proof. intros. cbn. now apply upd_other. Qed.
Lemma hset_next h a n : hp_next (hset h a n) = hp_next h. Proof. reflexivity. Qed.

(* ---- array moves ---- *)
Lemma amove_in {A} (dst : nat -> A) p src xp n i : (p <= i < p + n)%nat -> amove dst p src xp n i = src (i - p + xp)%nat.
Proof. intros. unfold amove. destruct (Nat.leb_spec p i), (Nat.ltb_spec i (p + n)); try lia; reflexivity. Qed.
Lemma amove_out {A} (dst : nat -> A) p src xp n i : ~ (p <= i < p + n)%nat -> amove dst p src xp n i = dst i.
Proof. intros. unfold amove. destruct (Nat.leb_spec p i), (Nat.ltb_spec i (p + n)); try lia; reflexivity. Qed.

Lemma shift_up_children_spec n : forall c a b, (n <= b)%nat -> (b < a)%nat ->
  forall i, shift_up_children n c a b i =
    if (a - n <? i)%nat && (i <=? a)%nat then c (i - (a - b))%nat else c i.
Proof.
  induction n as [|n IH]; intros c a b Hb Ha i; cbn [shift_up_children].
  - destruct (Nat.ltb_spec (a - 0) i), (Nat.leb_spec i a); try lia; reflexivity.
  - rewrite IH by lia. rewrite !upd_eq.
    destruct (Nat.ltb_spec (a - 1 - n) i), (Nat.leb_spec i (a - 1)), (Nat.ltb_spec (a - S n) i), (Nat.leb_spec i a);
      cbn [andb]; try lia;
      repeat (destruct (Nat.eq_dec _ _)); try lia; try (f_equal; lia); auto.
Qed.
Lemma shift_down_children_spec n : forall c a b, (a < b)%nat ->
  forall i, shift_down_children n c a b i =
    if (a <=? i)%nat && (i <? a + n)%nat then c (i + (b - a))%nat else c i.
Proof.
  induction n as [|n IH]; intros c a b Ha i; cbn [shift_down_children].
  - destruct (Nat.leb_spec a i), (Nat.ltb_spec i (a + 0)); try lia; reflexivity.
  - rewrite IH by lia. rewrite !upd_eq.
    destruct (Nat.leb_spec (S a) i), (Nat.ltb_spec i (S a + n)), (Nat.leb_spec a i), (Nat.ltb_spec i (a + S n));
      cbn [andb]; try lia;
      repeat (destruct (Nat.eq_dec _ _)); try lia; try (f_equal; lia); auto.
Qed.

(* ---- internode search ---- *)
Definition keys_inc (i : inode) : Prop := forall a b, (a < b < in_nkeys i)%nat -> in_keys i a < in_keys i b.

Lemma in_upper_spec i x : keys_inc i ->
  exists k, in_upper i x = Ok k /\ (k <= in_nkeys i)%nat /\
    (forall j, (j < k)%nat -> in_keys i j <= x) /\ (forall j, (k <= j < in_nkeys i)%nat -> x < in_keys i j).
Proof.
  intros Hs.
  assert (S : forall a b, (a < b < in_nkeys i)%nat -> icompare x (in_keys i a) <= 0 -> icompare x (in_keys i b) < 0).
  { intros a b Hab C. apply (proj2 (icompare_lt _ _)). specialize (Hs a b Hab).
    destruct (Z_le_gt_dec x (in_keys i a)); [lia|]. assert (icompare x (in_keys i a) > 0) by (apply icompare_gt; lia). lia. }
  destruct (upper_bin_spec (fun p => p) (fun p => icompare x (in_keys i p)) (in_nkeys i) S (Datatypes.S (in_nkeys i)) 0 (in_nkeys i)
    ltac:(intros; lia) ltac:(intros; lia) ltac:(intros; lia) ltac:(intros; lia)) as (r & E & U).
  exists r. unfold in_upper. rewrite E. destruct U as (U1 & U2 & U3). split; [reflexivity|]. split; [auto|]. split.
  - intros j Hj. specialize (U2 j Hj). destruct (Z_le_gt_dec (in_keys i j) x); auto.
    assert (icompare x (in_keys i j) < 0) by (apply (proj2 (icompare_lt _ _)); lia). lia.
  - intros j Hj. apply (proj1 (icompare_lt _ _)). apply U3. auto.
Qed.

Lemma in_upper_unique i x k : keys_inc i -> (k <= in_nkeys i)%nat ->
  (forall j, (j < k)%nat -> in_keys i j <= x) -> (forall j, (k <= j < in_nkeys i)%nat -> x < in_keys i j) ->
  in_upper i x = Ok k.
Proof.
  intros Hs Hk H1 H2. destruct (in_upper_spec i x Hs) as (r & E & R1 & R2 & R3). rewrite E. f_equal.
  destruct (lt_eq_lt_dec r k) as [[H|]|H]; auto.
  - specialize (H1 r H). specialize (R3 r ltac:(lia)). lia.
  - specialize (R2 k H). specialize (H2 k ltac:(lia)). lia.
Qed.
