(* The permuter as a list of slots: permutation preservation and list-level descriptions. *)
From Verif Require Import Lib M_Permuter P_Permuter.
From Coq Require Import Permutation.

Section P2.
Context (W : nat) (HW : (1 <= W <= 15)%nat).

(* A permuter word that describes a permutation of the W slots with a legal size. *)
Definition perm_ok (x : Z) : Prop :=
  pword W x /\ (perm_size x <= W)%nat /\ Permutation (perm_list W x) (seq 0 W).

Definition pinj (x : Z) : Prop :=
  (forall j, (j < W)%nat -> (perm_get x j < W)%nat) /\
  (forall i j, (i < W)%nat -> (j < W)%nat -> perm_get x i = perm_get x j -> i = j).

Lemma perm_list_length x : length (perm_list W x) = W.
Proof. unfold perm_list. now rewrite map_length, seq_length. Qed.

Lemma perm_list_nth x j d : (j < W)%nat -> nth j (perm_list W x) d = perm_get x j.
Proof.
  intros. unfold perm_list. rewrite nth_indep with (d' := perm_get x 0) by now rewrite map_length, seq_length.
  rewrite map_nth. rewrite seq_nth by auto. reflexivity.
Qed.

Lemma pinj_iff x : Permutation (perm_list W x) (seq 0 W) <-> pinj x.
Proof.
  split.
  - intros P. split.
    + intros j Hj. assert (I : In (perm_get x j) (seq 0 W)).
      { apply (Permutation_in _ P). rewrite <- (perm_list_nth x j 0%nat) by auto. apply nth_In. now rewrite perm_list_length. }
      apply in_seq in I. lia.
    + intros i j Hi Hj E.
      assert (N : NoDup (perm_list W x)) by (apply (Permutation_NoDup (Permutation_sym P)), seq_NoDup).
      rewrite NoDup_nth with (d := 0%nat) in N. apply N; rewrite ?perm_list_length; auto.
      now rewrite !perm_list_nth.
  - intros [Hb Hi]. apply NoDup_Permutation_bis.
    + apply NoDup_nth with (d := 0%nat). intros i j. rewrite perm_list_length. intros ? ? E.
      rewrite !perm_list_nth in E by auto. auto.
    + rewrite perm_list_length, seq_length. lia.
    + intros v Hv. unfold perm_list in Hv. apply in_map_iff in Hv. destruct Hv as (j & <- & Hj).
      apply in_seq in Hj. apply in_seq. specialize (Hb j). lia.
Qed.

(* Reindexing by an injective map of positions preserves permutations. *)
Lemma pinj_reindex x y (f : nat -> nat) :
  pinj x -> (forall j, (j < W)%nat -> (f j < W)%nat /\ perm_get y j = perm_get x (f j)) ->
  (forall i j, (i < W)%nat -> (j < W)%nat -> f i = f j -> i = j) -> pinj y.
Proof.
  intros [Hb Hi] Hf Hinj. split.
  - intros j Hj. destruct (Hf j Hj) as [? ->]. auto.
  - intros i j Hi' Hj E. destruct (Hf i Hi') as [F1 E1], (Hf j Hj) as [F2 E2].
    rewrite E1, E2 in E. auto.
Qed.

Lemma perm_list_ext x l : length l = W ->
  (forall j, (j < W)%nat -> perm_get x j = nth j l 0%nat) -> perm_list W x = l.
Proof.
  intros L H. apply nth_ext with (d := 0%nat) (d' := 0%nat).
  - now rewrite perm_list_length.
  - intros j Hj. rewrite perm_list_length in Hj. rewrite perm_list_nth by auto. auto.
Qed.

(* ---- list-level descriptions (specification) ---- *)

(* Take the last element and insert it at position i. *)
Definition l_insert_from_back (l : list nat) (i : nat) : list nat :=
  firstn i l ++ [last l 0%nat] ++ skipn i (removelast l).
(* Take the element at si and insert it at di <= si. *)
Definition l_insert_selected (l : list nat) (di si : nat) : list nat :=
  firstn di l ++ [nth si l 0%nat] ++ firstn (si - di) (skipn di l) ++ skipn (S si) l.
(* Remove position i of the first s live elements; it becomes the first free one. *)
Definition l_remove (l : list nat) (s i : nat) : list nat :=
  firstn i l ++ firstn (s - 1 - i) (skipn (S i) l) ++ [nth i l 0%nat] ++ skipn s l.
(* Remove position i; it becomes the very last element. *)
Definition l_remove_to_back (l : list nat) (i : nat) : list nat :=
  firstn i l ++ skipn (S i) l ++ [nth i l 0%nat].
(* Swap two positions. *)
Definition l_exchange (l : list nat) (i j : nat) : list nat :=
  map (fun k => nth (if (k =? i)%nat then j else if (k =? j)%nat then i else k) l 0%nat) (seq 0 (length l)).

Lemma nth_skipn' {A} (l : list A) n k d : nth k (skipn n l) d = nth (n + k) l d.
Proof.
  revert l. induction n; intros l; auto. destruct l; [destruct k; auto|]. simpl. apply IHn.
Qed.
Lemma nth_firstn' {A} (l : list A) n k d : (k < n)%nat -> nth k (firstn n l) d = nth k l d.
Proof.
  revert l k. induction n; intros l k H; [lia|]. destruct l; auto. destruct k; auto. simpl. apply IHn. lia.
Qed.
Lemma removelast_firstn' {A} (l : list A) : removelast l = firstn (length l - 1) l.
Proof.
  induction l as [|a l IH]; auto. destruct l as [|b l]; auto.
  cbn [length] in *. replace (S (S (length l)) - 1)%nat with (S (S (length l) - 1)) by lia.
  cbn [firstn]. rewrite <- IH. reflexivity.
Qed.
Lemma last_nth' {A} (l : list A) d : last l d = nth (length l - 1) l d.
Proof.
  induction l as [|a l IH]; auto. destruct l as [|b l]; auto.
  change (last (a :: b :: l) d) with (last (b :: l) d). rewrite IH. cbn [length].
  replace (S (S (length l)) - 1)%nat with (S (S (length l) - 1)) by lia. reflexivity.
Qed.
Lemma nth_app_cases {A} (a b : list A) k d :
  nth k (a ++ b) d = if (k <? length a)%nat then nth k a d else nth (k - length a) b d.
Proof.
  destruct (Nat.ltb_spec k (length a)); [now apply app_nth1|apply app_nth2; lia].
Qed.

Ltac nthsimp := repeat (rewrite nth_app_cases || rewrite nth_skipn' || rewrite firstn_length
   || rewrite skipn_length || rewrite perm_list_length || (rewrite nth_firstn' by lia)).
Ltac cases_ltb := repeat match goal with |- context [(?a <? ?b)%nat] => destruct (Nat.ltb_spec a b) end.

Lemma ok_insert_from_back x i : perm_ok x -> (perm_size x < W)%nat -> (i < W)%nat ->
  perm_ok (perm_insert_from_back W x i) /\
  perm_list W (perm_insert_from_back W x i) = l_insert_from_back (perm_list W x) i /\
  perm_size (perm_insert_from_back W x i) = S (perm_size x).
Proof.
  intros (Hx & Hs & Hp) Hlt Hi.
  pose proof (ifb_word W HW x i) as Hw.
  pose proof (ifb_size W HW x i Hx Hlt ltac:(lia)) as Hsz.
  pose proof (ifb_low W HW x i Hx Hlt ltac:(lia)) as Hlow.
  pose proof (ifb_at W HW x i ltac:(lia) ltac:(lia)) as Hat.
  pose proof (ifb_high W HW x i ltac:(lia) ltac:(lia)) as Hhigh.
  set (y := perm_insert_from_back W x i) in *. split; [|split]; auto.
  - split; [auto|split; [lia|]]. apply pinj_iff. apply pinj_iff in Hp.
    apply (pinj_reindex x y (fun j => if (j <? i)%nat then j else if (j =? i)%nat then (W - 1)%nat else (j - 1)%nat)); auto.
    + intros j Hj. destruct (Nat.ltb_spec j i); [split; auto|]. destruct (Nat.eqb_spec j i) as [->|].
      * split; [lia|apply Hat].
      * split; [lia|]. apply Hhigh. lia.
    + intros a b Ha Hb. destruct (Nat.ltb_spec a i), (Nat.ltb_spec b i), (Nat.eqb_spec a i), (Nat.eqb_spec b i); lia.
  - apply perm_list_ext.
    + unfold l_insert_from_back. rewrite !app_length, removelast_firstn', skipn_length, !firstn_length, perm_list_length. cbn [length]. lia.
    + intros j Hj. unfold l_insert_from_back. rewrite removelast_firstn', last_nth'. nthsimp. cbn [length].
      destruct (Nat.ltb_spec j (Nat.min i W)).
      * rewrite nth_firstn' by lia. rewrite perm_list_nth by lia. apply Hlow. lia.
      * destruct (Nat.ltb_spec (j - Nat.min i W) 1).
        -- replace (j - Nat.min i W)%nat with 0%nat by lia. cbn [nth]. rewrite perm_list_nth by lia.
           replace j with i by lia. apply Hat.
        -- rewrite nth_firstn' by lia. rewrite perm_list_nth by lia. rewrite Hhigh by lia. f_equal. lia.
Qed.

Lemma ok_insert_selected x di si : perm_ok x -> (perm_size x < W)%nat -> (di <= si)%nat -> (si < W)%nat ->
  perm_ok (perm_insert_selected W x di si) /\
  perm_list W (perm_insert_selected W x di si) = l_insert_selected (perm_list W x) di si /\
  perm_size (perm_insert_selected W x di si) = S (perm_size x).
Proof.
  intros (Hx & Hs & Hp) Hlt Hd Hsi.
  pose proof (isel_word W HW x di si Hx) as Hw.
  pose proof (isel_size W HW x di si Hx Hlt ltac:(lia) ltac:(lia)) as Hsz.
  pose proof (isel_low W HW x di si Hx Hlt ltac:(lia) ltac:(lia)) as Hlow.
  pose proof (isel_at W HW x di si ltac:(lia) ltac:(lia) ltac:(lia)) as Hat.
  pose proof (isel_mid W HW x di si ltac:(lia) ltac:(lia) ltac:(lia)) as Hmid.
  pose proof (isel_high W HW x di si ltac:(lia) ltac:(lia) ltac:(lia)) as Hhigh.
  set (y := perm_insert_selected W x di si) in *. split; [|split]; auto.
  - split; [auto|split; [lia|]]. apply pinj_iff. apply pinj_iff in Hp.
    apply (pinj_reindex x y (fun j => if (j <? di)%nat then j else if (j =? di)%nat then si else if (j <=? si)%nat then (j - 1)%nat else j)); auto.
    + intros j Hj. destruct (Nat.ltb_spec j di); [split; auto|]. destruct (Nat.eqb_spec j di) as [->|].
      * split; [lia|apply Hat].
      * destruct (Nat.leb_spec j si); (split; [lia|]); [apply Hmid|apply Hhigh]; lia.
    + intros a b Ha Hb. destruct (Nat.ltb_spec a di), (Nat.ltb_spec b di), (Nat.eqb_spec a di), (Nat.eqb_spec b di),
        (Nat.leb_spec a si), (Nat.leb_spec b si); lia.
  - apply perm_list_ext.
    + unfold l_insert_selected. rewrite !app_length, !firstn_length, !skipn_length, perm_list_length. cbn [length]. lia.
    + intros j Hj. unfold l_insert_selected. nthsimp. cbn [length].
      destruct (Nat.ltb_spec j (Nat.min di W)).
      { rewrite nth_firstn' by lia. rewrite perm_list_nth by lia. apply Hlow. lia. }
      destruct (Nat.ltb_spec (j - Nat.min di W) 1).
      { replace (j - Nat.min di W)%nat with 0%nat by lia. cbn [nth]. rewrite perm_list_nth by lia.
        replace j with di by lia. apply Hat. }
      destruct (Nat.ltb_spec (j - Nat.min di W - 1) (Nat.min (si - di) (W - di))).
      { rewrite nth_firstn' by lia. rewrite nth_skipn', perm_list_nth by lia. rewrite Hmid by lia. f_equal. lia. }
      rewrite perm_list_nth by lia. rewrite Hhigh by lia. f_equal. lia.
Qed.

Lemma ok_remove x i : perm_ok x -> (i < perm_size x)%nat ->
  perm_ok (perm_remove W x i) /\
  perm_list W (perm_remove W x i) = l_remove (perm_list W x) (perm_size x) i /\
  perm_size (perm_remove W x i) = (perm_size x - 1)%nat.
Proof.
  intros (Hx & Hs & Hp) Hi.
  pose proof (rm_word W HW x i Hx) as Hw.
  pose proof (rm_size W HW x i Hx Hs Hi) as Hsz.
  pose proof (rm_low W HW x i Hx Hs Hi) as Hlow.
  pose proof (rm_mid W HW x i Hs Hi) as Hmid.
  pose proof (rm_at W HW x i Hx Hs Hi) as Hat.
  pose proof (rm_high W HW x i Hx Hs Hi) as Hhigh.
  set (y := perm_remove W x i) in *. set (s := perm_size x) in *. split; [|split]; auto.
  - split; [auto|split; [lia|]]. apply pinj_iff. apply pinj_iff in Hp.
    apply (pinj_reindex x y (fun j => if (j <? i)%nat then j else if (j <? s - 1)%nat then S j else if (j =? s - 1)%nat then i else j)); auto.
    + intros j Hj. destruct (Nat.ltb_spec j i); [split; auto|]. destruct (Nat.ltb_spec j (s - 1)).
      * split; [lia|apply Hmid; lia].
      * destruct (Nat.eqb_spec j (s - 1)) as [->|]; (split; [lia|]); [apply Hat|apply Hhigh; lia].
    + intros a b Ha Hb. destruct (Nat.ltb_spec a i), (Nat.ltb_spec b i), (Nat.ltb_spec a (s-1)), (Nat.ltb_spec b (s-1)),
        (Nat.eqb_spec a (s-1)), (Nat.eqb_spec b (s-1)); lia.
  - apply perm_list_ext.
    + unfold l_remove. rewrite !app_length, !firstn_length, !skipn_length, perm_list_length. cbn [length]. lia.
    + intros j Hj. unfold l_remove. nthsimp. cbn [length].
      destruct (Nat.ltb_spec j (Nat.min i W)).
      { rewrite nth_firstn' by lia. rewrite perm_list_nth by lia. apply Hlow. lia. }
      destruct (Nat.ltb_spec (j - Nat.min i W) (Nat.min (s - 1 - i) (W - S i))).
      { rewrite nth_firstn' by lia. rewrite nth_skipn', perm_list_nth by lia. rewrite Hmid by lia. f_equal. lia. }
      destruct (Nat.ltb_spec (j - Nat.min i W - Nat.min (s - 1 - i) (W - S i)) 1).
      { replace (j - Nat.min i W - Nat.min (s - 1 - i) (W - S i))%nat with 0%nat by lia. cbn [nth].
        rewrite perm_list_nth by lia. replace j with (s - 1)%nat by lia. apply Hat. }
      rewrite perm_list_nth by lia. rewrite Hhigh by lia. f_equal. lia.
Qed.

Lemma ok_remove_to_back x i : perm_ok x -> (i < perm_size x)%nat ->
  perm_ok (perm_remove_to_back W x i) /\
  perm_list W (perm_remove_to_back W x i) = l_remove_to_back (perm_list W x) i /\
  perm_size (perm_remove_to_back W x i) = (perm_size x - 1)%nat.
Proof.
  intros (Hx & Hs & Hp) Hi.
  pose proof (rtb_word W HW x i Hx) as Hw.
  pose proof (rtb_size W HW x i Hx Hs Hi) as Hsz.
  pose proof (rtb_low W HW x i Hx Hs Hi) as Hlow.
  pose proof (rtb_mid W HW x i Hs Hi) as Hmid.
  pose proof (rtb_back W HW x i Hs Hi) as Hat.
  set (y := perm_remove_to_back W x i) in *. split; [|split]; auto.
  - split; [auto|split; [lia|]]. apply pinj_iff. apply pinj_iff in Hp.
    apply (pinj_reindex x y (fun j => if (j <? i)%nat then j else if (j <? W - 1)%nat then S j else i)); auto.
    + intros j Hj. destruct (Nat.ltb_spec j i); [split; auto|]. destruct (Nat.ltb_spec j (W - 1)).
      * split; [lia|apply Hmid; lia].
      * split; [lia|]. replace j with (W - 1)%nat by lia. apply Hat.
    + intros a b Ha Hb. destruct (Nat.ltb_spec a i), (Nat.ltb_spec b i), (Nat.ltb_spec a (W-1)), (Nat.ltb_spec b (W-1)); lia.
  - apply perm_list_ext.
    + unfold l_remove_to_back. rewrite !app_length, !firstn_length, !skipn_length, perm_list_length. cbn [length]. lia.
    + intros j Hj. unfold l_remove_to_back. nthsimp. cbn [length].
      destruct (Nat.ltb_spec j (Nat.min i W)).
      { rewrite nth_firstn' by lia. rewrite perm_list_nth by lia. apply Hlow. lia. }
      destruct (Nat.ltb_spec (j - Nat.min i W) (W - S i)).
      { rewrite perm_list_nth by lia. rewrite Hmid by lia. f_equal. lia. }
      replace (j - Nat.min i W - (W - S i))%nat with 0%nat by lia. cbn [nth].
      rewrite perm_list_nth by lia. replace j with (W - 1)%nat by lia. apply Hat.
Qed.

Lemma ok_exchange x i j : perm_ok x -> (i < W)%nat -> (j < W)%nat ->
  perm_ok (perm_exchange W x i j) /\
  perm_list W (perm_exchange W x i j) = l_exchange (perm_list W x) i j /\
  perm_size (perm_exchange W x i j) = perm_size x.
Proof.
  intros (Hx & Hs & Hp) Hi Hj.
  pose proof (ex_word W HW x i j Hx) as Hw.
  pose proof (ex_size W HW x i j Hi Hj) as Hsz.
  pose proof (ex_get W HW x i j Hi Hj) as Hg.
  set (y := perm_exchange W x i j) in *. split; [|split]; auto.
  - split; [auto|split; [lia|]]. apply pinj_iff. apply pinj_iff in Hp.
    apply (pinj_reindex x y (fun k => if (k =? i)%nat then j else if (k =? j)%nat then i else k)); auto.
    + intros k Hk. rewrite Hg by auto. destruct (k =? i)%nat; auto. destruct (k =? j)%nat; auto.
    + intros a b Ha Hb. destruct (Nat.eqb_spec a i), (Nat.eqb_spec b i), (Nat.eqb_spec a j), (Nat.eqb_spec b j); lia.
  - apply perm_list_ext.
    + unfold l_exchange. now rewrite map_length, seq_length, perm_list_length.
    + intros k Hk. unfold l_exchange. rewrite perm_list_length.
      set (f := fun k0 : nat => _).
      rewrite nth_indep with (d' := f 0%nat) by now rewrite map_length, seq_length.
      rewrite map_nth, seq_nth by auto. unfold f. cbn [Nat.add]. rewrite Hg by auto.
      destruct (k =? i)%nat; [rewrite perm_list_nth by auto; auto|].
      destruct (k =? j)%nat; rewrite perm_list_nth by auto; auto.
Qed.

Lemma ok_exchange_values x a b : perm_ok x -> (a < W)%nat -> (b < W)%nat ->
  pword W (perm_exchange_values W x a b) ->
  perm_ok (perm_exchange_values W x a b) /\
  perm_list W (perm_exchange_values W x a b) =
    map (fun v => if (v =? a)%nat then b else if (v =? b)%nat then a else v) (perm_list W x) /\
  perm_size (perm_exchange_values W x a b) = perm_size x.
Proof.
  intros (Hx & Hs & Hp) Ha Hb Hw.
  pose proof (xv_size W HW x a b ltac:(lia) ltac:(lia)) as Hsz.
  pose proof (xv_get W HW x a b ltac:(lia) ltac:(lia)) as Hg. cbv zeta in Hg.
  set (y := perm_exchange_values W x a b) in *. split; [|split]; auto.
  - split; [auto|split; [lia|]]. apply pinj_iff. apply pinj_iff in Hp. destruct Hp as [P1 P2]. split.
    + intros j Hj. rewrite Hg by auto. specialize (P1 j Hj). destruct (_ =? _)%nat; auto. destruct (_ =? _)%nat; auto.
    + intros i j Hi Hj. rewrite !Hg by auto. intros E. apply P2; auto.
      destruct (Nat.eqb_spec (perm_get x i) a), (Nat.eqb_spec (perm_get x j) a),
        (Nat.eqb_spec (perm_get x i) b), (Nat.eqb_spec (perm_get x j) b); lia.
  - unfold perm_list. rewrite map_map. apply map_ext_in. intros j Hj. apply in_seq in Hj. apply Hg. lia.
Qed.

Lemma xv_loop_word : forall k a b diff p, pword W diff -> pword W (perm_xv_loop W k a b diff p).
Proof.
  induction k; intros; cbn [perm_xv_loop]; auto. apply IHk. apply pwrap_word; auto.
Qed.
Lemma ok_exchange_values' x a b : perm_ok x -> (a < W)%nat -> (b < W)%nat ->
  perm_ok (perm_exchange_values W x a b) /\
  perm_list W (perm_exchange_values W x a b) =
    map (fun v => if (v =? a)%nat then b else if (v =? b)%nat then a else v) (perm_list W x) /\
  perm_size (perm_exchange_values W x a b) = perm_size x.
Proof.
  intros H Ha Hb. apply ok_exchange_values; auto. destruct H as [Hx _].
  unfold perm_exchange_values. apply pword_lxor; auto. apply xv_loop_word.
  apply small_word; auto. split; [lia|reflexivity].
Qed.

Lemma ok_set_size x n : perm_ok x -> (n <= W)%nat ->
  perm_ok (perm_set_size W x n) /\ perm_list W (perm_set_size W x n) = perm_list W x /\
  perm_size (perm_set_size W x n) = n.
Proof.
  intros (Hx & Hs & Hp) Hn.
  assert (E : perm_list W (perm_set_size W x n) = perm_list W x).
  { unfold perm_list. apply map_ext_in. intros j Hj. apply in_seq in Hj. apply ss_get; lia. }
  split; [|split]; auto.
  - split; [now apply ss_word|]. split; [rewrite ss_size by auto; lia|]. now rewrite E.
  - now apply ss_size.
Qed.

Lemma rotate_actual x i j : perm_ok x -> (i <= j)%nat -> (j <= perm_size x)%nat ->
  perm_ok (perm_rotate W x i j) /\ perm_size (perm_rotate W x i j) = perm_size x /\
  (forall k, (k < i)%nat -> perm_get (perm_rotate W x i j) k = perm_get x k) /\
  (forall k, (i <= k < W)%nat -> perm_get (perm_rotate W x i j) k = perm_get x (i + (k - i + (j - i)) mod (W - i))).
Proof.
  intros (Hx & Hs & Hp) Hij Hj.
  pose proof (rot_word W HW x i j Hx) as Hw.
  pose proof (rot_size W HW x i j Hij ltac:(lia) Hs) as Hsz.
  pose proof (rot_low W HW x i j Hij ltac:(lia) Hs) as Hlow.
  pose proof (rot_high W HW x i j Hij ltac:(lia) Hs) as Hhigh.
  set (y := perm_rotate W x i j) in *.
  assert (Hh : forall k, (i <= k < W)%nat -> perm_get y k = perm_get x (i + (k - i + (j - i)) mod (W - i))).
  { intros k Hk. rewrite Hhigh by auto. f_equal. destruct (Nat.ltb_spec (k + (j - i)) W).
    - rewrite Nat.mod_small by lia. lia.
    - replace ((k - i + (j - i)) mod (W - i))%nat with (k - i + (j - i) - (W - i))%nat; [lia|].
      symmetry. rewrite (Nat.mod_eq (k - i + (j - i)) (W - i)) by lia.
      destruct (Nat.eq_dec (k + (j - i) - W) (W - i)) as [E|E].
      + lia.
      + replace ((k - i + (j - i)) / (W - i))%nat with 1%nat; [lia|].
        apply Nat.div_unique with (r := (k - i + (j - i) - (W - i))%nat); lia. }
  split; [|split; [|split]]; auto.
  split; [auto|split; [lia|]]. apply pinj_iff. apply pinj_iff in Hp.
  apply (pinj_reindex x y (fun k => if (k <? i)%nat then k else if (k + (j - i) <? W)%nat then k + (j - i) else k + (j - i) - (W - i))%nat); auto.
  - intros k Hk. destruct (Nat.ltb_spec k i); [split; auto|].
    rewrite Hhigh by lia. split; auto. destruct (Nat.ltb_spec (k + (j - i)) W); lia.
  - intros a b Ha Hb. destruct (Nat.ltb_spec a i), (Nat.ltb_spec b i), (Nat.ltb_spec (a + (j - i)) W), (Nat.ltb_spec (b + (j - i)) W); lia.
Qed.

End P2.

(* make_empty and make_sorted: the complete finite domain (15 widths, at most 16 sizes each) is computed. *)
Definition sorted_check (W n : nat) : bool :=
  let x := perm_make_sorted W n in
  (0 <=? x) && (x <? 2 ^ pbits W) && (perm_size x =? n)%nat &&
  forallb (fun j => (perm_get x j =? (if (j <? n)%nat then j else W - 1 - (j - n)))%nat) (seq 0 W).

Lemma sorted_all : forallb (fun W => forallb (fun n => sorted_check W n) (seq 0 (S W))) (seq 1 15) = true.
Proof. vm_compute. reflexivity. Qed.

Lemma empty_all : forallb (fun W => perm_empty W =? perm_make_sorted W 0) (seq 1 15) = true.
Proof. vm_compute. reflexivity. Qed.

Lemma make_sorted_spec W n : (1 <= W <= 15)%nat -> (n <= W)%nat ->
  perm_ok W (perm_make_sorted W n) /\ perm_size (perm_make_sorted W n) = n /\
  (forall j, (j < n)%nat -> perm_get (perm_make_sorted W n) j = j) /\
  (forall j, (n <= j < W)%nat -> perm_get (perm_make_sorted W n) j = (W - 1 - (j - n))%nat).
Proof.
  intros HW Hn. pose proof sorted_all as H. rewrite forallb_forall in H.
  specialize (H W ltac:(apply in_seq; lia)). rewrite forallb_forall in H.
  specialize (H n ltac:(apply in_seq; lia)). unfold sorted_check in H.
  rewrite !andb_true_iff in H. destruct H as (((H1 & H2) & H3) & H4).
  rewrite forallb_forall in H4. apply Nat.eqb_eq in H3.
  assert (G : forall j, (j < W)%nat -> perm_get (perm_make_sorted W n) j = if (j <? n)%nat then j else (W - 1 - (j - n))%nat).
  { intros j Hj. apply Nat.eqb_eq. apply H4. apply in_seq. lia. }
  split; [|split; [auto|split]].
  - split; [unfold pword; lia|]. split; [lia|]. apply (pinj_iff W HW). split.
    + intros j Hj. rewrite G by auto. destruct (Nat.ltb_spec j n); lia.
    + intros i j Hi Hj. rewrite !G by auto. destruct (Nat.ltb_spec i n), (Nat.ltb_spec j n); lia.
  - intros j Hj. rewrite G by lia. destruct (Nat.ltb_spec j n); lia.
  - intros j Hj. rewrite G by lia. destruct (Nat.ltb_spec j n); lia.
Qed.

Lemma empty_sorted W : (1 <= W <= 15)%nat -> perm_empty W = perm_make_sorted W 0.
Proof.
  intros HW. pose proof empty_all as H. rewrite forallb_forall in H.
  apply Z.eqb_eq. apply H. apply in_seq. lia.
Qed.

(* ---- documented contracts, positionwise ---- *)
Lemma doc_insert_from_back W p i : (1 <= W <= 15)%nat -> perm_ok W p -> (perm_size p < W)%nat -> (i < W)%nat ->
  let q := perm_insert_from_back W p i in
  let x := perm_back W p in
  perm_ok W q /\ perm_size q = S (perm_size p) /\
  (forall j, (j < i)%nat -> perm_get q j = perm_get p j /\ perm_get q j <> x) /\
  perm_get q i = x /\
  (forall j, (i < j < W)%nat -> perm_get q j = perm_get p (j - 1) /\ perm_get q j <> x).
Proof.
  intros HW Hp Hs Hi q x. destruct (ok_insert_from_back W HW p i Hp Hs Hi) as (Hok & _ & Hsz).
  pose proof Hp as (Hx & _ & HP). apply (pinj_iff W HW) in HP. destruct HP as [_ Hinj].
  split; [auto|]. split; [auto|]. split; [|split].
  - intros j Hj. unfold q, x. rewrite (ifb_low W HW) by (auto; lia). split; auto.
    intros E. apply Hinj in E; lia.
  - apply ifb_at; auto.
  - intros j Hj. unfold q, x. rewrite (ifb_high W HW) by (auto; lia). split; auto.
    intros E. apply Hinj in E; lia.
Qed.

Lemma doc_insert_selected W p di si : (1 <= W <= 15)%nat -> perm_ok W p ->
  (perm_size p < W)%nat -> (di <= si)%nat -> (si < W)%nat ->
  let q := perm_insert_selected W p di si in
  perm_ok W q /\ perm_size q = S (perm_size p) /\
  (forall j, (j < di)%nat -> perm_get q j = perm_get p j) /\
  perm_get q di = perm_get p si /\
  (forall j, (di < j <= si)%nat -> perm_get q j = perm_get p (j - 1)) /\
  (forall j, (si < j < W)%nat -> perm_get q j = perm_get p j).
Proof.
  intros HW Hp Hs Hd Hsi q. destruct (ok_insert_selected W HW p di si Hp Hs Hd Hsi) as (Hok & _ & Hsz).
  destruct Hp as (Hx & _). repeat split; auto; try apply Hok.
  - intros. apply isel_low; auto.
  - apply isel_at; auto.
  - intros. apply isel_mid; auto.
  - intros. apply isel_high; auto.
Qed.

Lemma doc_remove W p i : (1 <= W <= 15)%nat -> perm_ok W p -> (i < perm_size p)%nat ->
  let q := perm_remove W p i in
  perm_ok W q /\ perm_size q = (perm_size p - 1)%nat /\
  (forall j, (j < i)%nat -> perm_get q j = perm_get p j) /\
  (forall j, (i <= j < perm_size q)%nat -> perm_get q j = perm_get p (S j)) /\
  perm_get q (perm_size q) = perm_get p i /\
  (forall j, (perm_size p <= j < W)%nat -> perm_get q j = perm_get p j).
Proof.
  intros HW Hp Hi q. destruct (ok_remove W HW p i Hp Hi) as (Hok & _ & Hsz). fold q in Hsz, Hok.
  destruct Hp as (Hx & Hs & _). rewrite Hsz. repeat split; auto; try apply Hok.
  - intros. apply rm_low; auto.
  - intros. apply rm_mid; auto; lia.
  - apply rm_at; auto.
  - intros. apply rm_high; auto.
Qed.

Lemma doc_remove_to_back W p i : (1 <= W <= 15)%nat -> perm_ok W p -> (i < perm_size p)%nat ->
  let q := perm_remove_to_back W p i in
  perm_ok W q /\ perm_size q = (perm_size p - 1)%nat /\
  (forall j, (j < i)%nat -> perm_get q j = perm_get p j) /\
  (forall j, (i <= j < W - 1)%nat -> perm_get q j = perm_get p (S j)) /\
  perm_back W q = perm_get p i.
Proof.
  intros HW Hp Hi q. destruct (ok_remove_to_back W HW p i Hp Hi) as (Hok & _ & Hsz).
  destruct Hp as (Hx & Hs & _). repeat split; auto; try apply Hok.
  - intros. apply rtb_low; auto.
  - intros. apply rtb_mid; auto; lia.
  - apply rtb_back; auto.
Qed.

Lemma doc_make_sorted W n : (1 <= W <= 15)%nat -> (n <= W)%nat ->
  let q := perm_make_sorted W n in
  perm_ok W q /\ perm_size q = n /\
  (forall i, (i < n)%nat -> perm_get q i = i) /\
  (forall k, (n <= k < W)%nat -> perm_get q (W - 1 - (k - n)) = k) /\
  (n = 0%nat -> perm_empty W = q).
Proof.
  intros HW Hn q. destruct (make_sorted_spec W n HW Hn) as (A & B & C & D). fold q in A, B, C, D.
  split; [auto|]. split; [auto|]. split; [auto|]. split.
  - intros k Hk. rewrite D by lia. lia.
  - intros ->. apply empty_sorted; auto.
Qed.

Lemma doc_exchange W p i j : (1 <= W <= 15)%nat -> perm_ok W p -> (i < W)%nat -> (j < W)%nat ->
  let q := perm_exchange W p i j in
  perm_ok W q /\ perm_size q = perm_size p /\ perm_get q i = perm_get p j /\ perm_get q j = perm_get p i /\
  (forall k, (k < W)%nat -> k <> i -> k <> j -> perm_get q k = perm_get p k).
Proof.
  intros HW Hp Hi Hj q. destruct (ok_exchange W HW p i j Hp Hi Hj) as (Hok & _ & Hsz).
  split; [auto|]. split; [auto|]. unfold q. rewrite !(ex_get W HW) by auto.
  rewrite Nat.eqb_refl. split; [auto|]. split.
  - rewrite Nat.eqb_refl. destruct (Nat.eqb_spec j i); subst; auto.
  - intros k Hk Hki Hkj. rewrite (ex_get W HW) by auto.
    apply Nat.eqb_neq in Hki, Hkj. now rewrite Hki, Hkj.
Qed.

Lemma doc_exchange_values W p a b : (1 <= W <= 15)%nat -> perm_ok W p -> (a < W)%nat -> (b < W)%nat ->
  let q := perm_exchange_values W p a b in
  perm_ok W q /\ perm_size q = perm_size p /\
  (forall k, (k < W)%nat ->
     (perm_get p k = a -> perm_get q k = b) /\ (perm_get p k = b -> perm_get q k = a) /\
     (perm_get p k <> a -> perm_get p k <> b -> perm_get q k = perm_get p k)).
Proof.
  intros HW Hp Ha Hb q. destruct (ok_exchange_values' W HW p a b Hp Ha Hb) as (Hok & _ & Hsz).
  split; [auto|]. split; [auto|]. intros k Hk. unfold q.
  rewrite (xv_get W HW) by (auto; lia). cbv zeta.
  destruct (Nat.eqb_spec (perm_get p k) a), (Nat.eqb_spec (perm_get p k) b); subst; repeat split; intros; try congruence.
Qed.

(* Any sequence of updates. *)
Inductive perm_op : Type :=
| PIns (i : nat) | PSel (di si : nat) | PRem (i : nat) | PRtb (i : nat) | PExch (i j : nat) | PVal (a b : nat) | PRot (i j : nat).
Definition perm_step (W : nat) (x : Z) (o : perm_op) : Z :=
  match o with
  | PIns i => perm_insert_from_back W x i | PSel di si => perm_insert_selected W x di si
  | PRem i => perm_remove W x i | PRtb i => perm_remove_to_back W x i
  | PExch i j => perm_exchange W x i j | PVal a b => perm_exchange_values W x a b
  | PRot i j => perm_rotate W x i j
  end.
(* The documented preconditions. *)
Definition perm_pre (W : nat) (x : Z) (o : perm_op) : Prop :=
  match o with
  | PIns i => (perm_size x < W /\ i < W)%nat
  | PSel di si => (perm_size x < W /\ di <= si /\ perm_size x <= si < W)%nat
  | PRem i | PRtb i => (i < perm_size x)%nat
  | PExch i j | PVal i j => (i < W /\ j < W)%nat
  | PRot i j => (i <= j <= perm_size x)%nat
  end.
Fixpoint perm_runs (W : nat) (x : Z) (l : list perm_op) : Prop :=
  match l with [] => True | o :: l' => perm_pre W x o /\ perm_runs W (perm_step W x o) l' end.

Lemma perm_step_ok W x o : (1 <= W <= 15)%nat -> perm_ok W x -> perm_pre W x o -> perm_ok W (perm_step W x o).
Proof.
  intros HW Hx. destruct o; cbn [perm_pre perm_step]; intros H.
  - apply ok_insert_from_back; tauto.
  - apply ok_insert_selected; tauto.
  - apply ok_remove; tauto.
  - apply ok_remove_to_back; tauto.
  - apply ok_exchange; tauto.
  - apply ok_exchange_values'; tauto.
  - apply rotate_actual; tauto.
Qed.
Lemma perm_runs_ok W : (1 <= W <= 15)%nat -> forall l x, perm_ok W x -> perm_runs W x l ->
  perm_ok W (fold_left (perm_step W) l x).
Proof.
  intros HW. induction l as [|o l IH]; intros x Hx Hr; cbn in *; auto.
  destruct Hr. apply IH; auto. now apply perm_step_ok.
Qed.
