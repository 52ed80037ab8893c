(** Lists, memory and reference counts of the String model. *)

From Coq Require Import List ZArith Lia Bool.
From Verif Require Import M_StringRep Spec_StringRep.
Import ListNotations.
Open Scope Z_scope.

(** ** Lists *)

Lemma put_length {A} (l : list A) i a : length (put l i a) = length l.
Proof. revert i; induction l; intros [|i]; simpl; auto. Qed.

Lemma put_same {A} (l : list A) i a : (i < length l)%nat -> nth_error (put l i a) i = Some a.
Proof.
  revert i; induction l; intros [|i] H; simpl in *; try lia; auto. apply IHl; lia.
Qed.

Lemma put_other {A} (l : list A) i j a : i <> j -> nth_error (put l i a) j = nth_error l j.
Proof.
  revert i j; induction l; intros [|i] [|j] H; simpl; auto; try lia; try congruence.
Qed.

Lemma nth_put {A} (l : list A) i j a :
  nth_error (put l i a) j =
  if Nat.eqb i j then (if Nat.ltb j (length l) then Some a else None) else nth_error l j.
Proof.
  destruct (Nat.eqb_spec i j) as [->|H].
  - destruct (Nat.ltb_spec j (length l)).
    + apply put_same; auto.
    + apply nth_error_None. rewrite put_length. auto.
  - apply put_other; auto.
Qed.

Lemma nth_lt {A} (l : list A) i x : nth_error l i = Some x -> (i < length l)%nat.
Proof. intros H. apply nth_error_Some. congruence. Qed.

Lemma len_nonneg l : 0 <= len l.
Proof. unfold len; lia. Qed.

Lemma len_app a b : len (a ++ b) = len a + len b.
Proof. unfold len. rewrite app_length. lia. Qed.

Lemma sub_len l o n : 0 <= o -> 0 <= n -> o + n <= len l -> len (sub l o n) = n.
Proof.
  intros. unfold sub, len in *. rewrite firstn_length, skipn_length. lia.
Qed.

Lemma sub_all l : sub l 0 (len l) = l.
Proof. unfold sub, len. rewrite Nat2Z.id. simpl. apply firstn_all. Qed.

Lemma sub_sub l o n i k : 0 <= o -> 0 <= i -> 0 <= k -> i + k <= n ->
  sub (sub l o n) i k = sub l (o + i) k.
Proof.
  intros. unfold sub.
  rewrite skipn_firstn_comm, firstn_firstn.
  rewrite Nat.min_l by lia.
  f_equal. rewrite <- (Nat2Z.id (Z.to_nat i)).
  rewrite Z2Nat.inj_add by lia.
  rewrite Nat2Z.id.
  generalize (Z.to_nat o) (Z.to_nat i). clear. intros o i. revert o.
  induction l as [|x l IH]; intros o.
  - now rewrite !skipn_nil.
  - destruct o as [|o]; simpl; auto.
Qed.

Lemma sub_app l o n k : 0 <= o -> 0 <= n -> 0 <= k ->
  sub l o (n + k) = sub l o n ++ sub l (o + n) k.
Proof.
  intros. unfold sub.
  rewrite !Z2Nat.inj_add by lia.
  generalize (Z.to_nat o) (Z.to_nat n) (Z.to_nat k). clear. intros o n k.
  revert o; induction l as [|x l IH]; intros o.
  - now rewrite !skipn_nil, !firstn_nil.
  - destruct o as [|o].
    + simpl (skipn 0 _). simpl (0 + n)%nat.
      rewrite <- (firstn_skipn n (x :: l)) at 1.
      rewrite firstn_app.
      rewrite firstn_length.
      destruct (Nat.le_gt_cases n (length (x :: l))).
      * rewrite Nat.min_l by auto.
        rewrite firstn_firstn, Nat.min_r by lia.
        f_equal. f_equal. lia.
      * rewrite Nat.min_r by lia.
        rewrite (skipn_all2 (n := n)) by lia. rewrite !firstn_nil, !app_nil_r.
        rewrite firstn_firstn, Nat.min_r by lia. auto.
    + simpl. apply IH.
Qed.

Lemma splice_length l o s : 0 <= o -> o + len s <= len l -> length (splice l o s) = length l.
Proof.
  intros. unfold splice, len in *. rewrite !app_length, firstn_length, skipn_length. lia.
Qed.

Lemma splice_len l o s : 0 <= o -> o + len s <= len l -> len (splice l o s) = len l.
Proof. intros. unfold len at 1. rewrite splice_length; auto. Qed.

Lemma splice_before l o s i n : 0 <= i -> 0 <= n -> i + n <= o -> o + len s <= len l ->
  sub (splice l o s) i n = sub l i n.
Proof.
  intros. unfold sub, splice, len in *.
  rewrite skipn_app, firstn_app.
  rewrite skipn_length, firstn_length.
  replace (Z.to_nat n - _)%nat with 0%nat by lia.
  simpl (firstn 0 _). rewrite app_nil_r.
  rewrite skipn_firstn_comm, firstn_firstn. rewrite Nat.min_l by lia. auto.
Qed.

Lemma splice_at l o s : 0 <= o -> o + len s <= len l -> sub (splice l o s) o (len s) = s.
Proof.
  intros. unfold sub, splice, len in *.
  rewrite skipn_app.
  rewrite firstn_length.
  rewrite skipn_all2 by (rewrite firstn_length; lia).
  replace (Z.to_nat o - _)%nat with 0%nat by lia.
  simpl. rewrite firstn_app.
  rewrite Nat2Z.id, firstn_all, Nat.sub_diag. simpl. apply app_nil_r.
Qed.

(** ** The reference counts *)

Definition one (m : option nat) (b : nat) : Z :=
  match m with Some b' => if Nat.eqb b' b then 1 else 0 | None => 0 end.

Lemma one_range m b : 0 <= one m b <= 1.
Proof. unfold one. destruct m; try lia. destruct (Nat.eqb n b); lia. Qed.

Lemma one_self b : one (Some b) b = 1.
Proof. unfold one. now rewrite Nat.eqb_refl. Qed.

Lemma one_other b b' : b <> b' -> one (Some b) b' = 0.
Proof. intros. unfold one. destruct (Nat.eqb_spec b b'); congruence. Qed.

Definition blk_ok (x : memo) (c a : Z) : Prop :=
  0 < m_cap x < 2 ^ 31 - 12 /\ len (m_buf x) = m_cap x /\
  ((0 < c /\ m_refs x = c /\ a = 0 /\ 0 <= m_dirty x <= m_cap x) \/ (c = 0 /\ a = 1)).

(** [c] Strings and [a] StringAccums refer to each block. *)
Definition heap_ok (h : heap) (c a : nat -> Z) : Prop :=
  forall b, 0 <= c b < 2 ^ 32 /\
    match nth_error h b with
    | Some (Some x) => blk_ok x (c b) (a b)
    | _ => c b = 0 /\ a b = 0
    end.

Lemma heap_ok_ext h c a c' a' :
  heap_ok h c a -> (forall b, c' b = c b) -> (forall b, a' b = a b) -> heap_ok h c' a'.
Proof. intros H E E' b. rewrite E, E'. apply H. Qed.

Lemma heap_ok_live h c a b : heap_ok h c a -> 0 < c b -> exists x,
  nth_error h b = Some (Some x) /\ 0 < m_cap x < 2 ^ 31 - 12 /\ len (m_buf x) = m_cap x /\
  m_refs x = c b /\ a b = 0 /\ 0 <= m_dirty x <= m_cap x.
Proof.
  intros H P. destruct (H b) as [_ K].
  destruct (nth_error h b) as [[x|]|]; try lia.
  destruct K as (K1 & K2 & [K3|K3]); try lia.
  exists x. intuition.
Qed.

Lemma heap_ok_acc h c a b : heap_ok h c a -> 0 < a b -> exists x,
  nth_error h b = Some (Some x) /\ 0 < m_cap x < 2 ^ 31 - 12 /\ len (m_buf x) = m_cap x /\
  c b = 0 /\ a b = 1.
Proof.
  intros H P. destruct (H b) as [_ K].
  destruct (nth_error h b) as [[x|]|]; try lia.
  destruct K as (K1 & K2 & [K3|K3]); try lia.
  exists x. intuition.
Qed.

(** ** What Strings may do to memory

    Freed blocks stay freed; what lies below the dirty mark of a live block stays; the
    blocks of StringAccums are not touched. *)
Definition grows (a : nat -> Z) (h h' : heap) : Prop :=
  (length h <= length h')%nat /\
  forall b, (b < length h)%nat ->
    match nth_error h b, nth_error h' b with
    | Some (Some x), Some (Some x') =>
      m_cap x' = m_cap x /\ m_dirty x <= m_dirty x' /\
      (forall o n, 0 <= o -> 0 <= n -> o + n <= m_dirty x ->
         sub (m_buf x') o n = sub (m_buf x) o n)
    | Some None, y => y = Some None
    | _, _ => True
    end /\
    (0 < a b -> nth_error h' b = nth_error h b).

Lemma grows_refl a h : grows a h h.
Proof.
  split; auto. intros b L. split; auto.
  destruct (nth_error h b) as [[x|]|]; auto. split; auto. split; auto. lia.
Qed.

Lemma grows_trans a h h' h'' : grows a h h' -> grows a h' h'' -> grows a h h''.
Proof.
  intros [L1 G1] [L2 G2]. split; [lia|].
  intros b L. destruct (G1 b L) as [A1 B1].
  destruct (G2 b) as [A2 B2]; [lia|].
  split.
  - destruct (nth_error h b) as [[x|]|] eqn:E; auto.
    + destruct (nth_error h'' b) as [[x''|]|] eqn:E''; auto.
      destruct (nth_error h' b) as [[x'|]|] eqn:E'; auto.
      * destruct A1 as (C1 & D1 & S1), A2 as (C2 & D2 & S2).
        split; [lia|]. split; [lia|].
        intros o n Ho Hn Hs. rewrite S2, S1; auto. lia.
      * congruence.
      * apply nth_error_None in E'. lia.
    + rewrite A1 in A2. auto.
  - intros P. rewrite B2, B1; auto.
Qed.

(** ** Values *)

Definition val (h : heap) (r : rep) (l : list Z) : Prop :=
  length_ r = len l /\
  match memo_ r, data r with
  | Some b, PM b' o =>
    b' = b /\ exists x, nth_error h b = Some (Some x) /\ 0 <= o /\
    o + length_ r <= m_dirty x /\ sub (m_buf x) o (length_ r) = l
  | None, PS s o => 0 <= o /\ o + length_ r < len s /\ sub s o (length_ r) = l
  | _, _ => False
  end.

Lemma val_grows a h h' r l c' a' :
  grows a h h' -> val h r l -> heap_ok h' c' a' ->
  (forall b, memo_ r = Some b -> 0 < c' b) -> val h' r l.
Proof.
  intros [L G] [V1 V2] O' P. split; auto.
  destruct (memo_ r) as [b|] eqn:Em; auto.
  destruct (data r) as [b' o|]; auto.
  destruct V2 as (-> & x & E & Ho & Hd & Hs). split; auto.
  destruct (heap_ok_live _ _ _ b O' (P _ eq_refl)) as (x' & E' & _).
  exists x'. split; auto. split; auto.
  destruct (G b) as [A _]. { apply nth_lt in E; auto. }
  rewrite E, E' in A. destruct A as (_ & D & S).
  split; [lia|]. rewrite S; auto. rewrite V1. apply len_nonneg.
Qed.

(** Characters that may be copied: below the dirty mark of a block a String has, in a
    block of a StringAccum, or in memory of the user. *)
Definition given (h : heap) (c a : nat -> Z) (p : ptr) (n : Z) (l : list Z) : Prop :=
  len l = n /\
  match p with
  | PM b o => 0 <= o /\ exists x, nth_error h b = Some (Some x) /\ sub (m_buf x) o n = l /\
      o + n <= len (m_buf x) /\
      ((0 < c b /\ o + n <= m_dirty x) \/ 0 < a b)
  | PS s o => 0 <= o /\ o + n <= len s /\ sub s o n = l
  end.

Lemma load_given h c a p n l : given h c a p n l -> load h p n = Fine l.
Proof.
  intros [L G]. pose proof (len_nonneg l).
  destruct p as [b o|s o]; simpl.
  - destruct G as (Ho & x & E & S & B & _).
    unfold block. rewrite E. simpl.
    replace (0 <=? o) with true by lia. replace (0 <=? n) with true by lia.
    replace (o + n <=? len (m_buf x)) with true by lia. simpl. now rewrite S.
  - destruct G as (Ho & B & S).
    replace (0 <=? o) with true by lia. replace (0 <=? n) with true by lia.
    replace (o + n <=? len s) with true by lia. simpl. now rewrite S.
Qed.

Lemma given_grows h h' c c' a p n l :
  grows a h h' -> given h c a p n l -> heap_ok h c a -> heap_ok h' c' a ->
  (forall b o, p = PM b o -> 0 < c b -> 0 < c' b) -> given h' c' a p n l.
Proof.
  intros [L G] [V1 V2] O O' P. split; auto.
  destruct p as [b o|]; auto.
  destruct V2 as (Ho & x & E & S & B & C). split; auto.
  pose proof (len_nonneg l).
  destruct (G b) as [A A']. { apply nth_lt in E; auto. }
  destruct C as [[C C']|C].
  - specialize (P _ _ eq_refl C).
    destruct (heap_ok_live _ _ _ b O' P) as (x' & E' & Q1 & Q2 & Q3 & Q4 & Q5).
    rewrite E, E' in A. destruct A as (D1 & D2 & D3).
    exists x'. split; auto. split. { rewrite D3; auto. lia. }
    split. { lia. } left. split; auto. lia.
  - rewrite A' by auto. exists x. auto.
Qed.

(** ** The primitive steps *)

Lemma heap_ok_set h c a b x c' a' :
  heap_ok h c a -> (b < length h)%nat ->
  (forall d, d <> b -> c' d = c d) -> (forall d, d <> b -> a' d = a d) ->
  0 <= c' b < 2 ^ 32 ->
  match x with Some x => blk_ok x (c' b) (a' b) | None => c' b = 0 /\ a' b = 0 end ->
  heap_ok (put h b x) c' a'.
Proof.
  intros O L Ec Ea R X d. rewrite nth_put.
  destruct (Nat.eqb_spec b d) as [<-|N].
  - split; auto. destruct (Nat.ltb_spec b (length h)); try lia. destruct x; auto.
  - rewrite Ec, Ea by auto. apply O.
Qed.

Lemma grows_set a h b x y :
  nth_error h b = Some (Some x) -> a b = 0 ->
  match y with
  | None => True
  | Some x' => m_cap x' = m_cap x /\ m_dirty x <= m_dirty x' /\
      (forall o n, 0 <= o -> 0 <= n -> o + n <= m_dirty x ->
         sub (m_buf x') o n = sub (m_buf x) o n)
  end -> grows a h (put h b y).
Proof.
  intros E A Y. split. { rewrite put_length. auto. }
  intros d L. rewrite nth_put.
  destruct (Nat.eqb_spec b d) as [<-|N].
  - destruct (Nat.ltb_spec b (length h)); try lia. rewrite E.
    split; [|lia]. destruct y; auto.
  - split; auto. destruct (nth_error h d) as [[z|]|]; auto.
    split; auto. split; auto. lia.
Qed.

Lemma ref_ok h c a r :
  heap_ok h c a -> (forall b, memo_ r = Some b -> 0 < c b < 2 ^ 32 - 1) ->
  exists h', ref h r = Fine h' /\ heap_ok h' (fun b => c b + one (memo_ r) b) a /\
             grows a h h'.
Proof.
  intros O P. unfold ref. destruct (memo_ r) as [b|] eqn:Em.
  - specialize (P _ eq_refl).
    destruct (heap_ok_live _ _ _ b O) as (x & E & C & B & R & A & D); [lia|].
    unfold block. rewrite E. simpl. eexists. split; [reflexivity|]. split.
    + apply (heap_ok_set h c a); auto.
      * apply nth_lt in E; auto.
      * intros d N. cbn beta. unfold one. destruct (Nat.eqb_spec b d); try congruence. lia.
      * cbn beta. unfold one. rewrite Nat.eqb_refl. lia.
      * split; simpl; auto. split; auto. left. unfold one. rewrite Nat.eqb_refl.
        unfold u32. rewrite Z.mod_small by lia. lia.
    + eapply grows_set; eauto. simpl. split; auto. split; auto. lia.
  - exists h. split; auto. split; [|apply grows_refl].
    eapply heap_ok_ext; eauto. intros. simpl. lia.
Qed.

Lemma deref_ok h c a r :
  heap_ok h c a -> (forall b, memo_ r = Some b -> 0 < c b) ->
  exists h', deref h r = Fine h' /\ heap_ok h' (fun b => c b - one (memo_ r) b) a /\
             grows a h h'.
Proof.
  intros O P. unfold deref. destruct (memo_ r) as [b|] eqn:Em.
  - specialize (P _ eq_refl).
    destruct (heap_ok_live _ _ _ b O) as (x & E & C & B & R & A & D); [lia|].
    pose proof (proj1 (O b)) as U.
    unfold block. rewrite E. simpl bind. cbv zeta.
    assert (EU : u32 (m_refs x - 1) = c b - 1).
    { unfold u32. rewrite Z.mod_small by lia. lia. }
    rewrite EU. destruct (Z.eqb_spec (c b - 1) 0) as [Z0|Z0].
    + replace (0 <? m_cap x) with true by lia.
      replace (m_dirty x <=? m_cap x) with true by lia. simpl.
      unfold free, block. rewrite E. simpl. eexists. split; [reflexivity|]. split.
      * apply (heap_ok_set h c a); auto.
        -- apply nth_lt in E; auto.
        -- intros d N. unfold one. destruct (Nat.eqb_spec b d); try congruence. lia.
        -- unfold one. rewrite Nat.eqb_refl. lia.
        -- unfold one. rewrite Nat.eqb_refl. lia.
      * eapply grows_set; eauto.
    + eexists. split; [reflexivity|]. split.
      * apply (heap_ok_set h c a); auto.
        -- apply nth_lt in E; auto.
        -- intros d N. unfold one. destruct (Nat.eqb_spec b d); try congruence. lia.
        -- unfold one. rewrite Nat.eqb_refl. lia.
        -- split; simpl; auto. split; auto. left. unfold one. rewrite Nat.eqb_refl. lia.
      * eapply grows_set; eauto. simpl. split; auto. split; auto. lia.
  - exists h. split; auto. split; [|apply grows_refl].
    eapply heap_ok_ext; eauto. intros. simpl. lia.
Qed.

Definition fresh (cap dirty : Z) : memo :=
  {| m_refs := 1; m_cap := cap; m_dirty := dirty; m_buf := repeat junk (Z.to_nat cap) |}.

Lemma grows_app a h t : grows a h (h ++ t).
Proof.
  split. { rewrite app_length. lia. }
  intros b L. rewrite nth_error_app1 by auto. split; auto.
  destruct (nth_error h b) as [[x|]|]; auto. split; auto. split; auto. lia.
Qed.

Lemma len_repeat c n : 0 <= n -> len (repeat c (Z.to_nat n)) = n.
Proof. intros. unfold len. rewrite repeat_length. lia. Qed.

Lemma alloc_fine h cap d : 0 < cap < 2 ^ 31 - 12 -> 0 <= d <= cap ->
  alloc h cap d = Fine (h ++ [Some (fresh cap d)], length h).
Proof.
  intros C D. unfold alloc, int_of.
  replace (- 2 ^ 31 <=? cap + 12) with true by lia.
  replace (cap + 12 <? 2 ^ 31) with true by lia. simpl.
  replace (0 <? cap) with true by lia. replace (d <=? cap) with true by lia. reflexivity.
Qed.

Lemma alloc_str h c a cap d : heap_ok h c a -> 0 < cap < 2 ^ 31 - 12 -> 0 <= d <= cap ->
  heap_ok (h ++ [Some (fresh cap d)]) (fun b => c b + one (Some (length h)) b) a.
Proof.
  intros O C D b. unfold one.
  destruct (Nat.eqb_spec (length h) b) as [<-|N].
  - rewrite nth_error_app2 by auto. rewrite Nat.sub_diag. simpl.
    destruct (O (length h)) as [_ K].
    replace (nth_error h (length h)) with (@None (option memo)) in K
      by (symmetry; apply nth_error_None; auto).
    split; [lia|]. split; simpl; auto. split; [apply len_repeat; lia|]. left. lia.
  - destruct (O b) as [K K']. split; [lia|].
    destruct (Nat.lt_ge_cases b (length h)).
    + rewrite nth_error_app1 by auto.
      destruct (nth_error h b) as [[x|]|]; try lia.
      replace (c b + 0) with (c b) by lia. auto.
    + replace (nth_error (h ++ _) b) with (@None (option memo)).
      * replace (nth_error h b) with (@None (option memo)) in K'
          by (symmetry; apply nth_error_None; auto). lia.
      * symmetry. apply nth_error_None. rewrite app_length. simpl. lia.
Qed.

Lemma alloc_acc h c a cap d : heap_ok h c a -> 0 < cap < 2 ^ 31 - 12 -> 0 <= d <= cap ->
  heap_ok (h ++ [Some (fresh cap d)]) c (fun b => a b + one (Some (length h)) b).
Proof.
  intros O C D b. unfold one.
  destruct (Nat.eqb_spec (length h) b) as [<-|N].
  - rewrite nth_error_app2 by auto. rewrite Nat.sub_diag. simpl.
    destruct (O (length h)) as [_ K].
    replace (nth_error h (length h)) with (@None (option memo)) in K
      by (symmetry; apply nth_error_None; auto).
    split; [lia|]. split; simpl; auto. split; [apply len_repeat; lia|]. right. lia.
  - destruct (O b) as [K K']. split; [lia|].
    destruct (Nat.lt_ge_cases b (length h)).
    + rewrite nth_error_app1 by auto.
      destruct (nth_error h b) as [[x|]|]; try lia.
      replace (a b + 0) with (a b) by lia. auto.
    + replace (nth_error (h ++ _) b) with (@None (option memo)).
      * replace (nth_error h b) with (@None (option memo)) in K'
          by (symmetry; apply nth_error_None; auto). lia.
      * symmetry. apply nth_error_None. rewrite app_length. simpl. lia.
Qed.

Definition written (x : memo) (o : Z) (s : list Z) : memo :=
  {| m_refs := m_refs x; m_cap := m_cap x; m_dirty := m_dirty x;
     m_buf := splice (m_buf x) o s |}.

Lemma store_fine h b x o s :
  nth_error h b = Some (Some x) -> 0 <= o -> o + len s <= len (m_buf x) ->
  store h b o s = Fine (put h b (Some (written x o s))).
Proof.
  intros E Ho Hs. unfold store, block. rewrite E. simpl.
  replace (0 <=? o) with true by lia.
  replace (o + len s <=? len (m_buf x)) with true by lia. reflexivity.
Qed.

Lemma store_ok h c a b x o s :
  heap_ok h c a -> nth_error h b = Some (Some x) -> 0 <= o -> o + len s <= len (m_buf x) ->
  heap_ok (put h b (Some (written x o s))) c a.
Proof.
  intros O E Ho Hs. apply (heap_ok_set h c a); auto.
  - apply nth_lt in E; auto.
  - apply O.
  - destruct (O b) as [_ K]. rewrite E in K. destruct K as (K1 & K2 & K3).
    split; simpl; auto. split; auto. rewrite splice_len; auto.
Qed.

(** A block made since [h] may be written as one likes. *)
Lemma grows_fresh a h h' b y : grows a h h' -> (length h <= b)%nat -> grows a h (put h' b y).
Proof.
  intros [L G] B. split. { rewrite put_length; auto. }
  intros d D. rewrite put_other by lia. apply G; auto.
Qed.
