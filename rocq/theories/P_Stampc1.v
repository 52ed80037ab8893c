(* The list of leaves and the leaf responsible for a key. *)
From Verif Require Import Lib M_Tree M_Stamp M_Stampc P_Tree1.
From Coq Require Import Sorting.Sorted.

Lemma setf_same {A} (f : nat -> A) i x : setf f i x i = x.
Proof. unfold setf. now rewrite Nat.eqb_refl. Qed.
Lemma setf_other {A} (f : nat -> A) i x j : j <> i -> setf f i x j = f j.
Proof. intros N. unfold setf. destruct (Nat.eqb_spec j i); [contradiction|reflexivity]. Qed.

Lemma walk_in lo : forall l h k, In (walk lo h l k) (h :: l).
Proof. induction l as [|m l IH]; intros h k; cbn [walk]; [left; auto|]. destruct (lo m <=? k); [right; apply IH|left; auto]. Qed.
Lemma walk_lo lo : forall l h k, walk lo h l k = h \/ (In (walk lo h l k) l /\ lo (walk lo h l k) <= k).
Proof.
  induction l as [|m l IH]; intros h k; cbn [walk]; [auto|]. destruct (Z.leb_spec (lo m) k); [|auto]. right.
  destruct (IH m k) as [E|[A B]]; [rewrite E; split; [left; auto|auto]|split; [right; auto|auto]].
Qed.
Lemma walk_ext lo lo' : forall l h k, (forall m, In m l -> lo' m = lo m) -> walk lo' h l k = walk lo h l k.
Proof. induction l as [|m l IH]; intros h k H; cbn [walk]; [auto|]. rewrite (H m) by (left; auto). destruct (lo m <=? k); auto. apply IH. intros x Hx. apply H. right. auto. Qed.
Lemma walk_ins lo n c : forall l h k, ~ In c (h :: l) -> NoDup (h :: l) -> walk lo h l (lo c) = n ->
  walk lo h (ins_after n c h l) k = if (walk lo h l k =? n)%nat then (if lo c <=? k then c else n) else walk lo h l k.
Proof.
  induction l as [|m l IH]; intros h k NC ND E.
  - cbn [walk] in *. subst h. cbn [ins_after]. rewrite Nat.eqb_refl. cbn [walk]. destruct (lo c <=? k); reflexivity.
  - cbn [ins_after]. destruct (Nat.eqb_spec h n) as [->|N].
    + cbn [walk] in E |- *. inversion ND as [|? ? N1 N2]; subst.
      destruct (Z.leb_spec (lo m) (lo c)) as [L|L]; [destruct N1; rewrite <- E; apply walk_in|].
      destruct (Z.leb_spec (lo m) k) as [L2|L2].
      * destruct (Z.leb_spec (lo c) k); [|lia]. destruct (Nat.eqb_spec (walk lo m l k) n) as [E2|E2]; [destruct N1; rewrite <- E2; apply walk_in|reflexivity].
      * rewrite Nat.eqb_refl. destruct (lo c <=? k); reflexivity.
    + cbn [walk] in E |- *. destruct (Z.leb_spec (lo m) (lo c)) as [L|L]; [|congruence]. inversion ND as [|? ? N1 N2]; subst. destruct (Z.leb_spec (lo m) k) as [L2|L2].
      * apply IH; auto. intros Q. apply NC. right. auto.
      * destruct (Nat.eqb_spec h (walk lo m l (lo c))); [contradiction|reflexivity].
Qed.
Lemma unlinked_notin n l : ~ In n l -> unlinked n l = l.
Proof.
  induction l as [|m l IH]; intros H; cbn; auto. destruct (Nat.eqb_spec m n) as [->|N]; [destruct H; left; auto|]. cbn [negb]. f_equal. apply IH. intros Q. apply H. right. auto.
Qed.
Lemma unlinked_in n l x : In x (unlinked n l) <-> In x l /\ x <> n.
Proof.
  unfold unlinked. rewrite filter_In. split; intros [A B]; split; auto.
  - intros ->. rewrite Nat.eqb_refl in B. discriminate.
  - destruct (Nat.eqb_spec x n); [contradiction|reflexivity].
Qed.
Lemma walk_del lo n : forall l h k q, NoDup (h :: l) -> StronglySorted (fun a b => lo a <= lo b) l -> pred_of n h l = Some q ->
  walk lo h (unlinked n l) k = if (walk lo h l k =? n)%nat then q else walk lo h l k.
Proof.
  induction l as [|m l IH]; intros h k q ND SS E; cbn [pred_of] in E; [discriminate|]. inversion ND as [|? ? N1 N2]; subst. inversion SS as [|? ? S1 S2]; subst.
  destruct (Nat.eqb_spec m n) as [->|N].
  - injection E as <-. cbn [unlinked filter]. rewrite Nat.eqb_refl. cbn [negb]. change (filter _ l) with (unlinked n l). inversion N2 as [|? ? N3 N4]; subst. rewrite unlinked_notin by auto. cbn [walk].
    destruct (Z.leb_spec (lo n) k) as [L|L].
    + destruct l as [|m2 l]; cbn [walk]; [now rewrite Nat.eqb_refl|]. destruct (lo m2 <=? k); [|now rewrite Nat.eqb_refl].
      destruct (Nat.eqb_spec (walk lo m2 l k) n) as [E|E]; [destruct N3; rewrite <- E; apply walk_in|reflexivity].
    + destruct (Nat.eqb_spec h n) as [->|_]; [destruct N1; left; auto|]. destruct l as [|m2 l]; cbn [walk]; auto. inversion S2; subst. destruct (Z.leb_spec (lo m2) k); [lia|reflexivity].
  - cbn [unlinked filter]. destruct (Nat.eqb_spec m n); [contradiction|]. cbn [negb]. change (filter _ l) with (unlinked n l). cbn [walk]. destruct (lo m <=? k); [apply IH; auto|].
    destruct (Nat.eqb_spec h n) as [->|_]; [|reflexivity]. exfalso. assert (IN : forall l h, pred_of n h l = Some q -> In n l).
    { clear. induction l as [|x l IH]; intros h E; cbn in E; [discriminate|]. destruct (Nat.eqb_spec x n) as [->|N]; [left; auto|right; eauto]. }
    apply N1. right. eauto.
Qed.
Lemma pred_in n q : forall l h, pred_of n h l = Some q -> In n l /\ In q (h :: l).
Proof.
  induction l as [|m l IH]; intros h E; cbn in E; [discriminate|]. destruct (Nat.eqb_spec m n) as [->|N].
  - injection E as <-. split; left; auto.
  - destruct (IH m E). split; right; auto.
Qed.
Lemma pred_some n : forall l h, In n l -> exists q, pred_of n h l = Some q.
Proof. induction l as [|m l IH]; intros h H; [destruct H|]. cbn. destruct (Nat.eqb_spec m n) as [->|N]; [eauto|]. destruct H as [H|H]; [contradiction|]. eauto. Qed.
Lemma ins_in n c x : forall l h, In n (h :: l) -> (In x (ins_after n c h l) <-> x = c \/ In x l).
Proof.
  induction l as [|m l IH]; intros h H; cbn [ins_after]; destruct (Nat.eqb_spec h n) as [->|N].
  - cbn. intuition.
  - destruct H as [H|[]]. contradiction.
  - cbn [In]. intuition.
  - cbn [In]. rewrite IH by (destruct H as [H|H]; [contradiction|auto]). intuition.
Qed.
Lemma ins_nodup n c : forall l h, In n (h :: l) -> NoDup (h :: l) -> ~ In c (h :: l) -> NoDup (h :: ins_after n c h l).
Proof.
  induction l as [|m l IH]; intros h H ND NC; cbn [ins_after]; destruct (Nat.eqb_spec h n) as [->|N].
  - constructor; [|constructor; [intros []|constructor]]. intros [->|[]]. apply NC. left. auto.
  - destruct H as [H|[]]; contradiction.
  - inversion ND as [|? ? N1 N2]; subst. constructor; [|constructor; auto]. + intros [->|Q]; [apply NC; left; auto|contradiction]. + intros Q. apply NC. right. auto.
  - inversion ND as [|? ? N1 N2]; subst. destruct H as [H|H]; [contradiction|].
    assert (NC' : ~ In c (m :: l)) by (intros Q; apply NC; right; auto). constructor; [|apply IH; auto].
    intros [->|Q]; [apply N1; left; auto|]. apply (ins_in n c h l m H) in Q. destruct Q as [->|Q]; [apply NC; left; auto|apply N1; right; auto].
Qed.
Lemma ins_sorted lo n c : forall l h, NoDup (h :: l) -> StronglySorted (fun a b => lo a <= lo b) l -> walk lo h l (lo c) = n -> StronglySorted (fun a b => lo a <= lo b) (ins_after n c h l).
Proof.
  induction l as [|m l IH]; intros h ND SS E; cbn [ins_after]; destruct (Nat.eqb_spec h n) as [->|N].
  - constructor; constructor.
  - constructor.
  - constructor; auto. cbn [walk] in E. inversion ND as [|? ? N1 N2]; subst. inversion SS as [|? ? S1 S2]; subst.
    destruct (Z.leb_spec (lo m) (lo c)) as [L|L]; [destruct N1; rewrite <- E; apply walk_in|]. constructor; [lia|]. eapply Forall_impl; [|exact S2]. intros x Hx. cbn in Hx. lia.
  - cbn [walk] in E. destruct (Z.leb_spec (lo m) (lo c)) as [L|L]; [|congruence]. inversion ND as [|? ? N1 N2]; subst. inversion SS as [|? ? S1 S2]; subst.
    constructor; [apply IH; auto|]. apply Forall_forall. intros x Hx. apply ins_in in Hx; [|apply walk_in]. destruct Hx as [->|Hx]; [auto|]. rewrite Forall_forall in S2. auto.
Qed.
Lemma pred_ins n c m : forall l h, NoDup (h :: l) -> ~ In c (h :: l) -> In n (h :: l) -> m <> c ->
  pred_of m h (ins_after n c h l) = match pred_of m h l with Some q => if (q =? n)%nat then Some c else Some q | None => None end.
Proof.
  induction l as [|x l IH]; intros h ND NC H NM; cbn [ins_after]; destruct (Nat.eqb_spec h n) as [->|N].
  - cbn. destruct (Nat.eqb_spec c m); [congruence|reflexivity].
  - destruct H as [H|[]]; contradiction.
  - cbn [pred_of]. destruct (Nat.eqb_spec c m); [congruence|]. destruct (Nat.eqb_spec x m) as [->|N2]; [now rewrite Nat.eqb_refl|].
    inversion ND as [|? ? N3 N4]; subst. destruct (pred_of m x l) as [q|] eqn:E; [|reflexivity]. destruct (Nat.eqb_spec q n) as [->|_]; [|reflexivity]. destruct N3. apply (pred_in m n l x E).
  - destruct H as [H|H]; [contradiction|]. inversion ND as [|? ? N3 N4]; subst. cbn [pred_of]. destruct (Nat.eqb_spec x m) as [->|N2].
    + destruct (Nat.eqb_spec h n); [contradiction|reflexivity].
    + apply IH; auto. intros Q. apply NC. right. auto.
Qed.
Lemma pred_del n m q0 : forall l h, NoDup (h :: l) -> pred_of n h l = Some q0 -> m <> n ->
  pred_of m h (unlinked n l) = match pred_of m h l with Some q => if (q =? n)%nat then Some q0 else Some q | None => None end.
Proof.
  induction l as [|x l IH]; intros h ND E NM; cbn [pred_of] in E; [discriminate|]. inversion ND as [|? ? N1 N2]; subst. destruct (Nat.eqb_spec x n) as [->|N].
  - injection E as <-. cbn [unlinked filter]. rewrite Nat.eqb_refl. cbn [negb]. change (filter _ l) with (unlinked n l). inversion N2 as [|? ? N3 N4]; subst. rewrite unlinked_notin by auto. cbn [pred_of].
    destruct (Nat.eqb_spec n m); [congruence|]. destruct l as [|y l]; cbn [pred_of]; [reflexivity|]. destruct (Nat.eqb_spec y m) as [->|N5]; [now rewrite Nat.eqb_refl|].
    destruct (pred_of m y l) as [q|] eqn:E; [|reflexivity]. destruct (Nat.eqb_spec q n) as [->|_]; [|reflexivity]. destruct N3. apply (pred_in m n l y E).
  - cbn [unlinked filter]. destruct (Nat.eqb_spec x n); [contradiction|]. cbn [negb]. change (filter _ l) with (unlinked n l). cbn [pred_of]. destruct (Nat.eqb_spec x m) as [->|N2'].
    + destruct (Nat.eqb_spec h n) as [->|_]; [|reflexivity]. exfalso. apply N1. right. apply (pred_in n q0 l m E).
    + apply IH; auto.
Qed.
Lemma unlinked_nodup n l h : NoDup (h :: l) -> NoDup (h :: unlinked n l).
Proof. intros H. inversion H as [|? ? A B]; subst. constructor; [rewrite unlinked_in; tauto|]. apply NoDup_filter. auto. Qed.
Lemma unlinked_sorted {R : nat -> nat -> Prop} n l : StronglySorted R l -> StronglySorted R (unlinked n l).
Proof.
  induction 1 as [|x l S IH F]; [constructor|]. cbn [unlinked filter]. destruct (negb (x =? n)%nat); auto. constructor; auto. apply Forall_forall. intros y Hy. rewrite Forall_forall in F. apply F. apply (unlinked_in n l y) in Hy. tauto.
Qed.

(* Rows. *)
Lemma row_get_set k x l k' : row_get k' (row_set k x l) = if k =? k' then Some x else row_get k' l.
Proof.
  induction l as [|[a y] l IH]; cbn [row_set row_get]; [reflexivity|]. destruct (Z.eqb_spec a k) as [->|N].
  - cbn [row_get]. destruct (Z.eqb_spec k k'); reflexivity.
  - destruct (k <? a); cbn [row_get]; [destruct (Z.eqb_spec k k'); [reflexivity|reflexivity]|]. rewrite IH. destruct (Z.eqb_spec a k') as [->|N2]; [|reflexivity]. destruct (Z.eqb_spec k k'); [congruence|reflexivity].
Qed.
Lemma row_get_del k l k' : row_get k' (row_del k l) = if k =? k' then None else row_get k' l.
Proof.
  induction l as [|[a y] l IH]; cbn [row_del filter fst]; [cbn; now destruct (k =? k')|]. change (filter _ l) with (row_del k l).
  destruct (Z.eqb_spec a k) as [->|N]; cbn [negb row_get]; rewrite IH; [destruct (Z.eqb_spec k k'); reflexivity|]. destruct (Z.eqb_spec a k') as [->|N2]; [|reflexivity]. destruct (Z.eqb_spec k k'); [congruence|reflexivity].
Qed.
Lemma row_get_filter (f : Z -> bool) k : forall l, row_get k (filter (fun r => f (fst r)) l) = if f k then row_get k l else None.
Proof.
  induction l as [|[a y] l IH]; cbn [filter fst]; [cbn; now destruct (f k)|]. destruct (f a) eqn:E; cbn [row_get]; rewrite IH; destruct (Z.eqb_spec a k) as [->|N]; try reflexivity; rewrite E; reflexivity.
Qed.
Lemma row_get_in k : forall l, row_get k l <> None <-> exists x, In (k, x) l.
Proof.
  induction l as [|[a y] l IH]; cbn [row_get].
  - split; [congruence|intros (x & [])].
  - destruct (Z.eqb_spec a k) as [->|N]; [split; [intros _; exists y; left; auto|discriminate]|]. rewrite IH. split; intros (x & H); exists x; [right; auto|]. destruct H as [H|H]; [congruence|auto].
Qed.
Lemma split_key_in first last k l : split_key first last k l = k \/ row_get (split_key first last k l) l <> None.
Proof.
  unfold split_key. cbv zeta. match goal with |- context[nth ?j _ _] => generalize j; intros i end. destruct (nth_in_or_default i (row_set k 0 l) (k, 0)) as [H|H]; [|left; now rewrite H].
  destruct (nth i (row_set k 0 l) (k, 0)) as [a x]. cbn [fst]. assert (G : row_get a (row_set k 0 l) <> None) by (apply row_get_in; eauto).
  rewrite row_get_set in G. destruct (Z.eqb_spec k a); [left; auto|right; auto].
Qed.
