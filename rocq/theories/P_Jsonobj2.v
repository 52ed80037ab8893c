(* A Json object is a list of keys and values in the order of insertion. *)
From Verif Require Import Lib M_Jsonobj Spec_Jsonobj P_Jsonobj1.

Definition its (f : nat -> option (list Z * Z)) (l : list nat) : list (list Z * Z) := flat_map (fun i => match f i with Some p => [p] | None => [] end) l.
Lemma items_its s : items s = its (o_item s) (seq 0 (o_n s)).
Proof. reflexivity. Qed.
Lemma its_ext f g l : (forall i, In i l -> f i = g i) -> its f l = its g l.
Proof. induction l as [|i l IH]; intros H; auto. unfold its in *. cbn [flat_map]. rewrite H by (left; auto). f_equal. apply IH. intros j Hj. apply H. right. auto. Qed.
Lemma its_app f l r : its f (l ++ r) = its f l ++ its f r.
Proof. apply flat_map_app. Qed.
Definition only (f : nat -> option (list Z * Z)) (l : list nat) (k : list Z) (i : nat) : Prop := forall j v, In j l -> f j = Some (k, v) -> j = i.
Lemma its_cons f i l : its f (i :: l) = match f i with Some p => p :: its f l | None => its f l end.
Proof. unfold its. cbn [flat_map]. destruct (f i); auto. Qed.
Lemma only_tail f j l k i : only f (j :: l) k i -> only f l k i.
Proof. intros H m v Hm. apply H. right. auto. Qed.
Lemma lookup_its f l k i v : only f l k i -> In i l -> f i = Some (k, v) -> lookup (its f l) k = Some v.
Proof.
  induction l as [|j l IH]; intros O H E; [destruct H|]. rewrite its_cons. destruct (Nat.eq_dec j i) as [->|N].
  - rewrite E. cbn [lookup]. destruct (list_eq_dec Z.eq_dec k k); congruence.
  - assert (Hi : In i l) by (destruct H; [contradiction|auto]). destruct (f j) as [(k', w)|] eqn:Ej; [|apply IH; eauto using only_tail]. cbn [lookup]. destruct (list_eq_dec Z.eq_dec k' k) as [->|]; [exfalso; apply N; eapply O; [left; reflexivity|exact Ej]|]. apply IH; eauto using only_tail.
Qed.
Lemma lookup_none f l k : (forall j v, In j l -> f j <> Some (k, v)) -> lookup (its f l) k = None.
Proof.
  induction l as [|j l IH]; intros H; auto. rewrite its_cons. assert (R : lookup (its f l) k = None) by (apply IH; intros m v Hm; apply H; right; auto). destruct (f j) as [(k', w)|] eqn:Ej; auto. cbn [lookup]. destruct (list_eq_dec Z.eq_dec k' k) as [->|]; auto. exfalso. exact (H j w (or_introl eq_refl) Ej).
Qed.
Lemma set_its f l k i v w : only f l k i -> NoDup l -> In i l -> f i = Some (k, w) -> its (put f i (Some (k, v))) l = set_spec (its f l) k v.
Proof.
  induction l as [|j l IH]; intros O N H E; [destruct H|]. rewrite !its_cons. inversion N as [|? ? N1 N2]; subst. destruct (Nat.eq_dec j i) as [->|Ne].
  - rewrite put_same, E. cbn [set_spec]. destruct (list_eq_dec Z.eq_dec k k); [|congruence]. f_equal. apply its_ext. intros m Hm. apply put_other. congruence.
  - assert (Hi : In i l) by (destruct H; [contradiction|auto]). rewrite put_other by auto. rewrite IH; eauto using only_tail. destruct (f j) as [(k', u)|] eqn:Ej; auto. cbn [set_spec]. destruct (list_eq_dec Z.eq_dec k' k) as [->|]; auto. exfalso. apply Ne. eapply O; [left; reflexivity|exact Ej].
Qed.
Lemma set_spec_absent l k v w : lookup l k = None -> set_spec (l ++ [(k, w)]) k v = set_spec l k v /\ set_spec l k v = l ++ [(k, v)].
Proof.
  induction l as [|(k', u) l IH]; cbn [lookup set_spec app]; [destruct (list_eq_dec Z.eq_dec k k); [auto|congruence]|]. destruct (list_eq_dec Z.eq_dec k' k); [discriminate|]. intros H. destruct (IH H) as (-> & ->). auto.
Qed.
Lemma erase_its f l k i w : only f l k i -> f i = Some (k, w) -> its (put f i None) l = erase_spec (its f l) k.
Proof.
  induction l as [|j l IH]; intros O E; auto. rewrite !its_cons. rewrite IH; eauto using only_tail. destruct (Nat.eq_dec j i) as [->|Ne].
  - rewrite put_same, E. unfold erase_spec. cbn [filter fst]. destruct (list_eq_dec Z.eq_dec k k); [auto|congruence].
  - rewrite put_other by auto. destruct (f j) as [(k', u)|] eqn:Ej; auto. unfold erase_spec. cbn [filter fst]. destruct (list_eq_dec Z.eq_dec k' k) as [->|]; auto. exfalso. apply Ne. eapply O; [left; reflexivity|exact Ej].
Qed.
Lemma erase_len f l i p : NoDup l -> In i l -> f i = Some p -> length (its f l) = Datatypes.S (length (its (put f i None) l)).
Proof.
  induction l as [|j l IH]; intros N H E; [destruct H|]. rewrite !its_cons. inversion N as [|? ? N1 N2]; subst. destruct (Nat.eq_dec j i) as [->|Ne].
  - rewrite put_same, E. cbn [length]. f_equal. f_equal. apply its_ext. intros m Hm. symmetry. apply put_other. congruence.
  - assert (Hi : In i l) by (destruct H; [contradiction|auto]). rewrite put_other by auto. specialize (IH N2 Hi E). destruct (f j); cbn [length]; lia.
Qed.
Lemma erase_absent l k : lookup l k = None -> erase_spec l k = l.
Proof. unfold erase_spec. induction l as [|(k', u) l IH]; cbn [lookup filter fst]; auto. destruct (list_eq_dec Z.eq_dec k' k); [discriminate|]. intros H. rewrite IH; auto. Qed.

Lemma nodup_left {A} (l r : list A) : NoDup (l ++ r) -> NoDup l.
Proof. induction l as [|x l IH]; intros H; [constructor|]. inversion H as [|? ? X Y]; subst. constructor; auto. intros C. apply X. apply in_app_iff. auto. Qed.
Section H.
Variable hash : list Z -> nat.
Notation inv := (inv hash).
Notation chain_of := (chain_of hash).
Notation chains := (chains hash).
Notation pow s := (exists e, o_hs s = (2 ^ e)%nat).

Lemma inv_only s k i : distinct s -> (i < o_n s)%nat -> keyof s i = Some k -> only (o_item s) (seq 0 (o_n s)) k i.
Proof. intros D Hi E j v Hj Ej. apply in_seq in Hj. apply (D j i k); auto; [lia|]. unfold keyof. rewrite Ej. auto. Qed.
Lemma key_item s i k : keyof s i = Some k -> exists v, o_item s i = Some (k, v).
Proof. unfold keyof. destruct (o_item s i) as [(k', v)|]; [|discriminate]. intros E. injection E as ->. eauto. Qed.
Lemma key_none s k : (forall j, (j < o_n s)%nat -> keyof s j <> Some k) -> lookup (items s) k = None.
Proof. intros H. apply lookup_none. intros j v Hj C. apply in_seq in Hj. apply (H j); [lia|]. unfold keyof. rewrite C. auto. Qed.

Lemma inv_obj0 : inv obj0.
Proof. split; [left; auto|]. split; [intros b Hb; simpl in Hb; lia|]. split; [intros i j k Hi; simpl in Hi; lia|reflexivity]. Qed.
Lemma ready_ok s : inv s -> inv (ready s) /\ pow (ready s) /\ items (ready s) = items s.
Proof.
  intros (Hs & Hc & Hd & Hz). unfold ready. destruct Hs as [(E & En)|(e & E)].
  - rewrite E. cbn [Nat.eqb]. split; [|split; [exists 3%nat; reflexivity|reflexivity]]. split; [right; exists 3%nat; reflexivity|]. split; [|split; [exact Hd|exact Hz]]. intros b _. unfold P_Jsonobj1.chain_of. cbn [o_n o_head]. rewrite En. reflexivity.
  - replace (o_hs s =? 0)%nat with false; [|symmetry; apply Nat.eqb_neq; rewrite E; apply Nat.pow_nonzero; lia]. split; [split; [right; eauto|auto]|]. split; [eauto|auto].
Qed.
Lemma write_frame s b l v b' : (forall i, In i l -> In i (chain_of s b)) -> b' <> b ->
  o_head (write s (lastslot (InHash b) l) v) b' = o_head s b' /\ (forall j, In j (chain_of s b') -> o_next (write s (lastslot (InHash b) l) v) j = o_next s j).
Proof.
  intros Hl N. destruct (lastslot_cases l (InHash b)) as [->|(i & Hi & ->)]; simpl; (split; [try apply put_other; auto|]); intros j Hj; auto. apply put_other. intros ->. apply Hl, chain_in in Hi. apply chain_in in Hj. destruct Hi as (_ & k & E & B), Hj as (_ & k' & E' & B'). congruence.
Qed.
Lemma write_same s b v : o_item (write s b v) = o_item s /\ o_n (write s b v) = o_n s /\ o_size (write s b v) = o_size s /\ o_hs (write s b v) = o_hs s.
Proof. destruct b; auto. Qed.
Lemma filter_none {A} (p : A -> bool) l : (forall x, In x l -> p x = true) -> filter p l = l.
Proof. induction l as [|x l IH]; intros H; auto. cbn [filter]. rewrite H by (left; auto). f_equal. apply IH. intros y Hy. apply H. right. auto. Qed.
Lemma filter_filter {A} (p q : A -> bool) l : filter (fun x => q x && p x) l = filter p (filter q l).
Proof. induction l as [|x l IH]; auto. cbn [filter]. destruct (q x); cbn [andb filter]; [|auto]. destruct (p x); rewrite IH; auto. Qed.

Definition added (s : obj) (b : slot) (k : list Z) (v : Z) : obj :=
  MkObj (put (o_item s) (o_n s) (Some (k, v))) (put (o_next (write s b (Some (o_n s)))) (o_n s) None) (Datatypes.S (o_n s)) (Datatypes.S (o_size s)) (o_head (write s b (Some (o_n s)))) (o_hs s).
Lemma added_ok s k v : inv s -> pow s -> (forall j, (j < o_n s)%nat -> keyof s j <> Some k) ->
  let t := added s (lastslot (InHash (bucket hash s k)) (chain_of s (bucket hash s k))) k v in inv t /\ items t = items s ++ [(k, v)] /\ keyof t (o_n s) = Some k.
Proof.
  intros (Hs & Hc & Hd & Hz) Hp Hk. cbv zeta. set (b := bucket hash s k). set (l := chain_of s b). set (sl := lastslot (InHash b) l). set (n := o_n s). set (t := added s sl k v).
  assert (Hn : forall b' j, In j (chain_of s b') -> (j < n)%nat) by (intros b' j Hj; apply chain_in in Hj; tauto).
  assert (Ki : forall j, j <> n -> keyof t j = keyof s j) by (intros j Hj; unfold keyof; cbn [t added o_item]; fold n; rewrite put_other by auto; auto).
  assert (Kn : keyof t n = Some k) by (unfold keyof; cbn [t added o_item]; fold n; rewrite put_same; auto).
  assert (It : items t = items s ++ [(k, v)]).
  { rewrite !items_its. cbn [t added o_item o_n]. fold n. rewrite seq_S, its_app. cbn [Nat.add]. f_equal; [apply its_ext; intros i Hi; apply in_seq in Hi; apply put_other; lia|]. unfold its. cbn [flat_map]. rewrite put_same. auto. }
  split; [|split; auto]. split; [right; exact Hp|]. split; [|split].
  - intros b' Hb'. cbn [t added o_hs] in Hb'. assert (Ec : chain_of t b' = chain_of s b' ++ (if (b =? b')%nat then [n] else [])).
    { unfold P_Jsonobj1.chain_of. cbn [t added o_n]. fold n. rewrite seq_S, filter_app. cbn [Nat.add]. f_equal.
      - apply filter_ext_in. intros i Hi. apply in_seq in Hi. unfold mem. cbn [t added o_item]. fold n. rewrite put_other by lia. auto.
      - cbn [filter]. unfold mem. cbn [t added o_item]. fold n. rewrite put_same. change (bucket hash _ k) with b. destruct (b =? b')%nat; auto. }
    rewrite Ec. destruct (Nat.eqb_spec b b') as [<-|Ne].
    + set (s0 := MkObj (o_item s) (put (o_next s) n None) (o_n s) (o_size s) (o_head s) (o_hs s)).
      assert (L0 : linked (o_next s0) (read s0 (InHash b)) (l ++ [])) by (rewrite app_nil_r; cbn [read s0 o_head o_next]; apply (linked_frame (o_next s)); [intros i Hi; apply put_other; apply Hn in Hi; lia|apply Hc; auto]).
      assert (Eh : o_head t b = read (write s0 sl (Some n)) (InHash b)) by (cbn [t added o_head read]; fold n; destruct sl; reflexivity).
      assert (En : forall i, o_next t i = o_next (write s0 sl (Some n)) i).
      { intros i. cbn [t added o_next]. fold n. destruct (lastslot_cases l (InHash b)) as [E|(j & Hj & E)]; fold sl in E; rewrite E; cbn [write o_next s0]; auto. apply Hn in Hj. unfold put. destruct (Nat.eqb_spec i n), (Nat.eqb_spec i j); auto; lia. }
      rewrite Eh. apply (linked_frame (o_next (write s0 sl (Some n)))); [auto|]. unfold sl. apply (relink s0 (Some n) [] [n] l (InHash b) L0 (chain_nodup hash s b) Logic.I). fold sl. cbn [linked]. split; auto. rewrite <- En. cbn [t added o_next]. fold n. apply put_same.
    + rewrite app_nil_r. destruct (write_frame s b l (Some n) b') as (F1 & F2); auto. fold sl in F1, F2. cbn [t added o_head o_next]. fold n. rewrite F1. apply (linked_frame (o_next s)); [|apply Hc; auto]. intros i Hi. rewrite put_other by (apply Hn in Hi; lia). apply F2. auto.
  - intros i j k' Hi Hj Ei Ej. cbn [t added o_n] in Hi, Hj. fold n in Hi, Hj. destruct (Nat.eq_dec i n) as [->|Ni], (Nat.eq_dec j n) as [->|Nj]; auto.
    + rewrite Kn in Ei. injection Ei as <-. rewrite Ki in Ej by auto. exfalso. apply (Hk j); [fold n; lia|auto].
    + rewrite Kn in Ej. injection Ej as <-. rewrite Ki in Ei by auto. exfalso. apply (Hk i); [fold n; lia|auto].
    + rewrite Ki in Ei, Ej by auto. apply (Hd i j k'); auto; fold n; lia.
  - rewrite It, app_length. cbn [t added o_size length]. lia.
Qed.
Lemma rehash_ok s : inv s -> pow s -> inv (rehash hash s) /\ o_item (rehash hash s) = o_item s /\ o_n (rehash hash s) = o_n s /\ o_hs (rehash hash s) = (o_hs s * 2)%nat.
Proof.
  intros (Hs & Hc & Hd & Hz) (e & E). unfold rehash. set (s0 := MkObj _ _ _ _ _ _).
  assert (P0 : pow s0) by (exists (Datatypes.S e); cbn [s0 o_hs]; rewrite E; simpl; lia).
  destruct (refill_ok hash (o_n s) s0 (le_n _) P0) as (R1 & R2 & R3 & R4 & R5); [intros b _; cbn [s0 o_n o_head]; rewrite Nat.sub_diag; reflexivity|].
  split; [|split; [exact R2|split; [exact R3|exact R5]]]. split; [right; rewrite R5; exact P0|]. split; [exact R1|]. split.
  - intros i j k Hi Hj Ei Ej. unfold keyof in Ei, Ej. rewrite R2 in Ei, Ej. rewrite R3 in Hi, Hj. apply (Hd i j k); auto.
  - rewrite R4. rewrite items_its, R2, R3. exact Hz.
Qed.
Lemma find_insert_ok s k v : inv s -> exists t i, find_insert hash s k v = Some (t, i) /\ inv t /\ pow t /\ items t = insert_spec (items s) k v /\ (i < o_n t)%nat /\ keyof t i = Some k.
Proof.
  intros H. destruct (ready_ok s H) as (Hr & Hp & Ei). unfold find_insert. cbv zeta. set (r := ready s) in *. destruct (walk_key_ok hash r k Hp ltac:(apply Hr)) as [(l1 & i & l2 & _ & K & Hi & W)|(K & W)]; rewrite W.
  - exists r, i. split; auto. split; auto. split; auto. split; [|auto]. unfold insert_spec. destruct (key_item _ _ _ K) as (w & Ew). rewrite <- Ei. rewrite (items_its r) at 2. rewrite (lookup_its (o_item r) (seq 0 (o_n r)) k i w); auto; [apply inv_only; auto; apply Hr|apply in_seq; lia].
  - destruct (added_ok r k v Hr Hp K) as (A1 & A2 & A3). destruct (write_same r (lastslot (InHash (bucket hash r k)) (chain_of r (bucket hash r k))) (Some (o_n r))) as (W1 & _ & W3 & W4). rewrite W1, W3, W4. fold (added r (lastslot (InHash (bucket hash r k)) (chain_of r (bucket hash r k))) k v). set (t := added _ _ _ _) in *.
    assert (I0 : items t = insert_spec (items s) k v) by (unfold insert_spec; rewrite <- Ei, (key_none r k K); exact A2).
    destruct (4 <? length (chain_of r (bucket hash r k)))%nat.
    + destruct (rehash_ok t A1 Hp) as (R1 & R2 & R3 & R4). exists (rehash hash t), (o_n r). split; auto. split; auto. split; [destruct Hp as (e & Ee); exists (Datatypes.S e); rewrite R4; change (o_hs t) with (o_hs r); rewrite Ee; simpl; lia|]. split; [rewrite items_its, R2, R3; exact I0|]. split; [rewrite R3; change (o_n t) with (Datatypes.S (o_n r)); lia|]. unfold keyof. rewrite R2. exact A3.
    + exists t, (o_n r). split; [reflexivity|]. split; [exact A1|]. split; [exact Hp|]. split; [exact I0|]. split; [change (o_n t) with (Datatypes.S (o_n r)); lia|auto].
Qed.
Lemma set_spec_len l k v w : lookup l k = Some w -> length (set_spec l k v) = length l.
Proof. induction l as [|(k', u) l IH]; cbn [lookup set_spec]; [discriminate|]. destruct (list_eq_dec Z.eq_dec k' k); auto. intros H. cbn [length]. auto. Qed.
Lemma assign_inv s i k v w : inv s -> (i < o_n s)%nat -> o_item s i = Some (k, w) -> let t := MkObj (put (o_item s) i (Some (k, v))) (o_next s) (o_n s) (o_size s) (o_head s) (o_hs s) in inv t /\ items t = set_spec (items s) k v.
Proof.
  intros (Hs & Hc & Hd & Hz) Hi E t. assert (Kt : forall j, keyof t j = keyof s j) by (intros j; unfold keyof; cbn [t o_item]; unfold put; destruct (Nat.eqb_spec j i) as [->|]; auto; rewrite E; auto).
  assert (O : only (o_item s) (seq 0 (o_n s)) k i) by (apply inv_only; auto; unfold keyof; rewrite E; auto). assert (Hin : In i (seq 0 (o_n s))) by (apply in_seq; lia).
  assert (It : items t = set_spec (items s) k v) by (rewrite !items_its; cbn [t o_item o_n]; apply (set_its _ _ k i v w); auto; apply seq_NoDup).
  split; auto. split; [exact Hs|]. split; [|split].
  - intros b Hb. specialize (Hc b Hb). replace (chain_of t b) with (chain_of s b); auto. apply filter_ext. intros j. unfold mem. cbn [t o_item]. unfold put. destruct (Nat.eqb_spec j i) as [->|]; auto. rewrite E. auto.
  - intros j m k' Hj Hm Ej Em. rewrite Kt in Ej, Em. apply (Hd j m k'); auto.
  - rewrite It. cbn [t o_size]. rewrite Hz. symmetry. apply (set_spec_len _ k v w). rewrite items_its. apply (lookup_its _ _ k i w); auto.
Qed.
Lemma set_ok s k v : inv s -> exists t, set hash s k v = Some t /\ inv t /\ pow t /\ items t = set_spec (items s) k v.
Proof.
  intros H. unfold set. destruct (find_insert_ok s k 0 H) as (t & i & -> & Ht & Hp & It & Hi & K). destruct (key_item _ _ _ K) as (w & Ew). rewrite Ew. destruct (assign_inv t i k v w Ht Hi Ew) as (A1 & A2). eexists. split; [reflexivity|]. split; [exact A1|]. split; [exact Hp|]. rewrite A2, It. unfold insert_spec.
  destruct (lookup (items s) k) eqn:E; auto. apply set_spec_absent. auto.
Qed.
Lemma find_ok s k : inv s -> exists r, find hash s k = Some r /\ match r with Some i => exists v, o_item s i = Some (k, v) /\ lookup (items s) k = Some v | None => lookup (items s) k = None end.
Proof.
  intros (Hs & Hc & Hd & Hz). unfold find. destruct Hs as [(E & En)|Hp].
  - rewrite E. cbn [Nat.eqb]. exists None. split; auto. rewrite items_its, En. reflexivity.
  - replace (o_hs s =? 0)%nat with false; [|symmetry; apply Nat.eqb_neq; destruct Hp as (e & ->); apply Nat.pow_nonzero; lia]. destruct (walk_key_ok hash s k Hp Hc) as [(l1 & i & l2 & _ & K & Hi & W)|(K & W)]; rewrite W.
    + exists (Some i). split; auto. destruct (key_item _ _ _ K) as (w & Ew). exists w. split; auto. rewrite items_its. apply (lookup_its _ _ k i w); auto; [apply inv_only; auto|apply in_seq; lia].
    + exists None. split; auto. apply key_none. auto.
Qed.
Lemma erase_power s rep k : inv s -> pow s -> exists t r, erase hash rep s k = Some (t, r) /\ inv t /\ pow t /\ items t = erase_spec (items s) k /\ (r = true <-> lookup (items s) k <> None).
Proof.
  intros (Hs & Hc & Hd & Hz) Hp. unfold erase. replace (o_hs s =? 0)%nat with false; [|symmetry; apply Nat.eqb_neq; destruct Hp as (e & ->); apply Nat.pow_nonzero; lia]. rewrite andb_false_r. destruct (walk_key_ok hash s k Hp Hc) as [(l1 & i & l2 & Ec & K & Hi & W)|(K & W)]; rewrite W.
  - set (b := bucket hash s k) in *. set (sl := lastslot (InHash b) l1). destruct (write_same s sl (o_next s i)) as (W1 & W2 & W3 & W4). cbv zeta. rewrite W1, W2, W3, W4. set (t := MkObj _ _ _ _ _ _). exists t, true. split; auto. destruct (key_item _ _ _ K) as (w & Ew).
    assert (O : only (o_item s) (seq 0 (o_n s)) k i) by (apply inv_only; auto). assert (Hin : In i (seq 0 (o_n s))) by (apply in_seq; lia).
    assert (It : items t = erase_spec (items s) k) by (rewrite !items_its; cbn [t o_item o_n]; apply (erase_its _ _ k i w); auto).
    assert (Nd : NoDup (l1 ++ i :: l2)) by (rewrite <- Ec; apply chain_nodup). assert (Hb : (b < o_hs s)%nat) by (apply bucket_lt; auto).
    assert (Ct : forall b', chain_of t b' = filter (fun j => negb (j =? i)%nat) (chain_of s b')).
    { intros b'. unfold P_Jsonobj1.chain_of. cbn [t o_n]. rewrite <- filter_filter. apply filter_ext. intros j. unfold mem. cbn [t o_item]. unfold put. destruct (Nat.eqb_spec j i); cbn [negb]; [rewrite andb_false_r; auto|rewrite andb_true_r; auto]. }
    split; [|split; [exact Hp|split; [exact It|]]].
    + split; [right; exact Hp|]. split; [|split].
      * intros b' Hb'. cbn [t o_hs] in Hb'. rewrite Ct. destruct (Nat.eq_dec b' b) as [->|Ne].
        -- rewrite Ec. rewrite filter_app. cbn [filter]. rewrite Nat.eqb_refl. cbn [negb]. apply NoDup_remove in Nd. destruct Nd as (Nd & Ni). rewrite in_app_iff in Ni. rewrite !filter_none by (intros x Hx; destruct (Nat.eqb_spec x i) as [->|]; auto; exfalso; tauto).
           specialize (Hc b Hb). rewrite Ec in Hc. assert (N1 : NoDup l1) by (apply nodup_left in Nd; auto).
           assert (Lr : linked (o_next s) (o_next s i) l2). { clear - Hc. revert Hc. generalize (o_head s b). induction l1 as [|x l1 IH]; intros h; cbn [app linked]; intros (_ & L); auto. apply (IH _ L). }
           cbn [t o_next o_head]. change (o_head (write s sl (o_next s i)) b) with (read (write s sl (o_next s i)) (InHash b)). unfold sl. apply (relink s (o_next s i) (i :: l2) l2 l1 (InHash b) Hc N1 Logic.I). apply (linked_frame (o_next s)); auto. intros j Hj. destruct (lastslot_cases l1 (InHash b)) as [->|(m & Hm & ->)]; auto. cbn [write o_next]. apply put_other. intros ->.
           clear - Nd Hj Hm. induction l1 as [|x l1 IH]; [destruct Hm|]. inversion Nd as [|? ? X Y]; subst. destruct Hm as [->|Hm]; [apply X; apply in_app_iff; auto|auto].
        -- rewrite filter_none by (intros x Hx; destruct (Nat.eqb_spec x i) as [->|]; auto; exfalso; apply chain_in in Hx; destruct Hx as (_ & k' & Ek & Eb); rewrite K in Ek; injection Ek as <-; apply Ne; symmetry; exact Eb).
           destruct (write_frame s b l1 (o_next s i) b') as (F1 & F2); [intros x Hx; rewrite Ec; apply in_app_iff; auto|auto|]. fold sl in F1, F2. cbn [t o_next o_head]. rewrite F1. apply (linked_frame (o_next s)); [exact F2|apply Hc; auto].
      * intros j m k' Hj Hm Ej Em. unfold keyof in Ej, Em. cbn [t o_item] in Ej, Em. unfold put in Ej, Em. destruct (j =? i)%nat; [discriminate|]. destruct (m =? i)%nat; [discriminate|]. apply (Hd j m k'); auto.
      * rewrite items_its. cbn [t o_item o_n o_size]. rewrite Hz, items_its. rewrite (erase_len (o_item s) _ i (k, w)) by (auto; apply seq_NoDup). lia.
    + split; auto. intros _. rewrite items_its, (lookup_its _ _ k i w); auto. discriminate.
  - exists s, false. split; auto. split; [split; auto|]. split; auto. pose proof (key_none s k K) as E. split; [symmetry; apply erase_absent; auto|]. rewrite E. split; [discriminate|congruence].
Qed.
End H.
