(* Chains of a Json object. *)
From Verif Require Import Lib M_Jsonobj Spec_Jsonobj.

Lemma put_same {A} (f : nat -> A) i v : put f i v i = v.
Proof. unfold put. rewrite Nat.eqb_refl. auto. Qed.
Lemma put_other {A} (f : nat -> A) i v j : j <> i -> put f i v j = f j.
Proof. intros H. unfold put. destruct (Nat.eqb_spec j i); congruence. Qed.
Lemma same_key_spec a b : same_key a b = true <-> a = b.
Proof. unfold same_key. destruct (list_eq_dec Z.eq_dec a b); intuition congruence. Qed.

(* The chain from h is l. *)
Fixpoint linked (nx : nat -> option nat) (h : option nat) (l : list nat) : Prop :=
  match l with [] => h = None | i :: l' => h = Some i /\ linked nx (nx i) l' end.
Lemma linked_frame nx nx' l : forall h, (forall i, In i l -> nx' i = nx i) -> linked nx h l -> linked nx' h l.
Proof. induction l as [|i l IH]; intros h H; auto. intros (-> & L). split; auto. rewrite H by (left; auto). apply IH; auto. intros j Hj. apply H. right. auto. Qed.
Fixpoint lastslot (b : slot) (l : list nat) : slot := match l with [] => b | i :: l' => lastslot (InItem i) l' end.
Definition keyof (s : obj) (i : nat) : option (list Z) := match o_item s i with Some (k, _) => Some k | None => None end.

Lemma walk_ok s k l : forall f b c, linked (o_next s) (read s b) l -> (forall i, In i l -> keyof s i <> None) -> (length l <= f)%nat ->
  (exists l1 i l2, l = l1 ++ i :: l2 /\ keyof s i = Some k /\ (forall j, In j l1 -> keyof s j <> Some k) /\ walk s f k b c = Hit (lastslot b l1) i) \/
  ((forall j, In j l -> keyof s j <> Some k) /\ walk s f k b c = End (lastslot b l) (c + length l)).
Proof.
  induction l as [|i l IH]; intros f b c L H Hf; cbn [linked] in L.
  - right. split; [intros j []|]. destruct f; cbn [walk]; rewrite L; cbn; f_equal; lia.
  - destruct L as (E & L). destruct f as [|f]; [simpl in Hf; lia|]. cbn [walk]. rewrite E. pose proof (H i (or_introl eq_refl)) as Hi. unfold keyof in Hi. destruct (o_item s i) as [(k', v)|] eqn:Ei; [|congruence]. destruct (same_key k' k) eqn:Ek.
    + apply same_key_spec in Ek. left. exists [], i, l. split; auto. split; [unfold keyof; rewrite Ei; congruence|]. split; [intros j []|auto].
    + assert (Nk : keyof s i <> Some k) by (unfold keyof; rewrite Ei; intros C; injection C as C; apply same_key_spec in C; congruence).
      destruct (IH f (InItem i) (Datatypes.S c) L) as [(l1 & j & l2 & -> & K1 & K2 & K3)|(K1 & K2)]; [intros j Hj; apply H; right; auto|simpl in Hf; lia| |].
      * left. exists (i :: l1), j, l2. split; auto. split; auto. split; [|exact K3]. intros m [<-|Hm]; auto.
      * right. split; [intros m [<-|Hm]; auto|]. rewrite K2. cbn [lastslot length]. f_equal. lia.
Qed.
Definition outside (b : slot) (l : list nat) : Prop := match b with InHash _ => True | InItem i => ~ In i l end.
Lemma lastslot_cases l : forall b, lastslot b l = b \/ exists i, In i l /\ lastslot b l = InItem i.
Proof. induction l as [|i l IH]; intros b; auto. cbn [lastslot]. right. destruct (IH (InItem i)) as [->|(j & Hj & ->)]; [exists i; split; [left|]; auto|exists j; split; [right|]; auto]. Qed.
Lemma read_write s b v : read (write s b v) b = v.
Proof. destruct b; apply put_same. Qed.
Lemma read_other s b b' v : b <> b' -> read (write s b v) b' = read s b'.
Proof. intros H. destruct b, b'; simpl; auto; apply put_other; congruence. Qed.
Lemma relink s v r r' l : forall b, linked (o_next s) (read s b) (l ++ r) -> NoDup l -> outside b l ->
  linked (o_next (write s (lastslot b l) v)) v r' -> linked (o_next (write s (lastslot b l) v)) (read (write s (lastslot b l) v) b) (l ++ r').
Proof.
  induction l as [|i l IH]; intros b L N O R; cbn [lastslot app] in *; [rewrite read_write; auto|]. destruct L as (E & L). inversion N as [|? ? N1 N2]; subst. split.
  - rewrite read_other; auto. intros C. destruct (lastslot_cases l (InItem i)) as [D|(j & Hj & D)]; rewrite D in C; subst b; simpl in O; tauto.
  - apply (IH (InItem i)); auto.
Qed.

Section H.
Variable hash : list Z -> nat.
Definition mem (s : obj) (b i : nat) : bool := match o_item s i with Some (k, _) => (bucket hash s k =? b)%nat | None => false end.
Definition chain_of (s : obj) (b : nat) : list nat := filter (mem s b) (seq 0 (o_n s)).
Definition chains (s : obj) : Prop := forall b, (b < o_hs s)%nat -> linked (o_next s) (o_head s b) (chain_of s b).
Definition distinct (s : obj) : Prop := forall i j k, (i < o_n s)%nat -> (j < o_n s)%nat -> keyof s i = Some k -> keyof s j = Some k -> i = j.
Definition sized (s : obj) : Prop := o_hs s = 0%nat /\ o_n s = 0%nat \/ exists e, o_hs s = (2 ^ e)%nat.
Definition inv (s : obj) : Prop := sized s /\ chains s /\ distinct s /\ o_size s = length (items s).

Lemma bucket_lt s k : (exists e, o_hs s = (2 ^ e)%nat) -> (bucket hash s k < o_hs s)%nat.
Proof. intros (e & E). unfold bucket. rewrite E. replace (2 ^ e - 1)%nat with (Nat.ones e) by (rewrite Nat.ones_equiv; lia). rewrite Nat.land_ones. apply Nat.mod_upper_bound. apply Nat.pow_nonzero. lia. Qed.
Lemma chain_in s b i : In i (chain_of s b) <-> (i < o_n s)%nat /\ exists k, keyof s i = Some k /\ bucket hash s k = b.
Proof.
  unfold chain_of. rewrite filter_In, in_seq. unfold mem, keyof. destruct (o_item s i) as [(k, v)|].
  - rewrite Nat.eqb_eq. split; [intros (H & E); split; [lia|eauto]|]. intros (H & k' & E & E'). injection E as <-. split; [lia|auto].
  - split; [intros (_ & C); discriminate|]. intros (_ & k & C & _). discriminate.
Qed.
Lemma chain_nodup s b : NoDup (chain_of s b).
Proof. apply NoDup_filter, seq_NoDup. Qed.
Lemma filter_length_le' {A} (p : A -> bool) l : (length (filter p l) <= length l)%nat.
Proof. induction l as [|x l IH]; simpl; auto. destruct (p x); simpl; lia. Qed.
Lemma chain_len s b : (length (chain_of s b) <= o_n s)%nat.
Proof. unfold chain_of. eapply Nat.le_trans; [apply filter_length_le'|]. rewrite seq_length. auto. Qed.

Lemma walk_key_ok s k : (exists e, o_hs s = (2 ^ e)%nat) -> chains s -> let b := bucket hash s k in
  (exists l1 i l2, chain_of s b = l1 ++ i :: l2 /\ keyof s i = Some k /\ (i < o_n s)%nat /\ walk_key hash s k = Hit (lastslot (InHash b) l1) i) \/
  ((forall j, (j < o_n s)%nat -> keyof s j <> Some k) /\ walk_key hash s k = End (lastslot (InHash b) (chain_of s b)) (length (chain_of s b))).
Proof.
  intros He Hc b. pose proof (bucket_lt s k He) as Hb. unfold walk_key. fold b in Hb |- *. replace (b <? o_hs s)%nat with true by (symmetry; apply Nat.ltb_lt; auto).
  destruct (walk_ok s k (chain_of s b) (o_n s) (InHash b) 0 (Hc b Hb)) as [(l1 & i & l2 & E & K1 & _ & K3)|(K1 & K2)]; [intros i Hi; apply chain_in in Hi; destruct Hi as (_ & k' & C & _); congruence|apply chain_len| |].
  - left. exists l1, i, l2. repeat split; auto. assert (Hi : In i (chain_of s b)) by (rewrite E; apply in_app_iff; right; left; auto). apply chain_in in Hi. tauto.
  - right. split; auto. intros j Hj C. apply (K1 j); auto. apply chain_in. split; auto. exists k. auto.
Qed.
Lemma refill_ok i : forall s, (i <= o_n s)%nat -> (exists e, o_hs s = (2 ^ e)%nat) ->
  (forall b, (b < o_hs s)%nat -> linked (o_next s) (o_head s b) (filter (mem s b) (seq i (o_n s - i)))) ->
  let t := refill hash s i in chains t /\ o_item t = o_item s /\ o_n t = o_n s /\ o_size t = o_size s /\ o_hs t = o_hs s.
Proof.
  induction i as [|i IH]; intros s Hi He H; cbn [refill]; cbv zeta.
  - split; [|auto]. intros b Hb. unfold chain_of. specialize (H b Hb). rewrite Nat.sub_0_r in H. exact H.
  - assert (Sq : seq i (o_n s - i) = i :: seq (Datatypes.S i) (o_n s - Datatypes.S i)) by (replace (o_n s - i)%nat with (Datatypes.S (o_n s - Datatypes.S i)) by lia; reflexivity).
    destruct (o_item s i) as [(k, v)|] eqn:Ei.
    + set (b0 := bucket hash s k). set (s' := MkObj _ _ _ _ _ _). apply (IH s'); [simpl; lia|exact He|]. intros b Hb. cbn [o_hs s' o_n o_next o_head] in *. rewrite Sq. cbn [filter].
      assert (Em : forall j, mem s' b j = mem s b j) by reflexivity. rewrite (filter_ext (mem s' b) (mem s b)) by auto. rewrite Em. unfold mem at 1. rewrite Ei. fold b0.
      assert (Fr : forall h, linked (o_next s) h (filter (mem s b) (seq (Datatypes.S i) (o_n s - Datatypes.S i))) -> linked (put (o_next s) i (o_head s b0)) h (filter (mem s b) (seq (Datatypes.S i) (o_n s - Datatypes.S i)))).
      { intros h. apply linked_frame. intros j Hj. apply filter_In in Hj. destruct Hj as (Hj & _). apply in_seq in Hj. apply put_other. lia. }
      destruct (Nat.eqb_spec b0 b) as [<-|Ne].
      * rewrite put_same. split; auto. rewrite put_same. apply Fr. apply H. auto.
      * rewrite put_other by auto. apply Fr. apply H. auto.
    + apply (IH s); [lia|auto|]. intros b Hb. rewrite Sq. cbn [filter]. unfold mem at 1. rewrite Ei. apply H. auto.
Qed.
End H.
