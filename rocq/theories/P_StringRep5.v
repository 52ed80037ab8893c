(** Whole programs: the model follows the values. *)

From Coq Require Import List ZArith Lia Bool.
From Verif Require Import M_StringRep Spec_StringRep P_StringRep1 P_StringRep2 P_StringRep3
  P_StringRep4.
Import ListNotations.
Open Scope Z_scope.

(** ** Counting references *)

Section Count.
  Context {A : Type} (blk : A -> option nat).

  Definition wt (o : option A) (b : nat) : Z :=
    match o with Some r => one (blk r) b | None => 0 end.

  Fixpoint cnt (l : list (option A)) (b : nat) : Z :=
    match l with [] => 0 | o :: t => wt o b + cnt t b end.

  Lemma wt_range o b : 0 <= wt o b <= 1.
  Proof. destruct o; simpl; [apply one_range|lia]. Qed.

  Lemma cnt_range l b : 0 <= cnt l b <= Z.of_nat (length l).
  Proof.
    induction l as [|o l IH]; [simpl; lia|]. cbn [cnt length]. pose proof (wt_range o b). lia.
  Qed.

  Lemma cnt_app l l' b : cnt (l ++ l') b = cnt l b + cnt l' b.
  Proof. induction l; simpl; lia. Qed.

  Lemma cnt_put l v o o' b : nth_error l v = Some o ->
    cnt (put l v o') b = cnt l b - wt o b + wt o' b.
  Proof.
    revert v; induction l as [|x l IH]; intros [|v] E; try discriminate.
    - simpl in *. injection E as ->. lia.
    - simpl in *. rewrite (IH v) by auto. lia.
  Qed.

  Lemma cnt_has l v o b : nth_error l v = Some o -> wt o b <= cnt l b.
  Proof.
    intros E. pose proof (cnt_put l v o None b E). simpl in H.
    pose proof (cnt_range (put l v None) b). lia.
  Qed.

  Lemma cnt_two l v w o o' b : v <> w -> nth_error l v = Some o -> nth_error l w = Some o' ->
    wt o b + wt o' b <= cnt l b.
  Proof.
    intros N E E'. pose proof (cnt_put l v o None b E) as P. simpl in P.
    pose proof (cnt_has (put l v None) w o' b) as Q. rewrite put_other in Q by auto.
    specialize (Q E'). lia.
  Qed.

  Lemma cnt_zero l b : (forall w r, nth_error l w = Some (Some r) -> blk r <> Some b) ->
    cnt l b = 0.
  Proof.
    induction l as [|o l IH]; intros H; auto. cbn [cnt].
    rewrite IH. 2: { intros w r E. apply (H (S w) r E). }
    destruct o as [r|]; auto. cbn [wt]. specialize (H O r eq_refl).
    destruct (blk r) as [d|]; [|reflexivity]. rewrite one_other; [reflexivity|congruence].
  Qed.

  Lemma cnt_pos l b : 0 < cnt l b -> exists w r, nth_error l w = Some (Some r) /\ blk r = Some b.
  Proof.
    induction l as [|o l IH]; [simpl; lia|]. cbn [cnt]. intros P.
    destruct (Z.ltb_spec 0 (cnt l b)) as [Q|Q].
    - destruct (IH Q) as (w & r & E & B). exists (S w), r. auto.
    - destruct o as [r|]; cbn [wt] in P; [|lia]. exists O, r. split; auto.
      unfold one in P. destruct (blk r) as [d|]; [|lia].
      destruct (Nat.eqb_spec d b); [congruence|lia].
  Qed.
End Count.

Notation cs := (cnt memo_).
Notation ca := (cnt a_blk).

(** ** The invariant *)

Definition rel_str (h : heap) (o : option (option rep)) (o' : option (option (option (list Z))))
  : Prop :=
  match o, o' with
  | None, None => True
  | Some None, Some None => True
  | Some (Some r), Some (Some None) => memo_ r = None
  | Some (Some r), Some (Some (Some l)) => val h r l /\ len l <= max_len
  | _, _ => False
  end.

Definition rel_acc (h : heap) (o : option (option acc)) (o' : option (option (list Z))) : Prop :=
  match o, o' with
  | None, None => True
  | Some None, Some None => True
  | Some (Some x), Some (Some l) => aval h x l
  | _, _ => False
  end.

Record inv (st : state) (vs : values) : Prop := {
  inv_heap : heap_ok (hp st) (cs (strs st)) (ca (accs st));
  inv_len : length (strs st) = length (v_strs vs);
  inv_room : Z.of_nat (length (strs st)) <= 2 ^ 32 - 2;
  inv_strs : forall v, rel_str (hp st) (nth_error (strs st) v) (nth_error (v_strs vs) v);
  inv_alen : length (accs st) = length (v_accs vs);
  inv_accs : forall v, rel_acc (hp st) (nth_error (accs st) v) (nth_error (v_accs vs) v)
}.

Lemma inv_small st vs : inv st vs -> small (cs (strs st)).
Proof.
  intros I b. pose proof (inv_room _ _ I). pose proof (cnt_range memo_ (strs st) b). lia.
Qed.

Lemma inv_has st v r : nth_error (strs st) v = Some (Some r) -> has (cs (strs st)) r.
Proof.
  intros E b Eb. pose proof (cnt_has memo_ _ _ _ b E) as P. simpl in P.
  rewrite Eb, one_self in P. lia.
Qed.

Lemma inv_hasa st v x : nth_error (accs st) v = Some (Some x) -> hasa (ca (accs st)) x.
Proof.
  intros E b Eb. pose proof (cnt_has a_blk _ _ _ b E) as P. simpl in P.
  rewrite Eb, one_self in P. lia.
Qed.

Lemma inv_value st vs v l : inv st vs -> value vs v = Some l ->
  exists r, nth_error (strs st) v = Some (Some r) /\ str st v = Fine r /\ val (hp st) r l /\
    len l <= max_len /\ has (cs (strs st)) r /\ nth_error (v_strs vs) v = Some (Some (Some l)).
Proof.
  intros I E. unfold value in E. pose proof (inv_strs _ _ I v) as R.
  destruct (nth_error (v_strs vs) v) as [[[l'|]|]|]; try discriminate. injection E as ->.
  unfold rel_str in R. unfold str.
  destruct (nth_error (strs st) v) as [[r|]|] eqn:Er; try contradiction.
  exists r. destruct R. repeat (split; auto). eapply inv_has; eauto.
Qed.

Lemma inv_alive st vs v : inv st vs -> alive vs v = true ->
  exists r, nth_error (strs st) v = Some (Some r) /\ str st v = Fine r /\
    has (cs (strs st)) r.
Proof.
  intros I E. unfold alive in E. pose proof (inv_strs _ _ I v) as R.
  destruct (nth_error (v_strs vs) v) as [[x|]|]; try discriminate.
  unfold rel_str in R. unfold str.
  destruct (nth_error (strs st) v) as [[r|]|] eqn:Er; try contradiction.
  exists r. repeat (split; auto). eapply inv_has; eauto.
Qed.

Lemma inv_accum st vs v l : inv st vs -> accum vs v = Some l ->
  exists x, nth_error (accs st) v = Some (Some x) /\ acc_at st v = Fine x /\
    aval (hp st) x l /\ hasa (ca (accs st)) x.
Proof.
  intros I E. unfold accum in E. pose proof (inv_accs _ _ I v) as R.
  destruct (nth_error (v_accs vs) v) as [[l'|]|]; try discriminate. injection E as ->.
  unfold rel_acc in R. unfold acc_at.
  destruct (nth_error (accs st) v) as [[x|]|] eqn:Er; try contradiction.
  exists x. repeat (split; auto). eapply inv_hasa; eauto.
Qed.

(** ** What the others keep *)

Definition str_frame (h h' : heap) (c : nat -> Z) : Prop :=
  forall r l, val h r l -> has c r -> val h' r l.
Definition acc_frame (h h' : heap) (a : nat -> Z) : Prop :=
  forall x l, aval h x l -> hasa a x -> aval h' x l.

Lemma acc_frame_same h h' (a : nat -> Z) :
  (forall b, 0 < a b -> nth_error h' b = nth_error h b) -> acc_frame h h' a.
Proof.
  intros S x l (V1 & V2 & V3) H. split; auto. split; auto.
  destruct (a_blk x) as [b|] eqn:Ex; auto. destruct V3 as (m & E & V3). exists m.
  split; auto. rewrite S; auto.
Qed.

Lemma str_frame_grows a h h' c c' a' :
  grows a h h' -> heap_ok h' c' a' -> (forall b, c b <= c' b) -> str_frame h h' c.
Proof.
  intros G O L r l V H. eapply val_grows; eauto. intros b Eb. specialize (H b Eb).
  specialize (L b). lia.
Qed.

Lemma str_frame_elsewhere h h' c a x :
  heap_ok h c a -> hasa a x -> elsewhere x h h' -> str_frame h h' c.
Proof.
  intros O H [L E] r l [V1 V2] Hr. split; auto. destruct (memo_ r) as [b|] eqn:Em; auto.
  destruct (data r); auto. destruct V2 as (-> & y & Ey & V2). split; auto. exists y.
  split; auto. rewrite E; auto. { apply nth_lt in Ey; auto. }
  intros Q. specialize (H _ Q). destruct (heap_ok_live _ _ _ b O (Hr _ Em)) as (z & ? & ?). lia.
Qed.

Lemma acc_frame_elsewhere h h' c a x :
  heap_ok h c a -> hasa a x -> elsewhere x h h' ->
  acc_frame h h' (fun b => a b - one (a_blk x) b).
Proof.
  intros O H [L E] y l (V1 & V2 & V3) Hy. split; auto. split; auto.
  destruct (a_blk y) as [b|] eqn:Ey; auto. destruct V3 as (m & Em & V3). exists m.
  split; auto. rewrite E; auto. { apply nth_lt in Em; auto. }
  intros Q. specialize (Hy _ Ey). cbn beta in Hy. rewrite Q, one_self in Hy.
  destruct (heap_ok_acc _ _ _ b O (H _ Q)) as (z & _ & _ & _ & _ & A). lia.
Qed.

Lemma rel_frame st vs h' v w r : inv st vs ->
  nth_error (strs st) v = Some (Some r) -> w <> v ->
  str_frame (hp st) h' (fun b => cs (strs st) b - one (memo_ r) b) ->
  rel_str h' (nth_error (strs st) w) (nth_error (v_strs vs) w).
Proof.
  intros I E N F. pose proof (inv_strs _ _ I w) as R.
  unfold rel_str in *. destruct (nth_error (strs st) w) as [[rw|]|] eqn:Ew; auto.
  destruct (nth_error (v_strs vs) w) as [[[l|]|]|]; auto.
  destruct R as [R1 R2]. split; auto. apply F; auto.
  intros b Eb. cbn beta. pose proof (cnt_two memo_ _ _ _ _ _ b N Ew E) as T.
  simpl in T. rewrite Eb, one_self in T. lia.
Qed.

Lemma rel_frame_all st vs h' w : inv st vs -> str_frame (hp st) h' (cs (strs st)) ->
  rel_str h' (nth_error (strs st) w) (nth_error (v_strs vs) w).
Proof.
  intros I F. pose proof (inv_strs _ _ I w) as R.
  unfold rel_str in *. destruct (nth_error (strs st) w) as [[rw|]|] eqn:Ew; auto.
  destruct (nth_error (v_strs vs) w) as [[[l|]|]|]; auto.
  destruct R as [R1 R2]. split; auto. apply F; auto. eapply inv_has; eauto.
Qed.

Lemma arel_frame st vs h' v w x : inv st vs ->
  nth_error (accs st) v = Some (Some x) -> w <> v ->
  acc_frame (hp st) h' (fun b => ca (accs st) b - one (a_blk x) b) ->
  rel_acc h' (nth_error (accs st) w) (nth_error (v_accs vs) w).
Proof.
  intros I E N F. pose proof (inv_accs _ _ I w) as R.
  unfold rel_acc in *. destruct (nth_error (accs st) w) as [[xw|]|] eqn:Ew; auto.
  destruct (nth_error (v_accs vs) w) as [[l|]|]; auto.
  apply F; auto. intros b Eb. cbn beta. pose proof (cnt_two a_blk _ _ _ _ _ b N Ew E) as T.
  simpl in T. rewrite Eb, one_self in T. lia.
Qed.

Lemma arel_frame_all st vs h' w : inv st vs -> acc_frame (hp st) h' (ca (accs st)) ->
  rel_acc h' (nth_error (accs st) w) (nth_error (v_accs vs) w).
Proof.
  intros I F. pose proof (inv_accs _ _ I w) as R.
  unfold rel_acc in *. destruct (nth_error (accs st) w) as [[xw|]|] eqn:Ew; auto.
  destruct (nth_error (v_accs vs) w) as [[l|]|]; auto.
  apply F; auto. eapply inv_hasa; eauto.
Qed.

(** ** Changing one variable *)

Lemma inv_set st vs v r h' (r' : option rep) (l : option (option (list Z))) :
  inv st vs -> nth_error (strs st) v = Some (Some r) ->
  heap_ok h' (fun b => cs (strs st) b - one (memo_ r) b + wt memo_ r' b) (ca (accs st)) ->
  str_frame (hp st) h' (fun b => cs (strs st) b - one (memo_ r) b) ->
  acc_frame (hp st) h' (ca (accs st)) ->
  rel_str h' (Some r') (Some l) ->
  inv (set_str st h' v r') (put_str vs v l).
Proof.
  intros I E O F Fa R. constructor; simpl.
  - eapply heap_ok_ext; eauto. intros b. cbn beta. rewrite (cnt_put memo_ _ _ _ _ _ E). auto.
  - rewrite !put_length. apply I.
  - rewrite put_length. apply I.
  - intros w. rewrite !nth_put. rewrite <- (inv_len _ _ I).
    destruct (Nat.eqb_spec v w) as [<-|N].
    + destruct (Nat.ltb_spec v (length (strs st))); auto. simpl. auto.
    + eapply rel_frame; eauto.
  - apply I.
  - intros w. apply arel_frame_all; auto.
Qed.

Lemma inv_replaced st vs v r h' r' l :
  inv st vs -> nth_error (strs st) v = Some (Some r) ->
  replaced (hp st) (cs (strs st)) (ca (accs st)) r h' r' l -> len l <= max_len ->
  inv (set_str st h' v (Some r')) (put_str vs v (Some (Some l))).
Proof.
  intros I E (O & F & Fa & V) M. eapply inv_set; eauto.
  - apply acc_frame_same. auto.
  - split; auto.
Qed.

Lemma inv_added st vs h' r' l :
  inv st vs -> added (hp st) (cs (strs st)) (ca (accs st)) h' r' l -> len l <= max_len ->
  room vs = true ->
  inv (add_str st h' r') {| v_strs := v_strs vs ++ [Some (Some l)]; v_accs := v_accs vs |}.
Proof.
  intros I (O & G & V) M Rm. unfold room in Rm. pose proof (inv_len _ _ I) as L.
  constructor; simpl.
  - eapply heap_ok_ext; eauto. intros b. rewrite cnt_app. simpl. lia.
  - rewrite !app_length, L. auto.
  - rewrite app_length. simpl. lia.
  - intros w. assert (R := rel_frame_all st vs h' w I).
    destruct (Nat.lt_ge_cases w (length (strs st))).
    + rewrite !nth_error_app1 by lia. apply R.
      eapply str_frame_grows; eauto. intros b. cbn beta. pose proof (one_range (memo_ r') b). lia.
    + rewrite !nth_error_app2 by lia. rewrite L. destruct (w - length (v_strs vs))%nat as [|[|]].
      * simpl. auto.
      * simpl. auto.
      * simpl. auto.
  - apply I.
  - intros w. apply arel_frame_all; auto. apply acc_frame_same. eapply grows_acc; eauto. apply I.
Qed.

Lemma inv_areplaced st vs v x h' x' l :
  inv st vs -> nth_error (accs st) v = Some (Some x) ->
  areplaced (hp st) (cs (strs st)) (ca (accs st)) x h' x' l ->
  inv (set_acc st h' v (Some x')) {| v_strs := v_strs vs; v_accs := put (v_accs vs) v (Some l) |}.
Proof.
  intros I E (O & El & V). pose proof (inv_hasa _ _ _ E) as H. pose proof (inv_heap _ _ I) as O0.
  constructor; simpl.
  - eapply heap_ok_ext; eauto. intros b. cbn beta. rewrite (cnt_put a_blk _ _ _ _ _ E). auto.
  - apply I.
  - apply I.
  - intros w. apply rel_frame_all; auto. eapply str_frame_elsewhere; eauto.
  - rewrite !put_length. apply I.
  - intros w. rewrite !nth_put. rewrite <- (inv_alen _ _ I).
    destruct (Nat.eqb_spec v w) as [<-|N].
    + destruct (Nat.ltb_spec v (length (accs st))); simpl; auto.
    + eapply arel_frame; eauto. eapply acc_frame_elsewhere; eauto.
Qed.

(** ** Where characters come from *)

Lemma slice_some l i n s : slice l i n = Some s ->
  0 <= i /\ 0 <= n /\ i + n <= len l /\ s = sub l i n.
Proof.
  unfold slice. destruct (_ && _) eqn:E; [|discriminate]. intros Q. injection Q as <-.
  unfold len. split; [lia|]. split; [lia|]. split; [lia|]. reflexivity.
Qed.

Lemma source_ok st vs s l : inv st vs -> chars vs s = Some l ->
  exists p n, source st s = Fine (p, n) /\
    given (hp st) (cs (strs st)) (ca (accs st)) p n l /\
    (forall v x la b o, nth_error (accs st) v = Some (Some x) -> aval (hp st) x la ->
       a_blk x = Some b -> p = PM b o -> o + n <= len la).
Proof.
  intros I E. pose proof (inv_heap _ _ I) as O. destruct s as [l'|w i n|w i n]; simpl in *.
  - injection E as ->. exists (PS l 0), (len l). split; auto. split; [|discriminate].
    split; auto. split; [lia|]. split; [lia|]. apply sub_all.
  - destruct (value vs w) as [lw|] eqn:Ew; [|discriminate].
    destruct (inv_value _ _ _ _ I Ew) as (r & E1 & E2 & V & M & H & _).
    rewrite E2. cbn [bind]. destruct (slice_some _ _ _ _ E) as (Hi & Hn & Hl & ->).
    exists (move (data r) i), n. split; auto. split. { eapply val_given; eauto. }
    intros v x la b o Ex Va Eb Ep. exfalso.
    pose proof (inv_hasa _ _ _ Ex _ Eb) as A.
    destruct V as [V1 V2]. destruct (memo_ r) as [b'|] eqn:Em, (data r) as [b2 o2|]; simpl in Ep;
      try contradiction; try discriminate.
    injection Ep as -> <-. destruct V2 as [-> _].
    destruct (heap_ok_live _ _ _ b' O (H _ Em)) as (z & ? & ?). lia.
  - destruct (accum vs w) as [lw|] eqn:Ew; [|discriminate].
    destruct (inv_accum _ _ _ _ I Ew) as (x & E1 & E2 & V & H).
    rewrite E2. cbn [bind]. destruct (slice_some _ _ _ _ E) as (Hi & Hn & Hl & ->).
    exists (a_ptr x i), n. split; auto. split. { eapply aval_given; eauto. }
    intros v y la b o Ey Va Eb Ep.
    unfold a_ptr in Ep. destruct (a_blk x) as [b'|] eqn:Ex; [|discriminate].
    injection Ep as -> <-.
    destruct (Nat.eq_dec v w) as [->|N].
    + assert (y = x) by congruence. subst y.
      rewrite <- (proj1 Va). rewrite (proj1 V). auto.
    + exfalso. pose proof (cnt_two a_blk _ _ _ _ _ b N Ey E1) as T. simpl in T.
      rewrite Ex, Eb, one_self in T.
      destruct (heap_ok_acc _ _ _ b O (H _ Ex)) as (z & ? & ? & ? & ? & ?). lia.
Qed.

Lemma alone_count st v r b : alone st v -> nth_error (strs st) v = Some (Some r) ->
  memo_ r = Some b -> cs (strs st) b = 1.
Proof.
  intros Al E Eb. pose proof (cnt_put memo_ _ _ _ None b E) as P. simpl in P.
  rewrite Eb, one_self in P.
  rewrite cnt_zero in P; [lia|]. intros w rw Ew.
  destruct (Nat.eq_dec w v) as [->|N].
  - rewrite put_same in Ew; [discriminate|]. apply nth_lt in E; auto.
  - rewrite put_other in Ew by auto. eapply Al; eauto.
Qed.

Lemma fits_le l : fits l = true -> len l <= max_len.
Proof. unfold fits, len. lia. Qed.

Ltac some H := match type of H with
  | with1 ?x _ = Some _ => let E := fresh "E" in destruct x eqn:E; [cbn [with1] in H|discriminate H]
  end.

Lemma let_str_some vs v l vs' : let_str vs v l = Some vs' ->
  alive vs v = true /\ len l <= max_len /\ vs' = put_str vs v (Some (Some l)).
Proof.
  unfold let_str. destruct (alive vs v); cbn [andb]; [|discriminate].
  destruct (fits l) eqn:F; [|discriminate]. intros E. injection E as <-.
  apply fits_le in F. auto.
Qed.

Lemma let_acc_some vs v l vs' : let_acc vs v l = Some vs' ->
  len l <= max_len /\ (exists l0, accum vs v = Some l0) /\
  vs' = {| v_strs := v_strs vs; v_accs := put (v_accs vs) v (Some l) |}.
Proof.
  unfold let_acc. destruct (accum vs v); [|discriminate].
  destruct (fits l) eqn:F; [|discriminate]. intros E. injection E as <-.
  apply fits_le in F. eauto.
Qed.

Lemma new_str_some vs l vs' : new_str vs l = Some vs' ->
  room vs = true /\ len l <= max_len /\
  vs' = {| v_strs := v_strs vs ++ [Some (Some l)]; v_accs := v_accs vs |}.
Proof.
  unfold new_str. destruct (room vs); cbn [andb]; [|discriminate].
  destruct (fits l) eqn:F; [|discriminate]. intros E. injection E as <-.
  apply fits_le in F. auto.
Qed.

Lemma quiet_some o vs' x : quiet o = Some (vs', x) -> o = Some vs' /\ x = None.
Proof. destruct o; simpl; [|discriminate]. intros E. injection E as <- <-. auto. Qed.

(** Putting back what is there. *)
Lemma put_id {A} (l : list A) v x : nth_error l v = Some x -> put l v x = l.
Proof.
  revert v; induction l; intros [|v] E; simpl in *; try discriminate; f_equal; auto. congruence.
Qed.

Lemma put_str_id vs v l : nth_error (v_strs vs) v = Some (Some (Some l)) ->
  put_str vs v (Some (Some l)) = vs.
Proof. intros E. unfold put_str. rewrite put_id by auto. destruct vs; auto. Qed.

Lemma put_acc_id vs v l : nth_error (v_accs vs) v = Some (Some l) ->
  {| v_strs := v_strs vs; v_accs := put (v_accs vs) v (Some l) |} = vs.
Proof. intros E. rewrite put_id by auto. destruct vs; auto. Qed.

Lemma accum_nth vs v l : accum vs v = Some l -> nth_error (v_accs vs) v = Some (Some l).
Proof. unfold accum. destruct (nth_error (v_accs vs) v) as [[|]|]; congruence. Qed.

Definition excused (fixed : bool) (st : state) (o : op) : Prop :=
  fixed = true \/
  match o with Poke v _ _ => alone st v | ATransfer v => alone st v | _ => True end.

Theorem step_ok fixed st vs o vs' x :
  inv st vs -> meaning vs o = Some (vs', x) -> excused fixed st o ->
  exists st', step fixed st o = Fine (st', x) /\ inv st' vs'.
Proof.
  intros I Mn Ex. pose proof (inv_heap _ _ I) as O. pose proof (inv_small _ _ I) as Sm.
  destruct o; simpl in Mn.
  - (* New *)
    some Mn. apply quiet_some in Mn as [Mn ->]. apply new_str_some in Mn as (Rm & M & ->).
    destruct (source_ok _ _ _ _ I E) as (p & n & Es & G & _).
    destruct (assign_new (hp st) _ _ empty_rep p n l O G) as (h' & r' & E1 & O1 & G1 & V1).
    { rewrite <- (proj1 G). auto. }
    simpl. rewrite Es. cbn [bind]. rewrite E1. cbn [bind]. eexists. split; [reflexivity|].
    apply inv_added; auto. split; auto.
  - (* Stable *)
    apply quiet_some in Mn as [Mn ->]. apply new_str_some in Mn as (Rm & M & ->).
    simpl. eexists. split; [reflexivity|]. apply inv_added; auto. split; [|split].
    + eapply heap_ok_ext; eauto. intros; simpl; lia.
    + apply grows_refl.
    + split; simpl; auto. pose proof (len_nonneg l). split; [lia|]. split.
      { rewrite len_app. unfold len at 3. simpl. lia. }
      unfold sub. simpl. unfold len. rewrite Nat2Z.id, firstn_app, firstn_all, Nat.sub_diag.
      simpl. apply app_nil_r.
  - (* Copy *)
    some Mn. apply quiet_some in Mn as [Mn ->]. apply new_str_some in Mn as (Rm & M & ->).
    destruct (inv_value _ _ _ _ I E) as (r & E1 & E2 & V & _ & H & _).
    destruct (ref_added (hp st) _ _ r l O Sm H V) as (h' & E3 & A).
    simpl. rewrite E2. cbn [bind]. rewrite E3. cbn [bind]. eexists. split; [reflexivity|].
    apply inv_added; auto.
  - (* MoveNew *)
    some Mn. apply quiet_some in Mn as [Mn ->]. apply new_str_some in Mn as (Rm & M & ->).
    destruct (inv_value _ _ _ _ I E) as (r & E1 & E2 & V & _ & H & E4).
    simpl. rewrite E2. cbn [bind]. eexists. split; [reflexivity|].
    unfold room in Rm. simpl in Rm. rewrite put_length in Rm. pose proof (inv_len _ _ I) as L.
    constructor; simpl.
    + eapply heap_ok_ext; eauto. intros b. rewrite cnt_app, (cnt_put memo_ _ _ _ _ _ E1).
      simpl. lia.
    + rewrite !app_length, !put_length, L. auto.
    + rewrite app_length, put_length. simpl. lia.
    + intros v. destruct (Nat.lt_ge_cases v (length (strs st))) as [Lt|Ge].
      * rewrite !nth_error_app1 by (rewrite put_length; lia). rewrite !nth_put.
        destruct (Nat.eqb_spec w v) as [<-|N].
        -- rewrite <- L. destruct (Nat.ltb_spec w (length (strs st))); simpl; auto.
        -- apply I.
      * rewrite !nth_error_app2 by (rewrite put_length; lia). rewrite !put_length, <- L.
        destruct (v - length (strs st))%nat as [|[|]]; simpl; auto.
    + apply I.
    + apply I.
  - (* Assign *)
    some Mn. apply quiet_some in Mn as [Mn ->]. apply let_str_some in Mn as (Al & M & ->).
    destruct (inv_value _ _ _ _ I E) as (rw & E1 & E2 & V & _ & H & _).
    destruct (inv_alive _ _ _ I Al) as (rv & F1 & F2 & Hv).
    destruct (ref_ok (hp st) _ _ rw O) as (h1 & R1 & O1 & G1).
    { intros b Eb. split; [apply H; auto|apply Sm]. }
    destruct (deref_ok h1 _ _ rv O1) as (h2 & R2 & O2 & G2).
    { intros b Eb. specialize (Hv b Eb). pose proof (one_range (memo_ rw) b). lia. }
    simpl. rewrite F2. cbn [bind]. rewrite E2. cbn [bind]. rewrite R1. cbn [bind].
    rewrite R2. cbn [bind]. eexists. split; [reflexivity|].
    eapply inv_replaced; eauto. apply becomes_replaced; auto. split; [|split].
    + eapply heap_ok_ext; eauto. intros; cbn beta; lia.
    + eapply grows_trans; eauto.
    + eapply val_grows; [exact (grows_trans _ _ _ _ G1 G2)|exact V|exact O2|].
      intros b Eb. cbn beta. rewrite Eb, one_self. specialize (H b Eb).
      pose proof (one_range (memo_ rv) b). lia.
  - (* MoveTo *)
    destruct (Nat.eqb_spec v w) as [|N]; [discriminate|].
    some Mn. apply quiet_some in Mn as [Mn ->]. some Mn. injection Mn as <-.
    apply let_str_some in E0 as (Al & M & ->).
    destruct (inv_value _ _ _ _ I E) as (rw & E1 & E2 & V & _ & H & E4).
    destruct (inv_alive _ _ _ I Al) as (rv & F1 & F2 & Hv).
    destruct (deref_ok (hp st) _ _ rv O Hv) as (h2 & R2 & O2 & G2).
    simpl. rewrite F2. cbn [bind]. rewrite E2. cbn [bind]. rewrite R2. cbn [bind].
    unfold str. simpl. rewrite put_other by auto. rewrite E1. cbn [bind].
    eexists. split; [reflexivity|].
    pose proof (inv_len _ _ I) as L.
    assert (Sf : str_frame (hp st) h2 (fun b => cs (strs st) b - one (memo_ rv) b)).
    { eapply str_frame_grows; eauto. intros; cbn beta; lia. }
    constructor; simpl.
    + eapply heap_ok_ext; eauto. intros b. cbn beta.
      rewrite (cnt_put memo_ (put (strs st) v (Some rw)) w (Some rw)).
      2: { rewrite put_other; auto. }
      rewrite (cnt_put memo_ _ _ _ _ _ F1). simpl. lia.
    + rewrite !put_length. auto.
    + rewrite !put_length. apply I.
    + intros d. rewrite !nth_put, !put_length, <- L.
      destruct (Nat.eqb_spec w d) as [<-|Nw].
      * destruct (Nat.ltb_spec w (length (strs st))); simpl; auto.
      * destruct (Nat.eqb_spec v d) as [<-|Nv].
        -- destruct (Nat.ltb_spec v (length (strs st))); simpl; auto. split; auto.
           apply Sf; auto. intros b Eb. cbn beta.
           pose proof (cnt_two memo_ _ _ _ _ _ b N F1 E1) as T. simpl in T.
           rewrite Eb, one_self in T. lia.
        -- eapply rel_frame; eauto.
    + apply I.
    + intros d. apply arel_frame_all; auto. apply acc_frame_same. eapply grows_acc; eauto.
  - (* Swap *)
    some Mn. some Mn. injection Mn as <- <-.
    destruct (inv_value _ _ _ _ I E) as (rv & F1 & F2 & Vv & Mv & Hv & F4).
    destruct (inv_value _ _ _ _ I E0) as (rw & E1 & E2 & Vw & Mw & Hw & E4).
    simpl. rewrite F2. cbn [bind]. rewrite E2. cbn [bind]. eexists. split; [reflexivity|].
    pose proof (inv_len _ _ I) as L.
    assert (Nw : nth_error (put (strs st) v (Some rw)) w = Some (Some rw)).
    { rewrite nth_put. destruct (Nat.eqb_spec v w) as [->|]; auto.
      destruct (Nat.ltb_spec w (length (strs st))); auto. apply nth_lt in E1. lia. }
    constructor; simpl.
    + eapply heap_ok_ext; eauto. intros b.
      rewrite (cnt_put memo_ _ _ _ _ _ Nw), (cnt_put memo_ _ _ _ _ _ F1). simpl. lia.
    + rewrite !put_length. auto.
    + rewrite !put_length. apply I.
    + intros d. rewrite !nth_put, !put_length, <- L.
      destruct (Nat.eqb_spec w d) as [<-|N1].
      * destruct (Nat.ltb_spec w (length (strs st))); simpl; auto.
      * destruct (Nat.eqb_spec v d) as [<-|N2].
        -- destruct (Nat.ltb_spec v (length (strs st))); simpl; auto.
        -- apply I.
    + apply I.
    + apply I.
  - (* AssignChars *)
    some Mn. apply quiet_some in Mn as [Mn ->]. apply let_str_some in Mn as (Al & M & ->).
    destruct (source_ok _ _ _ _ I E) as (p & n & Es & G & _).
    destruct (inv_alive _ _ _ I Al) as (rv & F1 & F2 & Hv).
    destruct (assign_ok (hp st) _ _ rv p n l O Hv G) as (h' & r' & E1 & B).
    { rewrite <- (proj1 G). auto. }
    simpl. rewrite F2. cbn [bind]. rewrite Es. cbn [bind]. rewrite E1. cbn [bind].
    eexists. split; [reflexivity|]. eapply inv_replaced; eauto. apply becomes_replaced; auto.
  - (* Append *)
    some Mn. some Mn. apply quiet_some in Mn as [Mn ->].
    apply let_str_some in Mn as (Al & M & ->).
    destruct (inv_value _ _ _ _ I E) as (rv & F1 & F2 & Vv & Mv & Hv & F4).
    destruct (inv_value _ _ _ _ I E0) as (rw & E1 & E2 & Vw & Mw & Hw & E4).
    rewrite len_app in M.
    destruct (append_ok (hp st) _ _ rv l (data rw) (length_ rw) l0 (arg_of (memo_ rw)) O Sm Hv Vv)
      as (h' & r' & R1 & B).
    { rewrite (proj1 Vw). auto. }
    { apply val_given_all; auto. }
    { intros b Eb. destruct (memo_ rw) as [b'|] eqn:Em; [|discriminate].
      simpl in Eb. injection Eb as ->. pose proof Vw as [W1 W2]. rewrite Em in W2.
      destruct (data rw) as [b' o|]; [|contradiction]. destruct W2 as [-> _].
      exists o. split; auto. split; [apply Hw; auto|].
      intros -> Nz. destruct (Nat.eq_dec v w) as [->|Nvw].
      - assert (l0 = []) by congruence. subst l0. unfold len in W1. simpl in W1. lia.
      - pose proof (cnt_two memo_ _ _ _ _ _ b Nvw F1 E1) as T. simpl in T.
        rewrite Em, one_self in T. lia. }
    simpl. rewrite F2. cbn [bind]. rewrite E2. cbn [bind]. rewrite R1. cbn [bind].
    eexists. split; [reflexivity|]. eapply inv_replaced; eauto.
    { apply becomes_replaced; auto. } rewrite len_app. auto.
  - (* AppendChars *)
    some Mn. some Mn. apply quiet_some in Mn as [Mn ->].
    apply let_str_some in Mn as (Al & M & ->).
    destruct (inv_value _ _ _ _ I E) as (rv & F1 & F2 & Vv & Mv & Hv & F4).
    destruct (source_ok _ _ _ _ I E0) as (p & n & Es & G & _).
    rewrite len_app in M.
    destruct (append_ok (hp st) _ _ rv l p n l0 Absent O Sm Hv Vv) as (h' & r' & R1 & B); auto.
    { rewrite <- (proj1 G). auto. }
    { discriminate. }
    simpl. rewrite F2. cbn [bind]. rewrite Es. cbn [bind]. rewrite R1. cbn [bind].
    eexists. split; [reflexivity|]. eapply inv_replaced; eauto.
    { apply becomes_replaced; auto. } rewrite len_app. auto.
  - (* Fill *)
    some Mn. destruct (Z.leb_spec 0 n) as [Nn|]; [|discriminate].
    apply quiet_some in Mn as [Mn ->]. apply let_str_some in Mn as (Al & M & ->).
    destruct (inv_value _ _ _ _ I E) as (rv & F1 & F2 & Vv & Mv & Hv & F4).
    destruct (fill_ok (hp st) _ _ rv l c n O Hv Vv Nn M) as (h' & r' & R1 & B).
    simpl. rewrite F2. cbn [bind]. rewrite R1. cbn [bind].
    eexists. split; [reflexivity|]. eapply inv_replaced; eauto. apply becomes_replaced; auto.
  - (* Substr *)
    some Mn. destruct (substr_ints l pos n) eqn:Si; [|discriminate].
    apply quiet_some in Mn as [Mn ->]. apply new_str_some in Mn as (Rm & M & ->).
    destruct (inv_value _ _ _ _ I E) as (r & E1 & E2 & V & M' & H & _).
    destruct (substr_ok (hp st) _ _ r l pos n O Sm H V M' Si) as (h' & r' & E3 & A).
    simpl. rewrite E2. cbn [bind]. rewrite E3. cbn [bind]. eexists. split; [reflexivity|].
    apply inv_added; auto.
  - (* CStr *)
    some Mn. destruct (fits (l ++ [0])) eqn:Ft; [|discriminate]. injection Mn as <- <-.
    apply fits_le in Ft. rewrite len_app in Ft. change (len [0]) with 1 in Ft.
    destruct (inv_value _ _ _ _ I E) as (rv & F1 & F2 & Vv & Mv & Hv & F4).
    destruct (c_str_ok (hp st) _ _ rv l O Hv Vv Ft) as (h' & r' & R1 & B & Ld).
    simpl. rewrite F2. cbn [bind]. rewrite R1. cbn [bind]. rewrite Ld. cbn [bind].
    eexists. split; [reflexivity|]. rewrite <- (put_str_id vs v l F4).
    eapply inv_replaced; eauto. apply becomes_replaced; auto.
  - (* Poke *)
    some Mn. destruct (_ && _) eqn:Q in Mn; [|discriminate]. injection Mn as <- <-.
    destruct (inv_value _ _ _ _ I E) as (rv & F1 & F2 & Vv & Mv & Hv & F4).
    destruct (poke_ok fixed (hp st) _ _ rv l i c O Sm Hv Vv Mv) as (h1 & r' & b & o & h' & R1 & R2 & R3 & R4).
    { unfold len. lia. }
    { destruct Ex as [Ex|Ex]; auto. right. intros b Eb. eapply alone_count; eauto. }
    simpl. rewrite F2. cbn [bind]. rewrite R1. cbn [bind]. rewrite R2, R3. cbn [bind].
    eexists. split; [reflexivity|]. eapply inv_replaced; eauto.
    unfold len. rewrite put_length. auto.
  - (* Unique *)
    some Mn. apply quiet_some in Mn as [Mn ->]. apply new_str_some in Mn as (Rm & M & ->).
    destruct (inv_value _ _ _ _ I E) as (r & E1 & E2 & V & _ & H & _).
    destruct (unique_ok (hp st) _ _ r l O Sm H V M) as (h' & r' & E3 & A).
    simpl. rewrite E2. cbn [bind]. rewrite E3. cbn [bind]. eexists. split; [reflexivity|].
    apply inv_added; auto.
  - (* Shrink *)
    some Mn. injection Mn as <- <-.
    destruct (inv_value _ _ _ _ I E) as (rv & F1 & F2 & Vv & Mv & Hv & F4).
    destruct (shrink_ok (hp st) _ _ rv l O Hv Vv Mv) as (h' & r' & R1 & B).
    simpl. rewrite F2. cbn [bind]. rewrite R1. cbn [bind].
    eexists. split; [reflexivity|]. rewrite <- (put_str_id vs v l F4).
    eapply inv_replaced; eauto. apply becomes_replaced; auto.
  - (* Read *)
    some Mn. injection Mn as <- <-.
    destruct (inv_value _ _ _ _ I E) as (rv & F1 & F2 & Vv & Mv & Hv & F4).
    simpl. rewrite F2. cbn [bind].
    rewrite (load_given _ _ _ _ _ _ (val_given_all _ _ _ _ _ Vv Hv O)). cbn [bind]. eauto.
  - (* Destroy *)
    destruct (alive vs v) eqn:Al; [|discriminate]. injection Mn as <- <-.
    destruct (inv_alive _ _ _ I Al) as (rv & F1 & F2 & Hv).
    destruct (deref_ok (hp st) _ _ rv O Hv) as (h' & R2 & O2 & G2).
    simpl. rewrite F2. cbn [bind]. rewrite R2. cbn [bind]. eexists. split; [reflexivity|].
    eapply inv_set; eauto.
    + eapply heap_ok_ext; eauto. intros; simpl; lia.
    + eapply str_frame_grows; eauto. intros; cbn beta; lia.
    + apply acc_frame_same. eapply grows_acc; eauto.
    + exact Logic.I.
  - (* ANew *)
    injection Mn as <- <-. simpl. eexists. split; [reflexivity|].
    pose proof (inv_alen _ _ I) as L. constructor; simpl.
    + eapply heap_ok_ext; eauto. intros b. rewrite cnt_app. simpl. lia.
    + apply I.
    + apply I.
    + apply I.
    + rewrite !app_length, L. auto.
    + intros w. destruct (Nat.lt_ge_cases w (length (accs st))).
      * rewrite !nth_error_app1 by lia. apply I.
      * rewrite !nth_error_app2 by lia. rewrite L.
        destruct (w - length (v_accs vs))%nat as [|[|]]; simpl; auto. apply aval_empty.
  - (* AAppend *)
    some Mn. some Mn. apply quiet_some in Mn as [Mn ->].
    apply let_acc_some in Mn as (M & _ & ->). rewrite len_app in M.
    destruct (inv_accum _ _ _ _ I E) as (xa & E1 & E2 & V & H).
    destruct (source_ok _ _ _ _ I E0) as (p & n & Es & G & D).
    destruct (acc_append_ok (hp st) _ _ xa l p n l0 O H V G) as (h' & x' & R1 & R2).
    { rewrite <- (proj1 G). auto. } { intros b o. eapply D; eauto. }
    simpl. rewrite E2. cbn [bind]. rewrite Es. cbn [bind]. rewrite R1. cbn [bind].
    eexists. split; [reflexivity|]. eapply inv_areplaced; eauto.
  - (* AChar *)
    some Mn. apply quiet_some in Mn as [Mn ->].
    apply let_acc_some in Mn as (M & _ & ->). rewrite len_app in M. change (len [c]) with 1 in M.
    destruct (inv_accum _ _ _ _ I E) as (xa & E1 & E2 & V & H).
    destruct (char_ok (hp st) _ _ xa l c O H V M) as (h' & x' & R1 & R2).
    simpl. rewrite E2. cbn [bind]. rewrite R1. cbn [bind].
    eexists. split; [reflexivity|]. eapply inv_areplaced; eauto.
  - (* AClear *)
    apply quiet_some in Mn as [Mn ->]. apply let_acc_some in Mn as (M & (l & E) & ->).
    destruct (inv_accum _ _ _ _ I E) as (xa & E1 & E2 & V & H).
    simpl. rewrite E2. cbn [bind]. eexists. split; [reflexivity|].
    eapply inv_areplaced; eauto. split; [|split; auto using elsewhere_refl].
    + eapply heap_ok_ext; eauto. intros; cbn [a_blk]; lia.
    + destruct V as (V1 & V2 & V3). split; auto. split; auto. simpl.
      destruct (a_blk xa); auto.
      * destruct V3 as (m & Em & Cm & L & P & B & S). exists m. unfold len at 1 3; simpl.
        repeat (split; auto). lia.
      * destruct V3. auto.
  - (* APop *)
    some Mn. destruct (_ && _) eqn:Q in Mn; [|discriminate]. apply quiet_some in Mn as [Mn ->].
    apply let_acc_some in Mn as (M & _ & ->).
    destruct (inv_accum _ _ _ _ I E) as (xa & E1 & E2 & V & H).
    simpl. rewrite E2. cbn [bind]. pose proof V as (V1 & V2 & V3).
    rewrite V1. change (Z.of_nat (length l)) with (len l) in Q. rewrite Q. cbn [need bind].
    eexists. split; [reflexivity|].
    eapply inv_areplaced; eauto. split; [|split; auto using elsewhere_refl].
    + eapply heap_ok_ext; eauto. intros; cbn [a_blk]; lia.
    + assert (Ll : len (firstn (length l - Z.to_nat n) l) = len l - n).
      { unfold len in *. rewrite firstn_length. lia. }
      split; auto. split; auto. simpl. destruct (a_blk xa); auto.
      * destruct V3 as (m & Em & Cm & L & P & B & S). exists m.
        split; auto. split; auto. split; [lia|]. split; auto. split; auto.
        rewrite Ll. replace (length l - Z.to_nat n)%nat with (Z.to_nat (len l - n))
          by (unfold len in *; lia).
        transitivity (sub l 0 (len l - n)); [|reflexivity].
        replace (sub l 0 (len l - n)) with (sub (sub (m_buf m) 0 (len l)) 0 (len l - n))
          by now rewrite S.
        rewrite sub_sub by lia. reflexivity.
      * destruct V3 as [V3 ->]. rewrite firstn_nil. auto.
  - (* ACStr *)
    some Mn. injection Mn as <- <-.
    destruct (inv_accum _ _ _ _ I E) as (xa & E1 & E2 & V & H).
    destruct (acc_c_str_ok (hp st) _ _ xa l O H V) as (h' & x' & R1 & R2 & R3).
    simpl. rewrite E2. cbn [bind]. rewrite R1. cbn [bind]. rewrite R3. cbn [bind].
    eexists. split; [reflexivity|].
    rewrite <- (put_acc_id vs a l (accum_nth _ _ _ E)). eapply inv_areplaced; eauto.
  - (* ATake *)
    some Mn. some Mn. apply quiet_some in Mn as [Mn ->]. apply let_acc_some in E0 as (_ & _ & ->).
    apply new_str_some in Mn as (Rm & M & ->). simpl in *.
    destruct (inv_accum _ _ _ _ I E) as (xa & E1 & E2 & V & H).
    destruct (take_ok (hp st) _ _ xa l O H V) as (h' & x' & r & R1 & O1 & El & V1 & V2).
    simpl. rewrite E2. cbn [bind]. rewrite R1. cbn [bind]. eexists. split; [reflexivity|].
    pose proof (inv_len _ _ I) as L. unfold room in Rm. simpl in Rm.
    constructor; simpl.
    + eapply heap_ok_ext; eauto.
      * intros b. rewrite cnt_app. simpl. lia.
      * intros b. cbn beta. rewrite (cnt_put a_blk _ _ _ _ _ E1). auto.
    + rewrite !app_length, L. auto.
    + rewrite app_length. simpl. lia.
    + intros w. assert (R := rel_frame_all st vs h' w I).
      destruct (Nat.lt_ge_cases w (length (strs st))).
      * rewrite !nth_error_app1 by lia. apply R. eapply str_frame_elsewhere; eauto.
      * rewrite !nth_error_app2 by lia. rewrite L.
        destruct (w - length (v_strs vs))%nat as [|[|]]; simpl; auto.
    + rewrite !put_length. apply I.
    + intros w. rewrite !nth_put. rewrite <- (inv_alen _ _ I).
      destruct (Nat.eqb_spec a w) as [<-|N].
      * destruct (Nat.ltb_spec a (length (accs st))); simpl; auto.
      * eapply arel_frame; eauto. eapply acc_frame_elsewhere; eauto.
  - (* ATransfer *)
    some Mn. injection Mn as <- <-.
    destruct (inv_value _ _ _ _ I E) as (rv & F1 & F2 & Vv & Mv & Hv & F4).
    destruct (transfer_ok fixed (hp st) _ _ rv l O Hv Vv Mv) as (h' & x' & R1 & O1 & Fs & Fa & V1).
    { destruct Ex as [Ex|Ex]; auto. right. intros b Eb. eapply alone_count; eauto. }
    simpl. rewrite F2. cbn [bind]. rewrite R1. cbn [bind]. eexists. split; [reflexivity|].
    pose proof (inv_len _ _ I) as L. pose proof (inv_alen _ _ I) as La.
    constructor; simpl.
    + eapply heap_ok_ext; eauto.
      * intros b. cbn beta. rewrite (cnt_put memo_ _ _ _ _ _ F1). simpl. lia.
      * intros b. rewrite cnt_app. simpl. lia.
    + rewrite !put_length. auto.
    + rewrite !put_length. apply I.
    + intros d. rewrite !nth_put, <- L. destruct (Nat.eqb_spec w d) as [<-|N].
      * destruct (Nat.ltb_spec w (length (strs st))); simpl; auto. split; [apply val_empty|].
        unfold len, max_len. simpl. lia.
      * eapply rel_frame; eauto.
    + rewrite !app_length, La. auto.
    + intros d. destruct (Nat.lt_ge_cases d (length (accs st))).
      * rewrite !nth_error_app1 by lia. apply arel_frame_all; auto. apply acc_frame_same. auto.
      * rewrite !nth_error_app2 by lia. rewrite La.
        destruct (d - length (v_accs vs))%nat as [|[|]]; simpl; auto.
  - (* ARead *)
    some Mn. injection Mn as <- <-.
    destruct (inv_accum _ _ _ _ I E) as (xa & E1 & E2 & V & H).
    simpl. rewrite E2. cbn [bind].
    pose proof (aval_given _ _ _ _ _ 0 (len l) V H O) as G. pose proof (len_nonneg l).
    specialize (G ltac:(lia) ltac:(lia) ltac:(lia)). rewrite sub_all in G.
    rewrite (proj1 V). rewrite (load_given _ _ _ _ _ _ G). cbn [bind]. eauto.
  - (* ADestroy *)
    some Mn. injection Mn as <- <-.
    destruct (inv_accum _ _ _ _ I E) as (xa & E1 & E2 & V & H).
    destruct (free_ok (hp st) _ _ xa l O H V) as (h' & R1 & O1 & El).
    simpl. rewrite E2. cbn [bind]. rewrite R1. cbn [bind]. eexists. split; [reflexivity|].
    constructor; simpl.
    + eapply heap_ok_ext; eauto. intros b. cbn beta.
      rewrite (cnt_put a_blk _ _ _ _ _ E1). simpl. lia.
    + apply I.
    + apply I.
    + intros w. apply rel_frame_all; auto. eapply str_frame_elsewhere; eauto.
    + rewrite !put_length. apply I.
    + intros w. rewrite !nth_put. rewrite <- (inv_alen _ _ I).
      destruct (Nat.eqb_spec a w) as [<-|N].
      * destruct (Nat.ltb_spec a (length (accs st))); simpl; auto.
      * eapply arel_frame; eauto. eapply acc_frame_elsewhere; eauto.
Qed.

(** ** Whole programs *)

Lemma inv_start : inv start nothing.
Proof.
  constructor; simpl; auto; try lia.
  - intros b. simpl. split; [lia|]. destruct b; simpl; auto.
  - intros [|v]; simpl; auto.
  - intros [|v]; simpl; auto.
Qed.

Lemma run_ok fixed os : forall st vs vs' xs,
  inv st vs -> meanings vs os = Some (vs', xs) -> (fixed = true \/ (fixed = false /\ unshared st os)) ->
  exists st', run fixed st os = Fine (st', xs) /\ inv st' vs'.
Proof.
  induction os as [|o os IH]; intros st vs vs' xs I M U; cbn [meanings] in M.
  - injection M as <- <-. exists st. auto.
  - destruct (meaning vs o) as [[v1 x]|] eqn:E1; [cbn [with1] in M|discriminate M].
    destruct (meanings v1 os) as [[v2 ys]|] eqn:E2; [cbn [with1] in M|discriminate M].
    injection M as <- <-.
    destruct (step_ok fixed st vs o v1 x I E1) as (s1 & R1 & I1).
    { destruct U as [U|[_ [U _]]]; [left|right]; auto. }
    destruct (IH s1 v1 v2 ys I1 E2) as (s2 & R2 & I2).
    { destruct U as [U|[-> [_ U]]]; eauto. }
    exists s2. split; auto. simpl. rewrite R1. cbn [bind]. rewrite R2. auto.
Qed.

Lemma ordinary_unshared os : forall st, forallb ordinary os = true -> unshared st os.
Proof.
  induction os as [|o os IH]; intros st E; simpl in *; auto.
  apply andb_true_iff in E as [E1 E2]. split.
  - destruct o; auto; discriminate.
  - intros. apply IH; auto.
Qed.

Lemma inv_used st vs : inv st vs -> used st.
Proof.
  intros I b x E. destruct (inv_heap _ _ I b) as [_ H]. rewrite E in H.
  destruct H as (_ & _ & [(P & _)|(_ & A)]).
  - left. destruct (cnt_pos memo_ _ _ P) as (v & r & ? & ?). eauto.
  - right. destruct (cnt_pos a_blk (accs st) b ltac:(lia)) as (v & r & ? & ?). eauto.
Qed.

Lemma inv_gone st vs : inv st vs -> all_gone st -> forall b x, nth_error (hp st) b <> Some (Some x).
Proof.
  intros I [G1 G2] b x E. destruct (inv_used _ _ I b x E) as [(v & r & Q & _)|(v & r & Q & _)].
  - apply (G1 _ _ Q).
  - apply (G2 _ _ Q).
Qed.

Lemma values_code os vs xs :
  meanings nothing os = Some (vs, xs) -> unshared start os ->
  exists st, run false start os = Fine (st, xs).
Proof.
  intros M U. destruct (run_ok false os start nothing vs xs inv_start M) as (st & R & _); eauto.
Qed.

Lemma values_ordinary os vs xs :
  forallb ordinary os = true -> meanings nothing os = Some (vs, xs) ->
  exists st, run false start os = Fine (st, xs).
Proof. intros E M. eapply values_code; eauto. apply ordinary_unshared; auto. Qed.

Lemma values_fixed os vs xs :
  meanings nothing os = Some (vs, xs) -> exists st, run true start os = Fine (st, xs).
Proof.
  intros M. destruct (run_ok true os start nothing vs xs inv_start M) as (st & R & _); eauto.
Qed.

Lemma memory_code fixed os vs xs st ys :
  meanings nothing os = Some (vs, xs) -> fixed = true \/ (fixed = false /\ unshared start os) ->
  run fixed start os = Fine (st, ys) ->
  used st /\ (all_gone st -> forall b x, nth_error (hp st) b <> Some (Some x)).
Proof.
  intros M U R. destruct (run_ok fixed os start nothing vs xs inv_start M U) as (st' & R' & I).
  assert (st' = st) by congruence. subst st'. split.
  - eapply inv_used; eauto.
  - eapply inv_gone; eauto.
Qed.
