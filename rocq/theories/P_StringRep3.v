(** mutable_data, substr, unique and shrink_to_fit, and the functions of StringAccum. *)

From Coq Require Import List ZArith Lia Bool.
From Verif Require Import M_StringRep Spec_StringRep P_StringRep1 P_StringRep2.
Import ListNotations.
Open Scope Z_scope.

(** [r] is replaced by [r'] with the value [l]; nothing else changes. *)
Definition replaced (h : heap) (c a : nat -> Z) (r : rep) (h' : heap) (r' : rep) (l : list Z)
  : Prop :=
  heap_ok h' (fun b => c b - one (memo_ r) b + one (memo_ r') b) a /\
  (forall r0 l0, val h r0 l0 -> has (fun b => c b - one (memo_ r) b) r0 -> val h' r0 l0) /\
  (forall b, 0 < a b -> nth_error h' b = nth_error h b) /\
  val h' r' l.

Lemma grows_acc h c a h' : grows a h h' -> heap_ok h c a ->
  forall b, 0 < a b -> nth_error h' b = nth_error h b.
Proof.
  intros [L G] O b A. apply G; auto.
  destruct (heap_ok_acc _ _ _ b O A) as (x & E & _). apply nth_lt in E. auto.
Qed.

Lemma becomes_replaced h c a r h' r' l :
  heap_ok h c a -> becomes h c a r h' r' l -> replaced h c a r h' r' l.
Proof.
  intros O (O' & G & V). split; auto. split; [|split; auto].
  - intros r0 l0 V0 H0. eapply val_grows; eauto. intros b Eb. specialize (H0 b Eb).
    cbn beta in *. pose proof (one_range (memo_ r') b). lia.
  - eapply grows_acc; eauto.
Qed.

Lemma assign_fresh h r p n h' r' b :
  str_assign h r p n false = Fine (h', r') -> memo_ r' = Some b ->
  b = length h /\ data r' = PM b 0.
Proof.
  unfold str_assign. cbn [bind]. destruct (n =? 0).
  { intros E. injection E as <- <-. discriminate. }
  unfold int_of, need. destruct (_ && _); cbn [bind]; [|discriminate].
  unfold alloc, int_of, need. destruct (_ && _); cbn [bind]; [|discriminate].
  destruct (_ && _); cbn [bind]; [|discriminate].
  destruct (copy _ _ _ _ _); cbn [bind]; [|discriminate].
  intros E. injection E as <- <-. cbn [memo_ data]. intros E. injection E as <-. auto.
Qed.

Lemma assign_memo h r p n h' r' :
  str_assign h r p n false = Fine (h', r') -> n <> 0 -> memo_ r' <> None.
Proof.
  unfold str_assign. cbn [bind]. destruct (Z.eqb_spec n 0); [congruence|].
  unfold int_of, need. destruct (_ && _); cbn [bind]; [|discriminate].
  unfold alloc, int_of, need. destruct (_ && _); cbn [bind]; [|discriminate].
  destruct (_ && _); cbn [bind]; [|discriminate].
  destruct (copy _ _ _ _ _); cbn [bind]; [|discriminate].
  intros E. injection E as <- <-. discriminate.
Qed.

(** ** mutable_data *)

Lemma mutable_copy fixed h c a r l :
  heap_ok h c a -> small c -> has c r -> val h r l -> len l <= max_len ->
  is_shared fixed h r = Fine true ->
  exists h' r', str_mutable fixed h r = Fine (h', r') /\ becomes h c a r h' r' l /\
    (forall b, memo_ r' = Some b -> (length h <= b)%nat) /\ (len l <> 0 -> memo_ r' <> None).
Proof.
  intros O Sm H V M Sh. unfold str_mutable. rewrite Sh. cbn [bind negb].
  destruct (ref_ok h c a r O) as (h1 & E1 & O1 & G1).
  { intros b Eb. split; [apply H; auto|apply Sm]. }
  rewrite E1. cbn [bind].
  destruct (deref_ok h1 _ a r O1) as (h2 & E2 & O2 & G2).
  { intros b Eb. specialize (H b Eb). pose proof (one_range (memo_ r) b). lia. }
  rewrite E2. cbn [bind].
  assert (O2' : heap_ok h2 c a).
  { eapply heap_ok_ext; eauto. intros; cbn beta; lia. }
  assert (V2 : val h2 r l).
  { eapply val_grows; [exact (grows_trans _ _ _ _ G1 G2)|exact V|exact O2'|]. apply H. }
  pose proof (val_given_all h2 c a r l V2 H O2') as Gv.
  destruct (assign_new h2 c a r (data r) (length_ r) l O2' Gv) as (h3 & r3 & E3 & O3 & G3 & V3).
  { rewrite (proj1 V). auto. }
  rewrite E3. cbn [bind].
  destruct (deref_ok h3 _ a r O3) as (h4 & E4 & O4 & G4).
  { intros b Eb. specialize (H b Eb). pose proof (one_range (memo_ r3) b). lia. }
  rewrite E4. cbn [bind]. eexists _, _. split; [reflexivity|].
  assert (L2 : (length h <= length h2)%nat).
  { destruct G1, G2. lia. }
  assert (Nr : forall b, memo_ r3 = Some b -> (length h <= b)%nat).
  { intros b Eb. destruct (assign_fresh _ _ _ _ _ _ _ E3 Eb) as [-> _]. auto. }
  split; [|split; [auto|]].
  2: { intros Q. eapply assign_memo; eauto. rewrite (proj1 V). auto. }
  split; [|split].
  - eapply heap_ok_ext; eauto. intros; cbn beta; lia.
  - eapply grows_trans; [eapply grows_trans; eauto|eapply grows_trans; eauto].
  - eapply val_grows; eauto. intros b Eb. cbn beta. rewrite Eb, one_self.
    pose proof (proj1 (O b)). destruct (memo_ r) as [m|] eqn:Em; simpl; try lia.
    destruct (Nat.eqb_spec m b); try lia. subst m. specialize (H _ Em). lia.
Qed.

Lemma sub_put_1 l i ch : 0 <= i -> i < len l -> splice l i [ch] = put l (Z.to_nat i) ch.
Proof.
  intros Hi Hl. unfold splice, len in *.
  change (length [ch]) with 1%nat.
  assert (L : (Z.to_nat i < length l)%nat) by lia.
  revert L. generalize (Z.to_nat i). clear. intros i. revert i.
  induction l as [|x l IH]; intros [|i] L; simpl in *; try lia; auto.
  f_equal. apply IH. lia.
Qed.

Lemma sub_splice_in l o n i s : 0 <= o -> 0 <= i -> i + len s <= n -> o + n <= len l ->
  sub (splice l (o + i) s) o n = splice (sub l o n) i s.
Proof.
  intros. pose proof (len_nonneg s).
  assert (E1 : sub (splice l (o + i) s) o n =
    sub (splice l (o + i) s) o i ++ sub (splice l (o + i) s) (o + i) (len s) ++
    sub (splice l (o + i) s) (o + (i + len s)) (n - (i + len s))).
  { replace n with (i + len s + (n - (i + len s))) at 1 by lia.
    rewrite sub_app by lia. rewrite sub_app by lia. now rewrite app_assoc. }
  rewrite E1. rewrite splice_before by lia. rewrite splice_at by lia.
  unfold splice at 2. f_equal.
  - unfold sub. rewrite firstn_firstn. f_equal. lia.
  - f_equal. unfold sub, splice.
    rewrite app_assoc, skipn_app.
    rewrite (skipn_all2 (n := Z.to_nat (o + (i + len s)))).
    2: { rewrite app_length, firstn_length. unfold len in *. lia. }
    rewrite app_length, firstn_length.
    replace (_ - _)%nat with 0%nat by (unfold len in *; lia).
    simpl. rewrite skipn_firstn_comm.
    rewrite !firstn_skipn_comm.
    replace (Z.to_nat (o + i) + length s + Z.to_nat (n - (i + len s)))%nat
      with (Z.to_nat (o + n)) by (unfold len in *; lia).
    replace (Z.to_nat i + length s + (Z.to_nat n - (Z.to_nat i + length s)))%nat
      with (Z.to_nat n) by (unfold len in *; lia).
    replace (Z.to_nat (o + i) + length s)%nat
      with (Z.to_nat o + (Z.to_nat i + length s))%nat by lia.
    replace (Z.to_nat (o + n)) with (Z.to_nat o + Z.to_nat n)%nat by lia.
    generalize (Z.to_nat i + length s)%nat (Z.to_nat n). generalize (Z.to_nat o). clear.
    intros o k n. revert o. induction l as [|x l IH]; intros o.
    + rewrite ?firstn_nil, ?skipn_nil, ?firstn_nil, ?skipn_nil. auto.
    + destruct o; simpl; auto.
Qed.

Lemma val_written h r l b o x i ch :
  val h r l -> memo_ r = Some b -> data r = PM b o -> nth_error h b = Some (Some x) ->
  len (m_buf x) >= m_dirty x -> 0 <= i < len l ->
  val (put h b (Some (written x (o + i) [ch]))) r (put l (Z.to_nat i) ch).
Proof.
  intros [V1 V2] Em Ed E B I. split.
  { unfold len. rewrite put_length. auto. }
  rewrite Em, Ed in *. split; auto.
  destruct V2 as (_ & x' & E' & Ho & Hd & Hs).
  assert (x' = x) by congruence. subst x'.
  eexists. split. { apply put_same. apply nth_lt in E. auto. }
  simpl. split; auto. split; auto.
  rewrite sub_splice_in by (unfold len in *; simpl; lia).
  rewrite Hs. apply sub_put_1; lia.
Qed.

Lemma val_elsewhere h r l b y : val h r l -> memo_ r <> Some b -> val (put h b y) r l.
Proof.
  intros [V1 V2] N. split; auto. destruct (memo_ r) as [b'|] eqn:Em; auto.
  destruct (data r); auto. destruct V2 as (-> & x & E & V). split; auto. exists x.
  split; auto. rewrite put_other; auto.
Qed.

Lemma poke_ok fixed h c a r l i ch :
  heap_ok h c a -> small c -> has c r -> val h r l -> len l <= max_len ->
  0 <= i < len l ->
  (fixed = true \/ forall b, memo_ r = Some b -> c b = 1) ->
  exists h1 r' b o h', str_mutable fixed h r = Fine (h1, r') /\
    move (data r') i = PM b o /\ store h1 b o [ch] = Fine h' /\
    replaced h c a r h' r' (put l (Z.to_nat i) ch).
Proof.
  intros O Sm H V M Ri F.
  assert (Fin : forall h1 r', becomes h c a r h1 r' l ->
    memo_ r' <> None ->
    (forall b, memo_ r' = Some b -> (length h <= b)%nat \/
                                    (memo_ r = Some b /\ c b = 1)) ->
    exists b o h', move (data r') i = PM b o /\ store h1 b o [ch] = Fine h' /\
      replaced h c a r h' r' (put l (Z.to_nat i) ch)).
  { intros h1 r' Bc Nn Nr. pose proof Bc as (O1 & G1 & V1).
    pose proof (becomes_replaced _ _ _ _ _ _ _ O Bc) as (_ & R2 & R3 & _).
    pose proof V1 as [V1a V1'].
    destruct (memo_ r') as [b|] eqn:Em, (data r') as [b' o|s o] eqn:Ed; try contradiction.
    - destruct V1' as (-> & x & E & Ho & Hd & Hs).
      destruct (heap_ok_live _ _ _ b O1) as (x' & E' & C & B & R & A & D).
      { rewrite one_self. pose proof (proj1 (O b)).
        destruct (memo_ r) as [m|] eqn:Em'; simpl; try lia.
        destruct (Nat.eqb_spec m b); try lia. subst m. specialize (H _ Em'). lia. }
      assert (x' = x) by congruence. subst x'.
      exists b, (o + i), (put h1 b (Some (written x (o + i) [ch]))).
      assert (L1 : o + i + len [ch] <= len (m_buf x)) by (change (len [ch]) with 1; lia).
      split; [reflexivity|]. split. { apply store_fine; auto. lia. }
      split. { rewrite Em. apply store_ok; auto. lia. }
      split; [|split].
      + intros r0 l0 V0 H0. apply val_elsewhere; auto. intros Q.
        specialize (H0 _ Q). cbn beta in H0.
        destruct (Nr b eq_refl) as [Q1|[Q1 Q2]].
        * destruct (O b) as [_ K]. replace (nth_error h b) with (@None (option memo)) in K
            by (symmetry; apply nth_error_None; auto).
          pose proof (one_range (memo_ r) b). lia.
        * rewrite Q1, one_self in H0. lia.
      + intros d Ad. rewrite put_other by (intros ->; lia). auto.
      + eapply val_written; eauto. lia.
  }
  destruct (memo_ r) as [b|] eqn:Em.
  - destruct (heap_ok_live _ _ _ b O (H _ Em)) as (x & E & C & B & R & A & D).
    destruct (is_shared fixed h r) as [[|]|] eqn:Sh.
    + destruct (mutable_copy fixed h c a r l O Sm H V M Sh) as (h1 & r' & E1 & B1 & N1 & N2).
      destruct (Fin h1 r' B1) as (b1 & o1 & h' & Q); [apply N2; lia|auto|].
      exists h1, r', b1, o1, h'. auto.
    + assert (c b = 1).
      { unfold is_shared, block in Sh. rewrite Em, E in Sh. cbn [bind] in Sh.
        injection Sh as Sh. destruct F as [-> |F]; [|rewrite F; auto].
        apply negb_false_iff in Sh. lia. }
      destruct (Fin h r (becomes_same h c a r l O V)) as (b1 & o1 & h' & Q).
      { congruence. }
      { intros d Ed. right. split; congruence. }
      exists h, r, b1, o1, h'. split; auto. unfold str_mutable. rewrite Sh. reflexivity.
    + unfold is_shared, block in Sh. rewrite Em, E in Sh. discriminate.
  - destruct (mutable_copy fixed h c a r l O Sm H V M) as (h1 & r' & E1 & B1 & N1 & N2).
    { unfold is_shared. rewrite Em. reflexivity. }
    destruct (Fin h1 r' B1) as (b1 & o1 & h' & Q); [apply N2; lia|auto|].
    exists h1, r', b1, o1, h'. auto.
Qed.

(** ** substr, unique, shrink_to_fit *)

(** A further String [r'] with the value [l]. *)
Definition added (h : heap) (c a : nat -> Z) (h' : heap) (r' : rep) (l : list Z) : Prop :=
  heap_ok h' (fun b => c b + one (memo_ r') b) a /\ grows a h h' /\ val h' r' l.

Lemma added_empty h c a : heap_ok h c a -> added h c a h empty_rep [].
Proof.
  intros O. split; [|split].
  - eapply heap_ok_ext; eauto. simpl. intros; lia.
  - apply grows_refl.
  - apply val_empty.
Qed.

Lemma val_part h r l i n : val h r l -> 0 <= i -> 0 <= n -> i + n <= len l ->
  val h {| data := move (data r) i; length_ := n; memo_ := memo_ r |} (sub l i n).
Proof.
  intros [V1 V2] Hi Hn Hl. split. { simpl. now rewrite sub_len. }
  simpl. destruct (memo_ r) as [b|], (data r) as [b' o|s o]; try contradiction; simpl.
  - destruct V2 as (-> & x & E & Ho & Hd & Hs). split; auto. exists x. split; auto.
    split; [lia|]. split; [lia|]. rewrite <- Hs, sub_sub; auto. lia.
  - destruct V2 as (Ho & Hd & Hs). split; [lia|]. split; [lia|].
    rewrite <- Hs, sub_sub; auto. lia.
Qed.

Lemma ref_part h c a r l i n :
  heap_ok h c a -> small c -> has c r -> val h r l -> 0 <= i -> 0 <= n -> i + n <= len l ->
  exists h', ref h r = Fine h' /\
    added h c a h' {| data := move (data r) i; length_ := n; memo_ := memo_ r |} (sub l i n).
Proof.
  intros O Sm H V Hi Hn Hl.
  destruct (ref_ok h c a r O) as (h1 & E1 & O1 & G1).
  { intros b Eb. split; [apply H; auto|apply Sm]. }
  exists h1. split; auto. split; auto. split; auto.
  eapply val_grows; eauto. { apply val_part; auto. }
  simpl. intros b Eb. cbn beta. specialize (H b Eb). pose proof (one_range (memo_ r) b). lia.
Qed.

Lemma ref_added h c a r l :
  heap_ok h c a -> small c -> has c r -> val h r l ->
  exists h', ref h r = Fine h' /\ added h c a h' r l.
Proof.
  intros O Sm H V.
  destruct (ref_ok h c a r O) as (h1 & E1 & O1 & G1).
  { intros b Eb. split; [apply H; auto|apply Sm]. }
  exists h1. split; auto. split; auto. split; auto.
  eapply val_grows; eauto.
  intros b Eb. cbn beta. specialize (H b Eb). pose proof (one_range (memo_ r) b). lia.
Qed.

Lemma substr_ok h c a r l pos n :
  heap_ok h c a -> small c -> has c r -> val h r l -> len l <= max_len ->
  substr_ints l pos n = true ->
  exists h' r', str_substr h r pos n = Fine (h', r') /\ added h c a h' r' (substring l pos n).
Proof.
  intros O Sm H V M I. pose proof (proj1 V) as EL. pose proof (len_nonneg l) as LN.
  unfold max_len in M.
  unfold substr_ints in I. apply andb_true_iff in I as [I I5].
  apply andb_true_iff in I as [I I4]. apply andb_true_iff in I as [I I3].
  apply andb_true_iff in I as [I1 I2].
  unfold str_substr. rewrite EL. cbv zeta.
  assert (E1 : (if pos <? 0 then int_of (pos + len l) else Fine pos) = Fine (from l pos)).
  { unfold from. destruct (Z.ltb_spec pos 0); auto.
    rewrite int_fine by lia. f_equal. unfold len. lia. }
  rewrite E1. cbn [bind].
  change (Z.of_nat (length l)) with (len l) in *.
  assert (Fr : - 2 ^ 31 <= from l pos < 2 ^ 31).
  { unfold from. change (Z.of_nat (length l)) with (len l).
    destruct (Z.ltb_spec pos 0); lia. }
  assert (E2 : exists j, (if n <? 0 then int_of (len l + n)
     else if (0 <=? from l pos) && (len l <=? n) then Fine (len l)
     else int_of (from l pos + n)) = Fine j /\ Z.min (len l) j = Z.min (len l) (upto l pos n)).
  { unfold upto in *. change (Z.of_nat (length l)) with (len l) in *.
    destruct (Z.ltb_spec n 0).
    - rewrite int_fine by lia. eauto.
    - destruct (_ && _) eqn:Q.
      + eexists. split; eauto. lia.
      + rewrite orb_false_r in I5. rewrite int_fine by lia. eauto. }
  destruct E2 as (j & -> & Ej). cbn [bind].
  unfold substring. change (Z.of_nat (length l)) with (len l). rewrite <- Ej.
  replace (if from l pos <? 0 then 0 else from l pos) with (Z.max 0 (from l pos))
    by (destruct (Z.ltb_spec (from l pos) 0); lia).
  replace (if len l <? j then len l else j) with (Z.min (len l) j)
    by (destruct (Z.ltb_spec (len l) j); lia).
  set (i := Z.max 0 (from l pos)). set (k := Z.min (len l) j).
  destruct (Z.leb_spec k i).
  - exists h, empty_rep. split; auto. replace (Z.to_nat (k - i)) with 0%nat by lia.
    apply added_empty; auto.
  - destruct (ref_part h c a r l i (k - i) O Sm H V) as (h1 & E & A); try lia.
    rewrite E. cbn [bind]. eexists _, _. split; [reflexivity|]. exact A.
Qed.

Lemma unique_ok h c a r l :
  heap_ok h c a -> small c -> has c r -> val h r l -> len l <= max_len ->
  exists h' r', str_unique h r = Fine (h', r') /\ added h c a h' r' l.
Proof.
  intros O Sm H V M. unfold str_unique.
  set (keep := match memo_ r with None => Fine true | Some b => _ end).
  assert (K : exists k, keep = Fine k).
  { subst keep. destruct (memo_ r) as [b|] eqn:Em; eauto.
    destruct (heap_ok_live _ _ _ b O (H _ Em)) as (x & E & _).
    unfold block. rewrite E. cbn [bind]. eauto. }
  destruct K as (k & ->). cbn [bind]. destruct k.
  - destruct (ref_added h c a r l O Sm H V) as (h1 & -> & A). cbn [bind]. eauto.
  - pose proof (val_given_all h c a r l V H O) as Gv.
    destruct (assign_new h c a empty_rep (data r) (length_ r) l O Gv) as
      (h3 & r3 & E3 & O3 & G3 & V3). { rewrite (proj1 V). auto. }
    exists h3, r3. split; auto. split; auto.
Qed.

Lemma shrink_ok h c a r l :
  heap_ok h c a -> has c r -> val h r l -> len l <= max_len ->
  exists h' r', str_shrink h r = Fine (h', r') /\ becomes h c a r h' r' l.
Proof.
  intros O H V M. unfold str_shrink.
  set (keep := match memo_ r with None => Fine false | Some b => _ end).
  assert (K : exists k, keep = Fine k).
  { subst keep. destruct (memo_ r) as [b|] eqn:Em; eauto.
    destruct (heap_ok_live _ _ _ b O (H _ Em)) as (x & E & _).
    unfold block. rewrite E. cbn [bind]. eauto. }
  destruct K as (k & ->). cbn [bind]. destruct k.
  - pose proof (val_given_all h c a r l V H O) as Gv.
    destruct (assign_new h c a empty_rep (data r) (length_ r) l O Gv) as
      (h3 & r3 & E3 & O3 & G3 & V3). { rewrite (proj1 V). auto. }
    rewrite E3. cbn [bind].
    destruct (deref_ok h3 _ a r O3) as (h4 & E4 & O4 & G4).
    { intros b Eb. specialize (H b Eb). pose proof (one_range (memo_ r3) b). lia. }
    rewrite E4. cbn [bind]. eexists _, _. split; [reflexivity|].
    split; [|split].
    + eapply heap_ok_ext; eauto. intros; cbn beta; lia.
    + eapply grows_trans; eauto.
    + eapply val_grows; eauto. intros b Eb. cbn beta. rewrite Eb, one_self.
      pose proof (proj1 (O b)). destruct (memo_ r) as [m|] eqn:Em; simpl; try lia.
      destruct (Nat.eqb_spec m b); try lia. subst m. specialize (H _ Em). lia.
  - exists h, r. split; auto. apply becomes_same; auto.
Qed.
