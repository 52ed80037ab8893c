(** The functions of String keep memory in order and compute the right value. *)

From Coq Require Import List ZArith Lia Bool.
From Verif Require Import M_StringRep Spec_StringRep P_StringRep1.
Import ListNotations.
Open Scope Z_scope.

Definition has (c : nat -> Z) (r : rep) : Prop := forall b, memo_ r = Some b -> 0 < c b.
Definition small (c : nat -> Z) : Prop := forall b, c b < 2 ^ 32 - 1.

(** [r] is replaced by [r'], which has the value [l]. *)
Definition becomes (h : heap) (c a : nat -> Z) (r : rep) (h' : heap) (r' : rep) (l : list Z)
  : Prop :=
  heap_ok h' (fun b => c b - one (memo_ r) b + one (memo_ r') b) a /\ grows a h h' /\
  val h' r' l.

Lemma int_fine x : - 2 ^ 31 <= x < 2 ^ 31 -> int_of x = Fine x.
Proof.
  intros. unfold int_of.
  replace (- 2 ^ 31 <=? x) with true by lia. replace (x <? 2 ^ 31) with true by lia. auto.
Qed.

Lemma val_nonneg h r l : val h r l -> 0 <= length_ r.
Proof. intros [V _]. rewrite V. apply len_nonneg. Qed.

(** Part of a String. *)
Lemma val_given h c a r l i n : val h r l -> has c r -> heap_ok h c a ->
  0 <= i -> 0 <= n -> i + n <= len l -> given h c a (move (data r) i) n (sub l i n).
Proof.
  intros [V1 V2] H O Hi Hn Hl.
  split. { apply sub_len; auto. }
  destruct (memo_ r) as [b|] eqn:Em, (data r) as [b' o|s o]; try contradiction; simpl.
  - destruct V2 as (-> & x & E & Ho & Hd & Hs).
    destruct (heap_ok_live _ _ _ b O (H _ Em)) as (x' & E' & C & B & R & A & D).
    assert (x' = x) by congruence. subst x'.
    split; [lia|]. exists x. split; auto. split.
    { rewrite <- Hs. rewrite sub_sub; auto. lia. }
    split; [lia|]. left. split; auto. lia.
  - destruct V2 as (Ho & Hd & Hs). split; [lia|]. split; [lia|].
    rewrite <- Hs. rewrite sub_sub; auto. lia.
Qed.

Lemma move_0 p : move p 0 = p.
Proof. destruct p; simpl; f_equal; lia. Qed.

Lemma val_given_all h c a r l : val h r l -> has c r -> heap_ok h c a ->
  given h c a (data r) (length_ r) l.
Proof.
  intros V H O. pose proof (val_nonneg _ _ _ V).
  pose proof (proj1 V) as E.
  pose proof (val_given h c a r l 0 (length_ r) V H O) as G.
  rewrite move_0 in G. rewrite E, sub_all in G. rewrite E. apply G; lia.
Qed.

Lemma val_empty h : val h empty_rep [].
Proof. split; simpl; auto. split; [lia|]. split; auto. unfold len; simpl; lia. Qed.

Lemma nth_last {A} (l : list A) x : nth_error (l ++ [x]) (length l) = Some x.
Proof. rewrite nth_error_app2 by auto. now rewrite Nat.sub_diag. Qed.

(** A new block with a copy of some characters at its start. *)
Lemma fresh_copy h c a p n l cap d :
  heap_ok h c a -> given h c a p n l -> 0 < cap < 2 ^ 31 - 12 -> n <= d <= cap ->
  exists h1 h2 x, alloc h cap d = Fine (h1, length h) /\ copy h1 (length h) 0 p n = Fine h2 /\
    heap_ok h2 (fun b => c b + one (Some (length h)) b) a /\ grows a h h2 /\
    length h2 = S (length h) /\
    nth_error h2 (length h) = Some (Some x) /\ m_dirty x = d /\ m_cap x = cap /\
    len (m_buf x) = cap /\ sub (m_buf x) 0 n = l.
Proof.
  intros O G C D. pose proof (proj1 G) as L. pose proof (len_nonneg l).
  rewrite alloc_fine by lia.
  assert (O1 := alloc_str h c a cap d O C ltac:(lia)).
  assert (G1 : given (h ++ [Some (fresh cap d)]) (fun b => c b + one (Some (length h)) b) a p n l).
  { eapply given_grows; eauto. apply grows_app.
    intros b o _ P. pose proof (one_range (Some (length h)) b). lia. }
  eexists _, _, _. split; [reflexivity|].
  unfold copy. rewrite (load_given _ _ _ _ _ _ G1). simpl bind.
  assert (Ov : overlap p (length h) 0 n = false).
  { destruct p as [b o|]; simpl; auto. destruct (Nat.eqb_spec (length h) b); auto.
    subst b. destruct G as [_ (_ & x & E & _)]. apply nth_lt in E. lia. }
  rewrite Ov. simpl bind.
  assert (N : nth_error (h ++ [Some (fresh cap d)]) (length h) = Some (Some (fresh cap d)))
    by apply nth_last.
  assert (B : 0 + len l <= len (m_buf (fresh cap d))).
  { simpl. rewrite len_repeat; lia. }
  rewrite (store_fine _ _ _ _ _ N) by (auto; lia).
  split; [reflexivity|].
  split. { apply store_ok; auto. lia. }
  split. { apply grows_fresh; auto. apply grows_app. }
  split. { rewrite put_length, app_length. simpl. lia. }
  split. { apply put_same. apply nth_lt in N. auto. }
  split; [reflexivity|]. split; [reflexivity|]. split.
  { simpl. rewrite splice_len by (auto; lia). apply len_repeat. lia. }
  rewrite <- L. apply splice_at; auto. lia.
Qed.

Lemma assign_new h c a r p n l :
  heap_ok h c a -> given h c a p n l -> n <= max_len ->
  exists h' r', str_assign h r p n false = Fine (h', r') /\
    heap_ok h' (fun b => c b + one (memo_ r') b) a /\ grows a h h' /\ val h' r' l.
Proof.
  intros O G M. pose proof (proj1 G) as L. pose proof (len_nonneg l).
  unfold max_len in M. unfold str_assign. simpl bind.
  destruct (Z.eqb_spec n 0) as [E|E].
  - exists h, empty_rep. split; auto. split.
    { eapply heap_ok_ext; eauto. simpl. intros; lia. }
    split. { apply grows_refl. }
    destruct l; [apply val_empty|]. unfold len in L; simpl in L. lia.
  - rewrite int_fine by lia. simpl bind. cbv zeta.
    pose proof (Z.div_mod (n + 15 + 12) 16 ltac:(lia)) as DM.
    pose proof (Z.mod_pos_bound (n + 15 + 12) 16 ltac:(lia)) as MB.
    set (q := (n + 15 + 12) / 16) in *. clearbody q.
    destruct (fresh_copy h c a p n l (q * 16 - 12) n O G) as
      (h1 & h2 & x & E1 & E2 & O2 & G2 & L2 & N2 & D2 & C2 & B2 & S2); [lia|lia|].
    rewrite E1. cbn [bind]. rewrite E2. cbn [bind].
    eexists _, _. split; [reflexivity|]. split; auto. split; auto.
    split; [cbn [length_]; lia|]. cbn [memo_ data]. split; auto. exists x. cbn [length_].
    split; auto. split; [lia|]. split; [lia|]. auto.
Qed.

Lemma inside_ok h c a r p n :
  heap_ok h c a -> has c r -> exists i, inside h (memo_ r) p n = Fine i /\
    (i = true -> exists b o x, memo_ r = Some b /\ p = PM b o /\
       nth_error h b = Some (Some x) /\ 0 <= o /\ o + n <= m_cap x) /\
    (i = false -> forall b o x, memo_ r = Some b -> p = PM b o ->
       nth_error h b = Some (Some x) -> 0 <= o -> o + n <= m_cap x -> False).
Proof.
  intros O H. unfold inside. destruct (memo_ r) as [b|] eqn:Em.
  - destruct (heap_ok_live _ _ _ b O (H _ Em)) as (x & E & C & B & R & A & D).
    unfold block. rewrite E. simpl.
    destruct p as [b' o|s o].
    + eexists. split; [reflexivity|]. split.
      * intros T. apply andb_true_iff in T as [T T3]. apply andb_true_iff in T as [T1 T2].
        apply Nat.eqb_eq in T1. subst b'. exists b, o, x. repeat (split; auto); lia.
      * intros T b1 o1 x1 E1 E2 E3 Q1 Q2. injection E1 as <-. injection E2 as -> ->.
        assert (x1 = x) by congruence. subst x1.
        rewrite Nat.eqb_refl in T. simpl in T. lia.
    + exists false. split; auto. split; [discriminate|]. intros. discriminate.
  - exists false. split; auto. split; [discriminate|]. intros. discriminate.
Qed.

Lemma assign_ok h c a r p n l :
  heap_ok h c a -> has c r -> given h c a p n l -> n <= max_len ->
  exists h' r', str_assign h r p n true = Fine (h', r') /\ becomes h c a r h' r' l.
Proof.
  intros O H G M. pose proof (proj1 G) as L.
  destruct (inside_ok h c a r p n O H) as (i & Ei & It & If).
  destruct i.
  - unfold str_assign. rewrite Ei. simpl bind.
    destruct (It eq_refl) as (b & o & x & Em & -> & E & Ho & Hc).
    eexists _, _. split; [reflexivity|]. split; [|split].
    + eapply heap_ok_ext; eauto. intros. simpl. lia.
    + apply grows_refl.
    + destruct G as [_ (_ & x' & E' & S & B & C)].
      assert (x' = x) by congruence. subst x'.
      destruct (heap_ok_live _ _ _ b O (H _ Em)) as (x' & E2 & _ & _ & _ & A & D).
      split; simpl; auto. rewrite Em. split; auto. exists x.
      split; auto. split; auto. split; auto. destruct C as [C|C]; lia.
  - assert (Hd := deref_ok h c a r O H). destruct Hd as (h1 & Ed & O1 & G1).
    assert (Gv : given h1 (fun b => c b - one (memo_ r) b) a p n l).
    { eapply given_grows; eauto. intros b o -> P.
      destruct (memo_ r) as [b'|] eqn:Em; simpl; try lia.
      destruct (Nat.eqb_spec b' b); try lia. subst b'. exfalso.
      destruct G as [_ (Ho & x & E & S & B & _)].
      eapply (If eq_refl b o x); eauto.
      destruct (heap_ok_live _ _ _ b O P) as (x' & E2 & _ & B' & _).
      assert (x' = x) by congruence. subst x'. lia. }
    destruct (assign_new h1 _ a r p n l O1 Gv M) as (h2 & r2 & E2 & O2 & G2 & V2).
    exists h2, r2. split.
    + unfold str_assign in *. rewrite Ei. simpl bind. rewrite Ed. simpl bind in *. exact E2.
    + split; auto. split; auto. eapply grows_trans; eauto.
Qed.

(** ** Appending *)

Lemma double_ok f c want : 0 < c < 2 ^ 31 -> want <= 2 ^ 30 -> want <= c * 2 ^ Z.of_nat f ->
  exists k, double (S f) c want = Fine k /\ want <= k < 2 ^ 31.
Proof.
  revert c; induction f as [|f IH]; intros c C W B.
  - simpl in *. destruct (Z.ltb_spec c want); [lia|]. exists c. split; auto. lia.
  - change (double (S (S f)) c want) with
      (if c <? want then do c <- int_of (c * 2); double (S f) c want else Fine c).
    destruct (Z.ltb_spec c want).
    + rewrite int_fine by lia. cbn [bind]. apply IH; auto; try lia.
      rewrite Nat2Z.inj_succ, Z.pow_succ_r in B by lia. lia.
    + exists c. split; auto. lia.
Qed.

Lemma memo_capacity_ok n : 0 < n <= max_len ->
  exists k, memo_capacity n = Fine k /\ n + 12 <= k < 2 ^ 31.
Proof.
  unfold max_len. intros M. unfold memo_capacity. rewrite int_fine by lia. cbn [bind].
  destruct (Z.leb_spec (n + 12) 1024).
  - eexists. split; [reflexivity|].
    pose proof (Z.div_mod (n + 12 + 15) 16 ltac:(lia)).
    pose proof (Z.mod_pos_bound (n + 12 + 15) 16 ltac:(lia)). lia.
  - apply double_ok; try lia.
Qed.

Lemma overlap_given h c a p n l b o :
  heap_ok h c a -> given h c a p n l ->
  (forall o', p = PM b o' -> o' + n <= o) -> overlap p b o n = false.
Proof.
  intros O G D. destruct p as [b' o'|]; simpl; auto.
  destruct (Nat.eqb_spec b b'); auto. subst b'.
  specialize (D _ eq_refl). simpl. pose proof (proj1 G). pose proof (len_nonneg l). lia.
Qed.

Lemma append_space h c a r l n :
  heap_ok h c a -> has c r -> val h r l -> 0 < n -> len l + n <= max_len ->
  exists h1 r1 b o x, append_uninitialized h r n = Fine (h1, r1, Some (b, o)) /\
    heap_ok h1 (fun d => c d - one (memo_ r) d + one (memo_ r1) d) a /\ grows a h h1 /\
    memo_ r1 = Some b /\ nth_error h1 b = Some (Some x) /\ 0 <= o /\
    o + n <= len (m_buf x) /\ a b = 0 /\ length_ r1 = length_ r + n /\
    (forall s, len s = n -> grows a h (put h1 b (Some (written x o s))) /\
                            val (put h1 b (Some (written x o s))) r1 (l ++ s)) /\
    (forall p l', given h c a p n l' ->
       (forall b' o', p = PM b' o' -> 0 < c b' -> 0 < c b' - one (memo_ r) b') ->
       load h1 p n = Fine l' /\ overlap p b o n = false).
Proof.
  intros O H V N M. pose proof (len_nonneg l) as LN. pose proof (proj1 V) as EL.
  assert (M' := M). unfold max_len in M'.
  unfold append_uninitialized. replace (n <=? 0) with false by lia.
  set (look := match memo_ r with None => Fine None | Some b => _ end).
  assert (Lk : (exists b x o, look = Fine (Some (b, x)) /\ memo_ r = Some b /\
                  nth_error h b = Some (Some x) /\ data r = PM b o /\
                  o + length_ r = m_dirty x /\ m_dirty x + n < m_cap x /\
                  u32 (m_dirty x + n) = m_dirty x + n) \/ look = Fine None).
  { subst look. destruct (memo_ r) as [b|] eqn:Em; [|right; auto].
    destruct (heap_ok_live _ _ _ b O (H _ Em)) as (x & E & C & B & R & A & D).
    unfold block. rewrite E. cbn [bind].
    assert (U : u32 (m_dirty x + n) = m_dirty x + n).
    { unfold u32. apply Z.mod_small. lia. }
    rewrite U. destruct (Z.ltb_spec (m_dirty x + n) (m_cap x)); [|right; auto].
    destruct (data r) as [b' o|] eqn:Ed; [|right; auto].
    destruct (Nat.eqb_spec b b'); [|right; auto]. subst b'.
    destruct (Z.eqb_spec (o + length_ r) (m_dirty x)); [|right; auto].
    left. exists b, x, o. simpl. auto 10. }
  destruct Lk as [(b & x & o & -> & Em & E & Ed & Hd & Hc & U)| ->]; cbn [bind].
  - destruct (heap_ok_live _ _ _ b O (H _ Em)) as (x' & E' & C & B & R & A & D).
    assert (x' = x) by congruence. subst x'.
    rewrite int_fine by lia. cbn [bind]. rewrite U.
    set (x1 := {| m_refs := m_refs x; m_cap := m_cap x; m_dirty := m_dirty x + n;
                  m_buf := m_buf x |}).
    assert (Lb : (b < length h)%nat) by (apply nth_lt in E; auto).
    assert (O1 : heap_ok (put h b (Some x1)) c a).
    { apply (heap_ok_set h c a); auto. { apply O. }
      split; simpl; auto. split; auto. left. pose proof (proj1 (O b)).
      specialize (H _ Em). lia. }
    assert (G1 : grows a h (put h b (Some x1))).
    { eapply grows_set; eauto. simpl. split; auto. split; auto. lia. }
    destruct V as [_ V]. rewrite Em, Ed in V. destruct V as (_ & x' & E2 & Ho & Hd' & Hs).
    assert (x' = x) by congruence. subst x'. clear E2 Hd'.
    eexists _, _, b, (m_dirty x), x1. split; [reflexivity|].
    split. { eapply heap_ok_ext; eauto. intros. simpl. lia. }
    split; auto. split; auto.
    split. { apply put_same; auto. }
    split; [lia|]. split; [simpl; lia|]. split; auto. split; [simpl; lia|]. split.
    + intros s Ls.
      assert (Pp : put (put h b (Some x1)) b (Some (written x1 (m_dirty x) s))
                   = put h b (Some (written x1 (m_dirty x) s))).
      { generalize (Some (written x1 (m_dirty x) s)) (Some x1). clear.
        revert b. induction h; intros [|b]; simpl; auto. intros. f_equal. auto. }
      rewrite Pp. split.
      * eapply grows_set; eauto. simpl. split; auto. split; [lia|].
        intros o' n' Q1 Q2 Q3. apply splice_before; auto; lia.
      * split. { simpl. rewrite len_app. lia. }
        simpl. rewrite Em, Ed. split; auto.
        eexists. split. { apply put_same; auto. }
        simpl. split; [lia|]. split; [lia|].
        rewrite sub_app by lia. f_equal.
        -- rewrite splice_before by lia. auto.
        -- rewrite Hd, <- Ls. apply splice_at; lia.
    + intros p l' G _. split.
      * apply (load_given _ c a). eapply given_grows; eauto.
      * apply (overlap_given h c a p n l'); auto. intros o' ->.
        destruct G as [_ (_ & x' & E2 & _ & _ & [Q|Q])].
        -- assert (x' = x) by congruence. subst x'. lia.
        -- lia.
  - destruct (memo_capacity_ok (length_ r + n)) as (k & Ek & Hk); [unfold max_len; lia|].
    rewrite int_fine by lia. cbn [bind]. rewrite Ek. cbn [bind].
    pose proof (val_given_all h c a r l V H O) as Gr.
    destruct (fresh_copy h c a (data r) (length_ r) l (k - 12) (length_ r + n) O Gr) as
      (h1 & h2 & x & E1 & E2 & O2 & G2 & L2 & N2 & D2 & C2 & B2 & S2); [lia|lia|].
    rewrite E1. cbn [bind]. rewrite E2. cbn [bind].
    set (b := length h) in *.
    assert (H2 : has (fun d => c d + one (Some b) d) r).
    { intros d Ed. specialize (H d Ed). pose proof (one_range (Some b) d). lia. }
    destruct (deref_ok h2 _ a r O2 H2) as (h3 & E3 & O3 & G3).
    rewrite E3. cbn [bind].
    assert (Nb : memo_ r <> Some b).
    { intros Q. specialize (H _ Q). destruct (heap_ok_live _ _ _ b O H) as (y & Ey & _).
      apply nth_lt in Ey. unfold b in Ey. lia. }
    assert (Ob : one (memo_ r) b = 0).
    { destruct (memo_ r) as [m|]; auto. apply one_other. congruence. }
    assert (Cb : 0 <= c b) by apply O.
    assert (Ab : a b = 0).
    { destruct (O b) as [_ K]. replace (nth_error h b) with (@None (option memo)) in K
        by (symmetry; apply nth_error_None; unfold b; auto). lia. }
    destruct (heap_ok_live _ _ _ b O3) as (x3 & N3 & C3 & B3 & R3 & A3 & D3).
    { cbn beta. rewrite Ob, one_self. lia. }
    destruct G3 as [L3 G3]. assert (Lb : (b < length h2)%nat) by (unfold b; lia).
    destruct (G3 b Lb) as [K _]. rewrite N2, N3 in K. destruct K as (K1 & K2 & K3).
    assert (Gall : grows a h h3).
    { eapply grows_trans; eauto. split; auto. }
    eexists _, _, b, (length_ r), x3. split; [reflexivity|].
    split. { eapply heap_ok_ext; eauto. intros. simpl. lia. }
    split; auto. split; auto. split; auto. split; [lia|]. split; [lia|]. split; auto.
    split; [simpl; lia|]. split.
    + intros s Ls. split.
      * apply grows_fresh; auto.
      * split. { simpl. rewrite len_app. lia. }
        simpl. split; auto. eexists. split. { apply put_same. lia. }
        simpl. split; [lia|]. split; [lia|].
        rewrite sub_app by lia. f_equal.
        -- rewrite splice_before by lia. rewrite K3 by lia. auto.
        -- simpl. rewrite <- Ls. apply splice_at; lia.
    + intros p l' G P. split.
      * apply (load_given _ (fun d => c d + one (Some b) d - one (memo_ r) d) a).
        eapply given_grows; eauto. cbn beta. intros b' o' Q1 Q2. specialize (P _ _ Q1 Q2).
        pose proof (one_range (Some b) b'). lia.
      * apply (overlap_given h c a p n l'); auto. intros o' ->.
        destruct G as [_ (_ & x' & Q & _)]. apply nth_lt in Q. unfold b in Q. lia.
Qed.

Lemma append_copy h c a r l p n l' :
  heap_ok h c a -> has c r -> val h r l -> 0 < n -> len l + n <= max_len ->
  given h c a p n l' ->
  (forall b' o', p = PM b' o' -> 0 < c b' -> 0 < c b' - one (memo_ r) b') ->
  exists h1 r1 b o h2, append_uninitialized h r n = Fine (h1, r1, Some (b, o)) /\
    copy h1 b o p n = Fine h2 /\ becomes h c a r h2 r1 (l ++ l').
Proof.
  intros O H V N M G P.
  destruct (append_space h c a r l n O H V N M) as
    (h1 & r1 & b & o & x & E1 & O1 & G1 & M1 & N1 & Ho & B1 & A1 & L1 & Ws & Ld).
  destruct (Ld p l' G P) as [Lp Ov].
  destruct (Ws l' (proj1 G)) as [Gw Vw].
  pose proof (proj1 G) as Ll.
  exists h1, r1, b, o, (put h1 b (Some (written x o l'))). split; auto. split.
  - unfold copy. rewrite Lp. cbn [bind]. rewrite Ov. cbn [negb need bind].
    apply store_fine; auto. lia.
  - split; auto. apply store_ok; auto. lia.
Qed.

Lemma append_ok h c a r l p n l' m :
  heap_ok h c a -> small c -> has c r -> val h r l -> len l + n <= max_len ->
  given h c a p n l' ->
  (forall b, m = Memo b -> exists o, p = PM b o /\ 0 < c b /\
     (l = [] -> n <> 0 -> 0 < c b - one (memo_ r) b)) ->
  exists h' r', str_append h r p n m = Fine (h', r') /\ becomes h c a r h' r' (l ++ l').
Proof.
  intros O Sm H V M G Pm. pose proof (proj1 G) as Ll. pose proof (len_nonneg l').
  unfold str_append. destruct (Z.eqb_spec n 0) as [E|E].
  { exists h, r. split; auto. assert (l' = []) as ->.
    { destruct l'; auto. unfold len in Ll; simpl in Ll; lia. }
    rewrite app_nil_r. split; [|split; auto].
    - eapply heap_ok_ext; eauto. intros; simpl; lia.
    - apply grows_refl. }
  assert (Gen : exists h' r',
    (do i <- inside h (memo_ r) p n;
      if i : bool then
        do h <- ref h r;
        do (h, r', s) <- append_uninitialized h r n;
        do h <- match s with Some (b, o) => copy h b o p n | None => Fine h end;
        do h <- deref h r;
        Fine (h, r')
      else
        do (h, r', s) <- append_uninitialized h r n;
        do h <- match s with Some (b, o) => copy h b o p n | None => Fine h end;
        Fine (h, r')) = Fine (h', r') /\ becomes h c a r h' r' (l ++ l')).
  { destruct (inside_ok h c a r p n O H) as (i & Ei & It & If). rewrite Ei. cbn [bind].
    destruct i.
    - destruct (ref_ok h c a r O) as (h0 & E0 & O0 & G0).
      { intros b Eb. split; [apply H; auto|apply Sm]. }
      rewrite E0. cbn [bind].
      assert (Hx : has (fun b => c b + one (memo_ r) b) r).
      { intros b Eb. specialize (H b Eb). pose proof (one_range (memo_ r) b). lia. }
      assert (V0 : val h0 r l) by (eapply val_grows; eauto).
      assert (Gv : given h0 (fun b => c b + one (memo_ r) b) a p n l').
      { eapply given_grows; eauto. intros b o _ Q. pose proof (one_range (memo_ r) b). lia. }
      destruct (append_copy h0 _ a r l p n l' O0 Hx V0 ltac:(lia) M Gv) as
        (h1 & r1 & b & o & h2 & E1 & E2 & O2 & G2 & V2).
      { cbn beta. intros b' o' -> _. destruct (It eq_refl) as (b & o & x & Em & Ep & _).
        injection Ep as -> ->. specialize (H _ Em). lia. }
      rewrite E1. cbn [bind]. rewrite E2. cbn [bind].
      destruct (deref_ok h2 _ a r O2) as (h3 & E3 & O3 & G3).
      { intros d Ed. cbn beta. specialize (H d Ed).
        pose proof (one_range (memo_ r1) d). lia. }
      rewrite E3. cbn [bind]. eexists _, _. split; [reflexivity|].
      assert (O3' : heap_ok h3 (fun d => c d - one (memo_ r) d + one (memo_ r1) d) a).
      { eapply heap_ok_ext; eauto. intros; cbn beta. lia. }
      split; auto. split.
      + eapply grows_trans; eauto. eapply grows_trans; eauto.
      + eapply val_grows; eauto. intros d Ed. cbn beta. rewrite Ed, one_self.
        destruct (memo_ r) as [m0|] eqn:Em; simpl.
        * destruct (Nat.eqb_spec m0 d).
          -- subst. specialize (H _ Em). lia.
          -- pose proof (proj1 (O d)). lia.
        * pose proof (proj1 (O d)). lia.
    - destruct (append_copy h c a r l p n l' O H V ltac:(lia) M G) as
        (h1 & r1 & b & o & h2 & E1 & E2 & B2).
      { intros b o -> P. destruct (memo_ r) as [b'|] eqn:Em; simpl; try lia.
        destruct (Nat.eqb_spec b' b); try lia. subst b'. exfalso.
        destruct G as [_ (Ho & x & Ex & S & B & _)].
        eapply (If eq_refl b o x); eauto.
        destruct (heap_ok_live _ _ _ b O P) as (x' & Q2 & _ & B' & _).
        assert (x' = x) by congruence. subst x'. lia. }
      rewrite E1. cbn [bind]. rewrite E2. cbn [bind]. eauto. }
  destruct (Z.eqb_spec (length_ r) 0) as [E0|E0]; [|exact Gen].
  destruct m as [| |b]; [exact Gen|exact Gen|].
  destruct (Pm b eq_refl) as (o & -> & Cb & Cb').
  assert (l = []) as ->.
  { pose proof (proj1 V). destruct l; auto. unfold len in *; simpl in *; lia. }
  specialize (Cb' eq_refl E).
  destruct (deref_ok h c a r O H) as (h1 & E1 & O1 & G1).
  rewrite E1. cbn [bind]. cbv zeta.
  set (r1 := {| data := PM b o; length_ := n; memo_ := Some b |}).
  destruct (ref_ok h1 _ a r1 O1) as (h2 & E2 & O2 & G2).
  { intros d Ed. simpl in Ed. injection Ed as <-. split; auto.
    pose proof (one_range (memo_ r) b). specialize (Sm b). lia. }
  rewrite E2. cbn [bind]. eexists _, _. split; [reflexivity|]. split; auto. split.
  { eapply grows_trans; eauto. }
  assert (Gv : given h2 (fun d => c d - one (memo_ r) d + one (memo_ r1) d) a (PM b o) n l').
  { eapply given_grows; [exact (grows_trans _ _ _ _ G1 G2)|exact G|exact O|exact O2|].
    intros d q Eq _. injection Eq as <- <-. cbn beta.
    pose proof (one_range (memo_ r1) b). lia. }
  destruct Gv as [_ (Ho & x & Ex & S & B & C)].
  destruct (heap_ok_live _ _ _ b O2) as (x' & Ex' & _ & _ & _ & A & _).
  { pose proof (one_range (memo_ r1) b). cbn beta. lia. }
  split. { simpl. lia. }
  simpl. split; auto. exists x. split; auto. split; auto. split; auto.
  destruct C as [C|C]; lia.
Qed.

Lemma fill_ok h c a r l ch n :
  heap_ok h c a -> has c r -> val h r l -> 0 <= n ->
  len (l ++ repeat ch (Z.to_nat n)) <= max_len ->
  exists h' r', str_fill h r ch n = Fine (h', r') /\
    becomes h c a r h' r' (l ++ repeat ch (Z.to_nat n)).
Proof.
  intros O H V P M. unfold str_fill. replace (0 <=? n) with true by lia. cbn [need bind].
  destruct (Z.leb_spec n 0) as [E|E].
  - unfold append_uninitialized. replace (n <=? 0) with true by lia. cbn [bind].
    exists h, r. split; auto. replace (Z.to_nat n) with 0%nat by lia.
    simpl. rewrite app_nil_r. split; [|split; auto].
    + eapply heap_ok_ext; eauto. intros; simpl; lia.
    + apply grows_refl.
  - rewrite len_app, len_repeat in M by lia.
    destruct (append_space h c a r l n O H V E M) as
      (h1 & r1 & b & o & x & E1 & O1 & G1 & M1 & N1 & Ho & B1 & A1 & L1 & Ws & Ld).
    rewrite E1. cbn [bind].
    assert (Ls : len (repeat ch (Z.to_nat n)) = n) by (apply len_repeat; lia).
    rewrite (store_fine _ _ x) by (auto; lia). cbn [bind].
    destruct (Ws _ Ls) as [Gw Vw].
    eexists _, _. split; [reflexivity|]. split; auto. apply store_ok; auto. lia.
Qed.

(** ** c_str *)

Lemma becomes_same h c a r l : heap_ok h c a -> val h r l -> becomes h c a r h r l.
Proof.
  intros O V. split; [|split; auto].
  - eapply heap_ok_ext; eauto. intros; cbn beta; lia.
  - apply grows_refl.
Qed.

Lemma c_str_ok h c a r l :
  heap_ok h c a -> has c r -> val h r l -> len l + 1 <= max_len ->
  exists h' r', str_c_str h r = Fine (h', r') /\ becomes h c a r h' r' l /\
    load h' (data r') (length_ r' + 1) = Fine (l ++ [0]).
Proof.
  intros O H V M. pose proof (proj1 V) as EL. pose proof (len_nonneg l) as LN.
  assert (App : exists h' r', (do (h, r', s) <- append_uninitialized h r 1;
      match s with
      | Some (b, o) =>
        do h <- store h b o [0];
        Fine (h, {| data := data r'; length_ := length_ r' - 1; memo_ := memo_ r' |})
      | None => Fine (h, r')
      end) = Fine (h', r') /\ becomes h c a r h' r' l /\
    load h' (data r') (length_ r' + 1) = Fine (l ++ [0])).
  { destruct (append_space h c a r l 1 O H V ltac:(lia) M) as
      (h1 & r1 & b & o & x & E1 & O1 & G1 & M1 & N1 & Ho & B1 & A1 & L1 & Ws & Ld).
    rewrite E1. cbn [bind]. change 1 with (len [0]) in B1.
    rewrite (store_fine _ _ x) by auto. cbn [bind].
    destruct (Ws [0] eq_refl) as [Gw Vw].
    assert (Ow : heap_ok (put h1 b (Some (written x o [0])))
                   (fun d => c d - one (memo_ r) d + one (memo_ r1) d) a)
      by (apply store_ok; auto).
    eexists _, _. split; [reflexivity|]. split; [split; [|split]|].
    - auto.
    - auto.
    - destruct Vw as [W1 W2]. rewrite len_app in W1. change (len [0]) with 1 in W1.
      split. { simpl. lia. }
      simpl. destruct (memo_ r1) as [b'|] eqn:Em; [|discriminate].
      destruct (data r1) as [b1 o1|]; [|contradiction].
      destruct W2 as (-> & y & Ey & Q1 & Q2 & Q3). split; auto. exists y.
      split; auto. split; auto. split; [lia|].
      rewrite W1, sub_app in Q3 by lia.
      apply app_inv_tail_iff with (l := [0]).
      rewrite <- Q3. f_equal. { f_equal. lia. }
      (* the last character *)
      assert (Hl : len (sub (m_buf y) (o1 + len l) 1) = 1).
      { apply sub_len; try lia.
        destruct (heap_ok_live _ _ _ b' Ow) as (z & Ez & _ & Bz & _ & _ & Dz).
        { cbn beta. rewrite one_self. pose proof (proj1 (O b')).
          destruct (memo_ r) as [m0|] eqn:Em0; simpl; try lia.
          destruct (Nat.eqb_spec m0 b'); try lia. subst. specialize (H _ Em0). lia. }
        assert (z = y) by congruence. subst z. lia. }
      pose proof (f_equal (@rev Z) Q3) as Q4. rewrite !rev_app_distr in Q4. simpl in Q4.
      destruct (sub (m_buf y) (o1 + len l) 1) as [|z [|z' t]]; unfold len in Hl; simpl in Hl;
        try lia. simpl in Q4. injection Q4 as -> _. auto.
    - cbn [data length_]. replace (length_ r1 - 1 + 1) with (length_ r1) by lia.
      apply (load_given _ (fun d => c d - one (memo_ r) d + one (memo_ r1) d) a).
      apply val_given_all; auto.
      intros d Ed. cbn beta. rewrite Ed, one_self.
      destruct (memo_ r) as [m0|] eqn:Em; simpl; try (pose proof (proj1 (O d)); lia).
      destruct (Nat.eqb_spec m0 d); try (pose proof (proj1 (O d)); lia).
      subst. specialize (H _ Em). lia. }
  unfold str_c_str.
  assert (Stay : forall z, load h (move (data r) (length_ r)) 1 = Fine [0] ->
                 load h (data r) (length_ r + 1) = Fine z -> z = l ++ [0]).
  { intros z Lz Lr.
    assert (Lr' : load h (data r) (length_ r) = Fine l).
    { apply (load_given _ c a). apply val_given_all; auto. }
    destruct (data r) as [b o|s o]; simpl in *.
    - destruct (block h b) as [x|]; [|discriminate]. simpl in *.
      destruct (_ && _); [|discriminate]. destruct (_ && _); [|discriminate].
      destruct (_ && _) eqn:Q in Lr'; [|discriminate]. simpl in *.
      injection Lz as Lz. injection Lr as <-. injection Lr' as <-.
      rewrite sub_app by lia. rewrite Lz. auto.
    - destruct (_ && _); [|discriminate]. destruct (_ && _); [|discriminate].
      destruct (_ && _) eqn:Q in Lr'; [|discriminate]. simpl in *.
      injection Lz as Lz. injection Lr as <-. injection Lr' as <-.
      rewrite sub_app by lia. rewrite Lz. auto. }
  destruct V as [V1 V2] eqn:Vq. clear Vq.
  destruct (memo_ r) as [b|] eqn:Em, (data r) as [b' o|s o] eqn:Ed; try contradiction.
  - destruct V2 as (-> & x & E & Ho & Hd & Hs).
    destruct (heap_ok_live _ _ _ b O (H _ Em)) as (x' & E' & C & B & R & A & D).
    assert (x' = x) by congruence. subst x'.
    unfold block at 1. rewrite E. cbn [bind].
    destruct (Z.leb_spec (m_dirty x) (o + length_ r)) as [Q|Q]; cbn [bind]; [exact App|].
    assert (Lz : load h (PM b (o + length_ r)) 1 = Fine (sub (m_buf x) (o + length_ r) 1)).
    { simpl. unfold block. rewrite E. simpl.
      replace (0 <=? o + length_ r) with true by lia.
      replace (o + length_ r + 1 <=? len (m_buf x)) with true by lia. reflexivity. }
    assert (Lr : load h (PM b o) (length_ r + 1) = Fine (sub (m_buf x) o (length_ r + 1))).
    { simpl. unfold block. rewrite E. simpl.
      replace (0 <=? o) with true by lia. replace (0 <=? length_ r + 1) with true by lia.
      replace (o + (length_ r + 1) <=? len (m_buf x)) with true by lia. reflexivity. }
    rewrite Lz. cbn [bind].
    destruct (sub (m_buf x) (o + length_ r) 1) as [|[|z|z] [|]] eqn:Es; cbn [bind];
      try exact App.
    exists h, r. split; auto. split.
    + apply becomes_same; auto.
    + rewrite Ed, Lr. f_equal. eapply Stay; eauto.
  - destruct V2 as (Ho & Hd & Hs). cbn [bind].
    assert (Lz : load h (PS s (o + length_ r)) 1 = Fine (sub s (o + length_ r) 1)).
    { simpl. replace (0 <=? o + length_ r) with true by lia.
      replace (o + length_ r + 1 <=? len s) with true by lia. reflexivity. }
    assert (Lr : load h (PS s o) (length_ r + 1) = Fine (sub s o (length_ r + 1))).
    { simpl. replace (0 <=? o) with true by lia.
      replace (0 <=? length_ r + 1) with true by lia.
      replace (o + (length_ r + 1) <=? len s) with true by lia. reflexivity. }
    rewrite Lz. cbn [bind].
    destruct (sub s (o + length_ r) 1) as [|[|z|z] [|]] eqn:Es; cbn [bind];
      try exact App.
    exists h, r. split; auto. split.
    + apply becomes_same; auto.
    + rewrite Ed, Lr. f_equal. eapply Stay; eauto.
Qed.
