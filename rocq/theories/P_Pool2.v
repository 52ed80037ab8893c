(** Whole programs over the pools. *)

From Coq Require Import List ZArith Lia Bool.
From Verif Require Import M_Pool Spec_Pool P_Pool1.
Import ListNotations.
Open Scope Z_scope.
Local Arguments Z.mul : simpl never.
Local Arguments Z.add : simpl never.

Lemma land_mod a : Z.land a pool_mask = a mod 256.
Proof. unfold pool_mask. change 255 with (Z.ones 8). rewrite Z.land_ones by lia. reflexivity. Qed.

Lemma nth_some {A} (l : list A) k n : length l = n -> (k < n)%nat -> exists a, nth_error l k = Some a.
Proof.
  intros L K. destruct (nth_error l k) eqn:E; eauto. apply nth_error_None in E. lia.
Qed.

Lemma inv_var st v own cn k x : inv st v own cn -> nth_error (objs v) k = Some x ->
  exists p, nth_error (vars st) k = Some p /\ var st k = Fine p.
Proof.
  intros I E. destruct (nth_some (vars st) k _ (i_len _ _ _ _ I)) as (p & Ep).
  { apply nth_error_Some. congruence. }
  exists p. split; auto. unfold var. rewrite Ep. auto.
Qed.

Lemma live_some v k b x : live v k b = Some x ->
  nth_error (objs v) k = Some x /\ o_stat x = Live /\ o_pool x = b.
Proof.
  unfold live. destruct (nth_error (objs v) k) as [y|]; [|discriminate].
  destruct (o_stat y) eqn:Es; try discriminate.
  destruct (Bool.eqb (o_pool y) b) eqn:Eb; [|discriminate]. intros E. injection E as <-.
  apply eqb_prop in Eb. auto.
Qed.

Lemma inv_kept st v own cn : inv st v own cn -> kept st v (queue v).
Proof. intros I. split; apply I. Qed.

Lemma live_queue st v own cn k x : inv st v own cn -> nth_error (objs v) k = Some x -> o_stat x = Live ->
  ~ In k (map snd (queue v)).
Proof. intros I E Es Q. destruct (queued _ _ _ _ _ I Q) as (x' & E1 & E2). congruence. Qed.

Lemma class_nlines sz : class sz = nlines sz.
Proof. unfold class, nlines, line. f_equal. lia. Qed.

Lemma inv_ext st v own cn cn' : inv st v own cn ->
  (forall t nl, in_pools nl = true -> cn' t nl = cn t nl) -> inv st v own cn'.
Proof.
  intros I E. constructor; try apply I. intros t nl Hn. rewrite E by auto. apply I; auto.
Qed.

Lemma spare_zero st v own cn t nl : inv st v own cn -> in_pools nl = true ->
  (cn t nl =? 0) = (pool st t nl =? 0).
Proof.
  intros I Hn. destruct (i_free _ _ _ _ I t nl Hn) as (l & C & _ & <- & A).
  destruct l as [|a l].
  - simpl in C. rewrite C. reflexivity.
  - destruct C as (-> & N & _). replace (a =? 0) with false by lia. apply Z.eqb_neq. cbn [length]. lia.
Qed.

Definition good (st : state) (v : world) (s : store) : Prop :=
  (exists own, inv st v own (spare s)) /\ Z.of_nat (length (pages st)) = bought s.

Lemma step_ok psz st v s o v' y :
  1280 <= psz -> good st v s -> meaning v o = Some (v', y) -> honest psz st o ->
  exists st', step psz st o = Fine (st', y) /\ good st' v' (deal psz v s o).
Proof.
  intros Ps [[own I] Pg] M H. destruct o; simpl in M.
  - (* PAlloc *)
    destruct (_ && _) eqn:Q in M; [|discriminate]. injection M as <- <-.
    assert (Hs : 0 < sz <= 20 * 64) by lia. pose proof (nlines_pool _ Hs) as Hn.
    simpl. unfold pool_allocate. rewrite Hn. cbn [need bind]. simpl in H.
    unfold take. rewrite class_nlines, (spare_zero _ _ _ _ _ _ I Hn).
    destruct (Z.eqb_spec (pool st t (nlines sz)) 0) as [E|E].
    + destruct (H E) as [U Al].
      destruct (refill_ok psz st v own _ t _ base I Hn E U Al Ps)
        as (st1 & own1 & R1 & R2 & R3 & R4 & R5 & R6).
      rewrite R1. cbn [bind]. assert (R7 : pool st1 t (nlines sz) <> 0) by (rewrite R3; destruct U; lia).
      destruct (Z.eqb_spec (pool st1 t (nlines sz)) 0); [congruence|].
      destruct (pop_ok st1 v own1 _ t sz _ R2 Hs eq_refl R7) as (own2 & R8 & R9).
      rewrite R8. cbn [bind]. eexists. split; [reflexivity|]. split.
      * exists own2. eapply inv_ext; [exact R9|]. intros t' nl' _. cbn [spare]. unfold change.
        destruct (Nat.eqb t' t && (nl' =? nlines sz)); [|reflexivity]. ring.
      * simpl. rewrite R5. cbn [length]. lia.
    + cbn [bind]. destruct (Z.eqb_spec (pool st t (nlines sz)) 0); [congruence|].
      destruct (pop_ok st v own _ t sz _ I Hs eq_refl E) as (own2 & R8 & R9).
      rewrite R8. cbn [bind]. eexists. split; [reflexivity|]. split; [|exact Pg].
      exists own2. exact R9.
  - (* PFree *)
    destruct (live v k true) as [x|] eqn:L; [|discriminate].
    destruct (Z.eqb_spec (o_size x) sz) as [<-|]; [|discriminate]. injection M as <- <-.
    apply live_some in L as (Ex & Es & Ep). destruct (inv_var _ _ _ _ _ _ I Ex) as (p & Ev & Er).
    simpl. rewrite Er. cbn [bind]. unfold pool_deallocate.
    pose proof (i_obj _ _ _ _ I k x p Ex Ev ltac:(congruence)) as (P0 & Sz & O & _).
    rewrite Ep in O. destruct O as (Hn & _). rewrite Hn.
    replace (p =? 0) with false by lia. cbn [negb andb need bind].
    destruct (push_ok st st v own _ t (nlines (o_size x)) k x p (queue v) I eq_refl eq_refl eq_refl eq_refl eq_refl)
      as (st' & own' & R1 & R2 & R3); auto.
    { eapply inv_kept; eauto. } { eapply live_queue; eauto. } { congruence. }
    rewrite R1. cbn [bind]. exists st'. split; auto. rewrite class_nlines.
    split; [exists own'; exact R2|]. rewrite R3. exact Pg.
  - (* PRetire *)
    destruct (live v k true) as [x|] eqn:L; [|discriminate].
    destruct (Z.eqb_spec (o_size x) sz) as [<-|]; [|discriminate].
    destruct (Z.eqb_spec (tag mod 256) 0) as [Et|]; [|discriminate]. injection M as <- <-.
    apply live_some in L as (Ex & Es & Ep). destruct (inv_var _ _ _ _ _ _ I Ex) as (p & Ev & Er).
    simpl. rewrite Er. cbn [bind]. unfold pool_deallocate_rcu.
    pose proof (i_obj _ _ _ _ I k x p Ex Ev ltac:(congruence)) as (P0 & Sz & O & _).
    rewrite Ep in O. destruct O as (Hn & _). rewrite Hn.
    replace (p =? 0) with false by lia. cbn [negb andb need bind].
    eexists. split; [reflexivity|]. split; [|exact Pg]. exists own. apply retire_ok; auto.
    rewrite land_mod. unfold tag_of. rewrite Ep. pose proof (pools_range _ Hn).
    rewrite Z.add_mod, Et by lia. rewrite Z.add_0_l, Z.mod_mod by lia. apply Z.mod_small. lia.
  - (* MAlloc *)
    destruct (Z.ltb_spec 0 sz) as [Hs|]; [|discriminate]. injection M as <- <-.
    destruct H as [U _]. simpl.
    destruct (malloc_ok st v own _ sz base I Hs U) as (own' & R).
    eexists. split; [reflexivity|]. split; [eauto|exact Pg].
  - (* MFree *)
    destruct (live v k false) as [x|] eqn:L; [|discriminate]. injection M as <- <-.
    apply live_some in L as (Ex & Es & Ep). destruct (inv_var _ _ _ _ _ _ I Ex) as (p & Ev & Er).
    simpl. rewrite Er. cbn [bind].
    pose proof (i_obj _ _ _ _ I k x p Ex Ev ltac:(congruence)) as (P0 & _).
    replace (p =? 0) with false by lia. cbn [negb need bind].
    destruct (sys_free_ok st st v own _ k x p (queue v) I eq_refl eq_refl eq_refl eq_refl eq_refl)
      as (st' & own' & R1 & R2 & R3); auto.
    { eapply inv_kept; eauto. } { eapply live_queue; eauto. } { congruence. }
    rewrite R1. cbn [bind]. exists st'. split; auto. split; [exists own'; exact R2|].
    rewrite R3. exact Pg.
  - (* MRetire *)
    destruct (live v k false) as [x|] eqn:L; [|discriminate].
    destruct (Z.eqb_spec (tag mod 256) 0) as [Et|]; [|discriminate]. injection M as <- <-.
    apply live_some in L as (Ex & Es & Ep). destruct (inv_var _ _ _ _ _ _ I Ex) as (p & Ev & Er).
    simpl. rewrite Er. cbn [bind].
    pose proof (i_obj _ _ _ _ I k x p Ex Ev ltac:(congruence)) as (P0 & _).
    replace (p =? 0) with false by lia. cbn [negb need bind].
    eexists. split; [reflexivity|]. split; [|exact Pg]. exists own. apply retire_ok; auto.
    rewrite land_mod. unfold tag_of. rewrite Ep. auto.
  - (* Release *)
    cbn [deal]. destruct (oldest (queue v) t) as [[k q]|] eqn:Eo.
    + destruct (nth_error (objs v) k) as [x|] eqn:Ex; [|discriminate]. injection M as <- <-.
      destruct (oldest_some _ _ _ _ Eo) as (O1 & O2 & O3). destruct (O3 (i_queue _ _ _ _ I)) as [Nd Nk].
      pose proof (i_limbo _ _ _ _ I t) as F. rewrite O1 in F.
      inversion F as [|e k' es ks (x' & E1 & E2 & E3 & E4) F' El Ek]. subst k' ks.
      assert (x' = x) by congruence. subst x'. destruct e as [p tag]. simpl in E2, E4.
      cbn [step]. rewrite <- El. cbn [bind].
      assert (K : kept (with_limbo st t es) v q).
      { split; auto. intros t'. simpl. destruct (Nat.eqb_spec t' t) as [->|Nt]; auto.
        rewrite <- O2 by auto. apply I. }
      pose proof (i_obj _ _ _ _ I k x p Ex E2 ltac:(congruence)) as (P0 & Sz & O & _).
      unfold free_rcu. rewrite E4. unfold tag_of. destruct (o_pool x) eqn:Ep.
      * destruct O as (Hn & _). pose proof (pools_range _ Hn).
        replace (nlines (o_size x) =? 0) with false by lia. rewrite Hn. cbn [need bind].
        destruct (push_ok st (with_limbo st t es) v own _ t (nlines (o_size x)) k x p q I eq_refl eq_refl eq_refl eq_refl eq_refl)
          as (st' & own' & R1 & R2 & R3); auto.
        { congruence. }
        rewrite R1. cbn [bind]. exists st'. split; auto. rewrite class_nlines.
        split; [exists own'; exact R2|]. rewrite R3. exact Pg.
      * cbn [Z.eqb].
        destruct (sys_free_ok st (with_limbo st t es) v own _ k x p q I eq_refl eq_refl eq_refl eq_refl eq_refl)
          as (st' & own' & R1 & R2 & R3); auto.
        { congruence. }
        rewrite R1. cbn [bind]. exists st'. split; auto. split; [exists own'; exact R2|].
        rewrite R3. exact Pg.
    + injection M as <- <-. pose proof (i_limbo _ _ _ _ I t) as F.
      rewrite (oldest_none _ _ Eo) in F. inversion F as [El|]. cbn [step]. rewrite <- El.
      exists st. split; auto. split; eauto.
  - (* Put *)
    destruct (nth_error (objs v) k) as [x|] eqn:Ex; [|discriminate].
    destruct (o_stat x) eqn:Es; try discriminate.
    destruct (inside x i) eqn:Hi; [|discriminate]. injection M as <- <-.
    destruct (inv_var _ _ _ _ _ _ I Ex) as (p & Ev & Er). simpl. rewrite Er. cbn [bind].
    destruct (put_ok st v own _ k x p i w I Ex Ev Es Hi) as (st' & R1 & R2 & R3).
    rewrite R1. cbn [bind]. exists st'. split; auto. split; [eauto|]. rewrite R3. exact Pg.
  - (* Get *)
    destruct (nth_error (objs v) k) as [x|] eqn:Ex; [|discriminate].
    assert (G : o_stat x <> Gone /\ inside x i = true /\ exists w, o_word x i = Some w /\
      v' = v /\ y = Some w).
    { destruct (o_stat x); try discriminate; destruct (inside x i); try discriminate;
        destruct (o_word x i); try discriminate; injection M as <- <-;
        (split; [discriminate|]); split; auto; eauto. }
    destruct G as (Es & Hi & w & Hw & -> & ->).
    destruct (inv_var _ _ _ _ _ _ I Ex) as (p & Ev & Er). simpl. rewrite Er. cbn [bind].
    pose proof (i_obj _ _ _ _ I k x p Ex Ev Es) as Ok. destruct (obj_mapped _ _ _ _ _ _ Ok Hi) as [Mp _].
    unfold rd. rewrite Mp. cbn [need bind]. destruct Ok as (_ & _ & _ & W). rewrite (W i w); auto.
    exists st. split; auto. split; eauto.
Qed.

Lemma good_start m : good (start m) nothing empty_store.
Proof.
  split; [|reflexivity]. exists (fun _ => Nobody).
  constructor; simpl; auto; try (intros; congruence); try solve [intros r []].
  - intros [|k]; discriminate.
  - intros t nl _. exists []. simpl. split; auto. split; [constructor|]. split; [auto|intros a []].
  - intros t. constructor.
  - constructor.
  - constructor.
Qed.

Lemma run_ok psz os : 1280 <= psz -> forall st v s v' ys,
  good st v s -> meanings v os = Some (v', ys) -> honest_run psz st os ->
  exists st', run psz st os = Fine (st', ys) /\ good st' v' (deals psz v s os).
Proof.
  intros Ps. induction os as [|o os IH]; intros st v s v' ys I M H; cbn [meanings] in M.
  - injection M as <- <-. simpl. eauto.
  - cbn [deals]. destruct (meaning v o) as [[v1 y]|] eqn:E1; [|discriminate].
    destruct (meanings v1 os) as [[v2 zs]|] eqn:E2; [|discriminate]. injection M as <- <-.
    destruct H as [H1 H2].
    destruct (step_ok psz st v s o v1 y Ps I E1 H1) as (s1 & R1 & I1).
    destruct (IH s1 v1 _ v2 zs I1 E2 (H2 _ _ R1)) as (s2 & R2 & I2).
    exists s2. split; auto. simpl. rewrite R1. cbn [bind]. rewrite R2. auto.
Qed.

Lemma obj_size_owned st own k x p : obj_ok st own k x p -> owns own p (o_size x) (User k).
Proof.
  intros (P & Sz & O & _). destruct (o_pool x).
  - destruct O as (_ & _ & Ow & _). destruct (nlines_size _ Sz). intros y Hy. apply Ow. lia.
  - apply O.
Qed.

Lemma inv_separate st v own cn : inv st v own cn -> separate st v.
Proof.
  intros I. split; [apply I|]. split.
  - intros k x p E1 E2 E3. pose proof (i_obj _ _ _ _ I k x p E1 E2 E3) as (P & Sz & O & _).
    split; auto. split.
    + intros Ep. rewrite Ep in O. apply O.
    + destruct (o_pool x).
      * destruct O as (_ & _ & _ & r & Ir & H1 & H2). destruct (nlines_size _ Sz).
        exists r. split; [apply in_or_app; auto|lia].
      * destruct O as (_ & Ic). exists (p, o_size x). split; [apply in_or_app; auto|simpl; lia].
  - intros k k' x x' p p' N E1 E2 E3 F1 F2 F3.
    pose proof (i_obj _ _ _ _ I k x p E1 E2 E3) as Ok. pose proof (i_obj _ _ _ _ I k' x' p' F1 F2 F3) as Ok'.
    pose proof (obj_size_owned _ _ _ _ _ Ok) as O1. pose proof (obj_size_owned _ _ _ _ _ Ok') as O2.
    destruct Ok as (_ & S1 & _). destruct Ok' as (_ & S2 & _).
    destruct (Z.le_gt_cases (p + o_size x) p') as [L|L]; auto.
    destruct (Z.le_gt_cases (p' + o_size x') p) as [L'|L']; auto. exfalso.
    assert (own (Z.max p p') = User k) by (apply O1; lia).
    assert (own (Z.max p p') = User k') by (apply O2; lia). congruence.
Qed.

Lemma pool_values psz m os v ys :
  1280 <= psz -> meanings nothing os = Some (v, ys) -> honest_run psz (start m) os ->
  exists st, run psz (start m) os = Fine (st, ys) /\ separate st v.
Proof.
  intros Ps M H. destruct (run_ok psz os Ps _ _ _ _ _ (good_start m) M H) as (st & R & [own I] & _).
  exists st. split; auto. eapply inv_separate; eauto.
Qed.

Lemma pool_reuse psz m os v ys :
  1280 <= psz -> meanings nothing os = Some (v, ys) -> honest_run psz (start m) os ->
  exists st, run psz (start m) os = Fine (st, ys) /\
    Z.of_nat (length (pages st)) = bought (deals psz nothing empty_store os) /\ no_leak st v.
Proof.
  intros Ps M H. destruct (run_ok psz os Ps _ _ _ _ _ (good_start m) M H) as (st & R & [own I] & P).
  exists st. split; auto. split; auto. split; apply I.
Qed.

(** ** Leaf nodes *)

Lemma iceil_64 x : iceil x 64 = (x + 63) / 64 * 64.
Proof.
  unfold iceil. cbv zeta. pose proof (Z.div_mod x 64 ltac:(lia)) as D.
  pose proof (Z.mod_pos_bound x 64 ltac:(lia)) as B.
  destruct (Z.eqb_spec (x mod 64) 0) as [E|E].
  - replace ((x + 63) / 64) with (x / 64); [lia|]. apply Z.div_unique with 63; lia.
  - replace ((x + 63) / 64) with (x / 64 + 1); [lia|]. apply Z.div_unique with (x mod 64 - 1); lia.
Qed.

Lemma leaf_sizes ss ksuf : 0 < ss <= 1152 -> 0 <= ksuf ->
  let sz := leaf_size ss ksuf in let e := extrasize64 ss sz in
  0 < sz <= 20 * 64 /\ sz mod 64 = 0 /\ 0 <= e < 128 /\
  allocated_size ss e = sz /\ allocated_size ss (mark_dead e) = sz /\
  mark_dead (mark_dead e) = mark_dead e /\ - 128 <= mark_dead e < 0 /\
  (0 < e -> 64 <= sz - ss < 192).
Proof.
  intros Hs Hk sz e.
  assert (Esz : sz = (ss + Z.min ksuf 128 + 63) / 64 * 64) by (apply iceil_64).
  pose proof (Z.div_mod (ss + Z.min ksuf 128 + 63) 64 ltac:(lia)) as D1.
  pose proof (Z.mod_pos_bound (ss + Z.min ksuf 128 + 63) 64 ltac:(lia)) as B1.
  pose proof (Z.div_mod (ss + 63) 64 ltac:(lia)) as D2.
  pose proof (Z.mod_pos_bound (ss + 63) 64 ltac:(lia)) as B2.
  set (a := (ss + Z.min ksuf 128 + 63) / 64) in *. set (b := (ss + 63) / 64) in *.
  assert (Ee : e = a - b).
  { unfold e, extrasize64. rewrite Esz, Z.div_mul by lia. reflexivity. }
  assert (Eb : forall d, (ss + d * 64 + 63) / 64 * 64 = (b + d) * 64).
  { intros d. replace (ss + d * 64 + 63) with (ss + 63 + d * 64) by lia.
    rewrite Z.div_add by lia. reflexivity. }
  assert (Ea : allocated_size ss e = sz).
  { unfold allocated_size. replace (0 <=? e) with true by lia. rewrite Eb. lia. }
  assert (Ed : mark_dead e = - e - 1) by (unfold mark_dead; replace (0 <=? e) with true by lia; auto).
  split; [lia|]. split. { rewrite Esz. apply Z.mod_mul. lia. }
  split; [lia|]. split; auto. split.
  { rewrite Ed. unfold allocated_size. replace (0 <=? - e - 1) with false by lia.
    replace (- (- e - 1) - 1) with e by lia. rewrite Eb. lia. }
  split. { rewrite Ed. unfold mark_dead. replace (0 <=? - e - 1) with false by lia. auto. }
  split; [lia|]. intros P. lia.
Qed.

Lemma leaf_sizes_iter ss ksuf n : 0 < ss <= 1152 -> 0 <= ksuf ->
  let sz := leaf_size ss ksuf in
  let e := extrasize64 ss sz in
  0 < sz <= 20 * 64 /\ sz mod 64 = 0 /\
  allocated_size ss (Nat.iter n mark_dead e) = sz /\
  - 128 <= Nat.iter n mark_dead e < 128 /\
  (0 < Nat.iter n mark_dead e -> n = 0%nat /\ 64 <= sz - ss < 192).
Proof.
  intros Hs Hk sz e. destruct (leaf_sizes ss ksuf Hs Hk) as (A & B & C & D & E & F & G & H).
  fold sz in A, B, C, D, E, F, G, H. fold e in C, D, E, F, G, H.
  split; auto. split; auto. destruct n as [|n].
  - simpl. split; auto. split; [lia|]. intros P. split; auto.
  - assert (X : Nat.iter (S n) mark_dead e = mark_dead e).
    { induction n as [|n IH]; [reflexivity|].
      change (Nat.iter (S (S n)) mark_dead e) with (mark_dead (Nat.iter (S n) mark_dead e)).
      rewrite IH. auto. }
    rewrite X. split; auto. split; [lia|]. intros P. lia.
Qed.
