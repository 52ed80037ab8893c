(** Invariant of the pools and its preservation. *)

From Coq Require Import List ZArith Lia Bool.
From Verif Require Import M_Pool Spec_Pool.
Import ListNotations.
Open Scope Z_scope.
Local Arguments Z.mul : simpl never.
Local Arguments Z.add : simpl never.

(** ** Lists *)

Lemma replace_length {A} (l : list A) i a : length (replace l i a) = length l.
Proof. revert i; induction l; intros [|i]; simpl; auto. Qed.

Lemma replace_nth {A} (l : list A) i a j :
  nth_error (replace l i a) j =
  if Nat.eqb i j then (if Nat.ltb i (length l) then Some a else None) else nth_error l j.
Proof.
  revert i j; induction l as [|x l IH]; intros [|i] [|j]; simpl; auto.
  - destruct (Nat.eqb i j); auto. 
  - rewrite IH. destruct (Nat.eqb i j); auto.
Qed.

Lemma replace_same {A} (l : list A) i a x : nth_error l i = Some x ->
  nth_error (replace l i a) i = Some a.
Proof.
  intros E. rewrite replace_nth, Nat.eqb_refl.
  assert (i < length l)%nat by (apply nth_error_Some; congruence).
  destruct (Nat.ltb_spec i (length l)); [auto|lia].
Qed.

Lemma replace_other {A} (l : list A) i a j : i <> j -> nth_error (replace l i a) j = nth_error l j.
Proof. intros N. rewrite replace_nth. destruct (Nat.eqb_spec i j); congruence. Qed.

(** ** Free lists *)

Fixpoint chain (m : Z -> Z) (p : Z) (l : list Z) : Prop :=
  match l with
  | [] => p = 0
  | a :: l => p = a /\ a <> 0 /\ chain m (m a) l
  end.

Lemma chain_frame m m' l : (forall a, In a l -> m' a = m a) -> forall p, chain m p l -> chain m' p l.
Proof.
  induction l as [|a l IH]; intros F p C; simpl in *; auto.
  destruct C as (-> & N & C). split; auto. split; auto. rewrite F by auto. apply IH; auto.
Qed.

(** ** Owners *)

Inductive owner := Nobody | User (k : nat) | Free (t : nat) (nl a : Z).

Definition owns (own : Z -> owner) (p n : Z) (o : owner) : Prop := forall x, p <= x < p + n -> own x = o.

Definition give (own : Z -> owner) (p n : Z) (o : owner) : Z -> owner :=
  fun x => if (p <=? x) && (x <? p + n) then o else own x.

Lemma give_in own p n o : owns (give own p n o) p n o.
Proof. intros x H. unfold give. replace ((p <=? x) && (x <? p + n)) with true by lia. auto. Qed.

Lemma give_other own p n o o1 q m o2 :
  owns own p n o1 -> owns own q m o2 -> o1 <> o2 -> owns (give own p n o) q m o2.
Proof.
  intros H1 H2 N x Hx. unfold give. destruct (Z.leb_spec p x); simpl; [|apply H2; auto].
  destruct (Z.ltb_spec x (p + n)); simpl; [|apply H2; auto].
  rewrite <- (H2 x Hx) in N. rewrite (H1 x) in N by lia. congruence.
Qed.

Definition holds (r : Z * Z) (p n : Z) : Prop := fst r <= p /\ p + n <= fst r + snd r.

Definition tag_of (x : object) : Z := if o_pool x then nlines (o_size x) else 0.

Definition mine (q : list (nat * nat)) (t : nat) : list nat :=
  map snd (filter (fun e => Nat.eqb (fst e) t) q).

Definition obj_ok (st : state) (own : Z -> owner) (k : nat) (x : object) (p : Z) : Prop :=
  0 < p /\ 0 < o_size x /\
  (if o_pool x then
     in_pools (nlines (o_size x)) = true /\ p mod 64 = 0 /\
     owns own p (64 * nlines (o_size x)) (User k) /\
     exists r, In r (pages st) /\ holds r p (64 * nlines (o_size x))
   else owns own p (o_size x) (User k) /\ In (p, o_size x) (chunks st)) /\
  forall i w, inside x i = true -> o_word x i = Some w -> mem st (p + 8 * i) = w.

Definition free_ok (st : state) (own : Z -> owner) (t : nat) (nl a : Z) : Prop :=
  0 < a /\ a mod 64 = 0 /\ owns own a (64 * nl) (Free t nl a) /\
  exists r, In r (pages st) /\ holds r a (64 * nl).

Record inv (st : state) (v : world) (own : Z -> owner) (cn : nat -> Z -> Z) : Prop := {
  i_len : length (vars st) = length (objs v);
  i_mapped : forall x, own x <> Nobody ->
    exists r, In r (pages st ++ chunks st) /\ fst r <= x < fst r + snd r;
  i_obj : forall k x p, nth_error (objs v) k = Some x -> nth_error (vars st) k = Some p ->
    o_stat x <> Gone -> obj_ok st own k x p;
  i_free : forall t nl, in_pools nl = true -> exists l, chain (mem st) (pool st t nl) l /\ NoDup l /\
    Z.of_nat (length l) = cn t nl /\ forall a, In a l -> free_ok st own t nl a;
  i_limbo : forall t, Forall2 (fun e k => exists x, nth_error (objs v) k = Some x /\
      nth_error (vars st) k = Some (fst e) /\ o_stat x = Retired /\
      Z.land (snd e) pool_mask = tag_of x) (limbo st t) (mine (queue v) t);
  i_queue : NoDup (map snd (queue v));
  i_sizes : forall r, In r (chunks st) -> 0 < snd r;
  i_bases : NoDup (map fst (chunks st));
  i_chunks : forall r, In r (chunks st) -> exists k x, nth_error (vars st) k = Some (fst r) /\
    nth_error (objs v) k = Some x /\ o_stat x <> Gone /\ o_pool x = false /\ o_size x = snd r
}.

Lemma nlines_size sz : 0 < sz -> sz <= 64 * nlines sz /\ 0 < nlines sz.
Proof.
  intros P. unfold nlines, line.
  pose proof (Z.div_mod (sz + 64 - 1) 64 ltac:(lia)).
  pose proof (Z.mod_pos_bound (sz + 64 - 1) 64 ltac:(lia)). lia.
Qed.

Lemma nlines_pool sz : 0 < sz <= 20 * 64 -> in_pools (nlines sz) = true.
Proof.
  intros P. destruct (nlines_size sz) as [H1 H2]; [lia|]. unfold in_pools, max_nlines.
  unfold nlines, line in *.
  pose proof (Z.div_mod (sz + 64 - 1) 64 ltac:(lia)).
  pose proof (Z.mod_pos_bound (sz + 64 - 1) 64 ltac:(lia)). lia.
Qed.

Lemma pools_range nl : in_pools nl = true -> 1 <= nl <= 20.
Proof. unfold in_pools, max_nlines. lia. Qed.

(** ** Memory that is there *)

Lemma mapped_page st r a : In r (pages st) -> holds r a 8 -> mapped st a = true.
Proof.
  intros I [H1 H2]. unfold mapped. apply orb_true_iff. left. apply existsb_exists.
  exists r. split; auto. unfold within. lia.
Qed.

Lemma mapped_chunk st r a : In r (chunks st) -> holds r a 8 -> mapped st a = true.
Proof.
  intros I [H1 H2]. unfold mapped. apply orb_true_iff. right. apply existsb_exists.
  exists r. split; auto. unfold within. lia.
Qed.

Lemma obj_mapped st own k x p i : obj_ok st own k x p -> inside x i = true ->
  mapped st (p + 8 * i) = true /\ own (p + 8 * i) = User k.
Proof.
  intros (P & Sz & O & _) Hi. unfold inside in Hi. destruct (o_pool x).
  - destruct O as (Hp & _ & Ow & r & Ir & H1 & H2). destruct (nlines_size _ Sz). split.
    + eapply mapped_page; eauto. split; lia.
    + apply Ow. lia.
  - destruct O as (Ow & Ic). split.
    + eapply mapped_chunk; eauto. split; cbn [fst snd]; lia.
    + apply Ow. lia.
Qed.

Lemma obj_first st own k x p : obj_ok st own k x p -> own p = User k.
Proof.
  intros (P & Sz & O & _). destruct (o_pool x).
  - destruct O as (_ & _ & Ow & _). destruct (nlines_size _ Sz). apply Ow. lia.
  - destruct O as (Ow & _). apply Ow. lia.
Qed.

Lemma wr_fine st a w : mapped st a = true -> wr st a w = Fine (with_mem st (upd (mem st) a w)).
Proof. intros M. unfold wr. rewrite M. auto. Qed.

Lemma upd_other m a w x : x <> a -> upd m a w x = m x.
Proof. intros N. unfold upd. destruct (Z.eqb_spec x a); congruence. Qed.

Lemma upd_same m a w : upd m a w a = w.
Proof. unfold upd. now rewrite Z.eqb_refl. Qed.

(** Objects keep their words if the memory of others changes. *)
Lemma obj_frame st st' own own' k x p :
  obj_ok st own k x p ->
  (forall q m, owns own q m (User k) -> owns own' q m (User k)) ->
  (forall r, In r (pages st) -> In r (pages st')) ->
  (o_pool x = false -> In (p, o_size x) (chunks st) -> In (p, o_size x) (chunks st')) ->
  (forall a, own a = User k -> mem st' a = mem st a) ->
  obj_ok st' own' k x p.
Proof.
  intros H Fo Fp Fc Fm. pose proof H as (P & Sz & O & W). split; auto. split; auto. split.
  - destruct (o_pool x).
    + destruct O as (H1 & H2 & H3 & r & Ir & H4). repeat (split; auto). eauto.
    + destruct O as (H1 & H2). split; auto.
  - intros i w Hi Hw. destruct (obj_mapped _ _ _ _ _ i H Hi) as [_ E].
    rewrite Fm; auto.
Qed.

Lemma free_frame st st' own own' t nl a :
  free_ok st own t nl a ->
  (forall q m, owns own q m (Free t nl a) -> owns own' q m (Free t nl a)) ->
  (forall r, In r (pages st) -> In r (pages st')) ->
  free_ok st' own' t nl a.
Proof.
  intros (H1 & H2 & H3 & r & Ir & H4) Fo Fp. split; auto. split; auto. split; auto. eauto.
Qed.

(** ** A new page *)

Lemma init_loop_ok f : forall st p nx off sz unit,
  0 < p -> p <= nx -> nx + unit = p + off -> off <= sz -> 8 <= unit ->
  sz - off < Z.of_nat f ->
  (forall a, p <= a -> a + 8 <= p + sz -> mapped st a = true) ->
  (nx - p) mod unit = 0 ->
  exists m l, init_loop f st p nx off sz unit = Fine (with_mem st m) /\
    (forall x, ~ (nx <= x < p + sz) -> m x = mem st x) /\
    chain m nx l /\ NoDup l /\ Z.of_nat (length l) = (sz - (nx - p)) / unit /\
    forall a, In a l -> nx <= a /\ a + unit <= p + sz /\ (a - p) mod unit = 0.
Proof.
  induction f as [|f IH]; intros st p nx off sz unit P1 P2 P3 P4 P5 P6 M D; [lia|].
  cbn [init_loop]. assert (Mn : mapped st nx = true) by (apply M; lia).
  destruct (Z.leb_spec (off + unit) sz).
  - rewrite wr_fine by auto. cbn [bind].
    destruct (IH (with_mem st (upd (mem st) nx (p + off))) p (p + off) (off + unit) sz unit)
      as (m & l & E & F & C & N & Ln & A); try lia.
    + exact M.
    + replace (p + off - p) with (nx - p + 1 * unit) by lia. rewrite Z.mod_add by lia. auto.
    + exists m, (nx :: l). split; [exact E|]. split.
      { intros x Hx. rewrite F by lia. simpl. apply upd_other. lia. }
      split.
      { simpl. split; auto. split; [lia|]. rewrite F by lia. simpl. rewrite upd_same. auto. }
      split.
      { constructor; auto. intros I. apply A in I. lia. }
      split.
      { cbn [length]. rewrite Nat2Z.inj_succ, Ln.
        replace (sz - (nx - p)) with (sz - (p + off - p) + 1 * unit) by lia.
        rewrite Z.div_add by lia. lia. }
      intros a [<-|I]; [|destruct (A a I); lia]. split; [lia|]. split; [lia|]. auto.
  - rewrite wr_fine by auto. exists (upd (mem st) nx 0), [nx]. split; auto. split.
    { intros x Hx. apply upd_other. lia. }
    split.
    { simpl. rewrite upd_same. repeat split. lia. }
    split. { constructor; auto. constructor. }
    split. { simpl. apply Z.div_unique with (sz - (nx - p) - unit); lia. }
    intros a [<-|[]]. split; [lia|]. split; [lia|]. auto.
Qed.

Lemma unused_out st v own cn b n x : inv st v own cn -> unused st b n -> own x <> Nobody -> ~ (b <= x < b + n).
Proof.
  intros I (_ & _ & Up & Uc) O. destruct (i_mapped _ _ _ _ I x O) as (r & Ir & H).
  apply in_app_or in Ir as [Ir|Ir]; [apply Up in Ir|apply Uc in Ir]; destruct Ir; lia.
Qed.

Lemma refill_ok psz st v own cn t nl base :
  inv st v own cn -> in_pools nl = true -> pool st t nl = 0 -> unused st base psz -> base mod 64 = 0 ->
  1280 <= psz ->
  exists st' own', refill_pool psz st t nl base = Fine st' /\
    inv st' v own' (change cn t nl (psz / (64 * nl))) /\
    pool st' t nl = base /\ vars st' = vars st /\ pages st' = (base, psz) :: pages st /\ cn t nl = 0.
Proof.
  intros I Hn E0 U Al Ps. pose proof (pools_range _ Hn) as Rn.
  pose proof U as (B0 & B1 & Up & Uc).
  unfold refill_pool. rewrite E0. cbn [Z.eqb need bind]. cbv zeta.
  unfold initialize_pool. unfold line.
  destruct (init_loop_ok (S (Z.to_nat psz)) (with_page st base psz) base base (nl * 64) psz (nl * 64))
    as (m & l & E & F & C & Nd & Ln & A); try lia.
  { intros a H1 H2. apply (mapped_page _ (base, psz)); [left; auto|]. split; simpl; lia. }
  { replace (base - base) with 0 by lia. apply Z.mod_0_l. lia. }
  rewrite E. cbn [bind].
  assert (Z0 : cn t nl = 0).
  { destruct (i_free _ _ _ _ I t nl Hn) as (l0 & C0 & _ & L0 & _). rewrite E0 in C0.
    destruct l0; [auto|destruct C0 as (Q & Q' & _); congruence]. }
  set (own' := fun x => if (base <=? x) && (x <? base + psz)
                        then Free t nl (base + (x - base) / (nl * 64) * (nl * 64)) else own x).
  assert (Keep : forall q n o, o <> Nobody -> owns own q n o -> owns own' q n o).
  { intros q n o No H x Hx. unfold own'. rewrite (H x Hx).
    assert (~ (base <= x < base + psz)) by (eapply unused_out; eauto; rewrite (H x Hx); auto).
    replace ((base <=? x) && (x <? base + psz)) with false by lia. auto. }
  assert (Km : forall a, own a <> Nobody -> m a = mem st a).
  { intros a Ha. rewrite F; auto. eapply unused_out; eauto. }
  eexists. exists own'. split; [reflexivity|]. split; [|split; [|split; [|split]]]; auto.
  - constructor; simpl.
    + apply I.
    + intros x Hx. unfold own' in Hx. destruct (Z.leb_spec base x); cbn [andb] in Hx.
      * destruct (Z.ltb_spec x (base + psz)).
        -- exists (base, psz). simpl. split; [auto|lia].
        -- destruct (i_mapped _ _ _ _ I x Hx) as (r & Ir & H'). exists r. split; auto.
      * destruct (i_mapped _ _ _ _ I x Hx) as (r & Ir & H'). exists r. split; auto.
    + intros k x p E1 E2 E3. apply obj_frame with (st := st) (own := own); simpl; auto.
      * apply I; auto.
      * intros q n. apply Keep. discriminate.
      * intros a Ha. apply Km. rewrite Ha. discriminate.
    + intros t' nl' Hn'. destruct (Nat.eqb_spec t' t) as [->|Nt]; cbn [andb].
      * destruct (Z.eqb_spec nl' nl) as [->|Nl].
        -- exists l. split; auto. split; auto. split.
           { unfold change. rewrite Nat.eqb_refl, Z.eqb_refl. cbn [andb]. rewrite Ln, Z0.
             replace (psz - (base - base)) with psz by lia. rewrite (Z.mul_comm 64). lia. }
           intros a Ha. destruct (A a Ha) as (A1 & A2 & A3).
           assert (Ea : a - base = nl * 64 * ((a - base) / (nl * 64))).
           { pose proof (Z.div_mod (a - base) (nl * 64) ltac:(lia)). lia. }
           split; [lia|]. split.
           { replace a with (base + (nl * ((a - base) / (nl * 64))) * 64) by lia.
             rewrite Z.mod_add by lia. auto. }
           split.
           { intros x Hx. unfold own'.
             replace ((base <=? x) && (x <? base + psz)) with true by lia. f_equal.
             assert ((x - base) / (nl * 64) = (a - base) / (nl * 64)).
             { symmetry. apply Z.div_unique with (x - a). { left. lia. } lia. }
             lia. }
           exists (base, psz). split; [left; auto|]. split; cbn [fst snd]; lia.
        -- destruct (i_free _ _ _ _ I t nl' Hn') as (l' & C' & N' & L' & A'). exists l'. split.
           { apply chain_frame with (m := mem st); auto. intros a Ha. apply Km.
             destruct (A' a Ha) as (_ & _ & O & _). pose proof (pools_range _ Hn').
             rewrite (O a ltac:(lia)). discriminate. }
           split; auto. split. { rewrite L'. unfold change. rewrite Nat.eqb_refl.
             destruct (Z.eqb_spec nl' nl); [congruence|auto]. }
           intros a Ha. apply free_frame with (st := st) (own := own); simpl; auto.
           intros q n. apply Keep. discriminate.
      * destruct (i_free _ _ _ _ I t' nl' Hn') as (l' & C' & N' & L' & A'). exists l'. split.
        { apply chain_frame with (m := mem st); auto. intros a Ha. apply Km.
          destruct (A' a Ha) as (_ & _ & O & _). pose proof (pools_range _ Hn').
          rewrite (O a ltac:(lia)). discriminate. }
        split; auto. split. { rewrite L'. unfold change.
          destruct (Nat.eqb_spec t' t); [congruence|auto]. }
        intros a Ha. apply free_frame with (st := st) (own := own); simpl; auto.
        intros q n. apply Keep. discriminate.
    + apply I.
    + apply I.
    + apply I.
    + apply I.
    + apply I.
  - simpl. now rewrite Nat.eqb_refl, Z.eqb_refl.
Qed.

(** ** Taking a block *)

Lemma limbo_app st v o0 p0 t :
  Forall2 (fun e k => exists x, nth_error (objs v) k = Some x /\
      nth_error (vars st) k = Some (fst e) /\ o_stat x = Retired /\
      Z.land (snd e) pool_mask = tag_of x) (limbo st t) (mine (queue v) t) ->
  Forall2 (fun e k => exists x, nth_error (objs v ++ [o0]) k = Some x /\
      nth_error (vars st ++ [p0]) k = Some (fst e) /\ o_stat x = Retired /\
      Z.land (snd e) pool_mask = tag_of x) (limbo st t) (mine (queue v) t).
Proof.
  intros H. induction H as [|e k es ks (x & E1 & E2 & E3 & E4) H IH]; constructor; auto.
  exists x. split. { rewrite nth_error_app1; auto. apply nth_error_Some. congruence. }
  split; auto. rewrite nth_error_app1; auto. apply nth_error_Some. congruence.
Qed.

Lemma chunks_app st v o0 p0 (r : Z * Z) :
  (exists k x, nth_error (vars st) k = Some (fst r) /\
    nth_error (objs v) k = Some x /\ o_stat x <> Gone /\ o_pool x = false /\ o_size x = snd r) ->
  exists k x, nth_error (vars st ++ [p0]) k = Some (fst r) /\
    nth_error (objs v ++ [o0]) k = Some x /\ o_stat x <> Gone /\ o_pool x = false /\ o_size x = snd r.
Proof.
  intros (k & x & E1 & E2 & E3). exists k, x.
  split. { rewrite nth_error_app1; auto. apply nth_error_Some. congruence. }
  split; auto. rewrite nth_error_app1; auto. apply nth_error_Some. congruence.
Qed.

Lemma nth_app_last {A} (l : list A) a k x : nth_error (l ++ [a]) k = Some x ->
  (nth_error l k = Some x /\ (k < length l)%nat) \/ (k = length l /\ x = a).
Proof.
  intros E. destruct (Nat.lt_ge_cases k (length l)) as [L|L].
  - rewrite nth_error_app1 in E by auto. auto.
  - rewrite nth_error_app2 in E by auto. right.
    destruct (k - length l)%nat as [|d] eqn:Ed; [|destruct d; discriminate].
    simpl in E. injection E as ->. split; auto. lia.
Qed.

Lemma pop_ok st v own cn t sz p :
  inv st v own cn -> 0 < sz <= 20 * 64 -> pool st t (nlines sz) = p -> p <> 0 ->
  exists own', rd st p = Fine (mem st p) /\
    inv (with_var (with_pool st t (nlines sz) (mem st p)) p) (add v sz true) own' (change cn t (nlines sz) (-1)).
Proof.
  intros I Hs Ep Np. pose proof (nlines_pool _ Hs) as Hn. pose proof (pools_range _ Hn) as Rn.
  destruct (i_free _ _ _ _ I t _ Hn) as (l & C & Nd & Ln & A). rewrite Ep in C.
  destruct l as [|a l]; [simpl in C; congruence|]. destruct C as (-> & _ & C).
  destruct (A a ltac:(left; auto)) as (A1 & A2 & A3 & r & Ir & H1 & H2).
  exists (give own a (64 * nlines sz) (User (length (objs v)))). split.
  { unfold rd. rewrite (mapped_page st r a); auto. split; lia. }
  assert (Lt : forall k x, nth_error (objs v) k = Some x -> (k < length (objs v))%nat).
  { intros k x E. apply nth_error_Some. congruence. }
  constructor; simpl.
  - rewrite !app_length, (i_len _ _ _ _ I). auto.
  - intros x Hx. unfold give in Hx. destruct (Z.leb_spec a x); cbn [andb] in Hx.
    + destruct (Z.ltb_spec x (a + 64 * nlines sz)).
      * apply (i_mapped _ _ _ _ I). rewrite (A3 x) by lia. discriminate.
      * apply (i_mapped _ _ _ _ I); auto.
    + apply (i_mapped _ _ _ _ I); auto.
  - intros k x q E1 E2 E3.
    apply nth_app_last in E1 as [[E1 L1]|[-> ->]].
    + rewrite nth_error_app1 in E2 by (rewrite (i_len _ _ _ _ I); auto).
      apply obj_frame with (st := st) (own := own); simpl; auto.
      * apply I; auto.
      * intros q' m Ho. eapply give_other; eauto. discriminate.
    + rewrite <- (i_len _ _ _ _ I), nth_error_app2, Nat.sub_diag in E2 by auto. simpl in E2.
      injection E2 as <-. split; auto. split; [simpl; lia|]. split.
      * simpl. split; auto. split; auto. split; [apply give_in|]. exists r. split; auto. split; lia.
      * simpl. discriminate.
  - intros t' nl' Hn'. destruct (Nat.eqb_spec t' t) as [->|Nt]; cbn [andb].
    + destruct (Z.eqb_spec nl' (nlines sz)) as [->|Nl].
      * exists l. split; auto. inversion Nd; subst. split; auto. split.
        { unfold change. rewrite Nat.eqb_refl, Z.eqb_refl. cbn [andb]. cbn [length] in Ln. lia. }
        intros a' Ha.
        apply free_frame with (st := st) (own := own); auto.
        { apply A. right; auto. }
        intros q m Ho. eapply give_other; eauto. intros Q. injection Q as <-. auto.
      * destruct (i_free _ _ _ _ I t nl' Hn') as (l' & C' & N' & L' & A'). exists l'. split; auto.
        split; auto. split.
        { rewrite L'. unfold change. rewrite Nat.eqb_refl.
          destruct (Z.eqb_spec nl' (nlines sz)); [congruence|auto]. }
        intros a' Ha. apply free_frame with (st := st) (own := own); auto.
        intros q m Ho. eapply give_other; eauto. intros Q. injection Q as Q _. congruence.
    + destruct (i_free _ _ _ _ I t' nl' Hn') as (l' & C' & N' & L' & A'). exists l'. split; auto.
      split; auto. split.
      { rewrite L'. unfold change. destruct (Nat.eqb_spec t' t); [congruence|auto]. }
      intros a' Ha. apply free_frame with (st := st) (own := own); auto.
      intros q m Ho. eapply give_other; eauto. intros Q. injection Q as Q _. congruence.
  - intros t'. apply limbo_app. apply I.
  - apply I.
  - apply I.
  - apply I.
  - intros r' Ir'. apply chunks_app. apply (i_chunks _ _ _ _ I); auto.
Qed.

(** ** Giving a block back *)

Definition gone (v : world) (k : nat) (x : object) (q : list (nat * nat)) : world :=
  {| objs := replace (objs v) k (with_stat x Gone); queue := q |}.

(** The part of [inv] about objects and retired objects when [k] is gone; the queue may
    have lost [k]. *)
Lemma limbo_gone st v (lb : nat -> list (Z * Z)) q k x :
  (forall t, Forall2 (fun e k => exists x, nth_error (objs v) k = Some x /\
      nth_error (vars st) k = Some (fst e) /\ o_stat x = Retired /\
      Z.land (snd e) pool_mask = tag_of x) (lb t) (mine q t)) ->
  ~ In k (map snd q) ->
  forall t, Forall2 (fun e k' => exists x', nth_error (replace (objs v) k x) k' = Some x' /\
      nth_error (vars st) k' = Some (fst e) /\ o_stat x' = Retired /\
      Z.land (snd e) pool_mask = tag_of x') (lb t) (mine q t).
Proof.
  intros H N t. specialize (H t).
  assert (Nm : ~ In k (mine q t)).
  { intros Q. apply N. unfold mine in Q. apply in_map_iff in Q as (e & E & Ie).
    apply filter_In in Ie as [Ie _]. apply in_map_iff. eauto. }
  revert Nm. induction H as [|e k' es ks (x' & E1 & E2) H IH]; intros Nm; constructor.
  - exists x'. rewrite replace_other; auto. intros <-. apply Nm. left; auto.
  - apply IH. intros Q. apply Nm. right; auto.
Qed.

(** [st] is a state in which [k] has left the queue. *)
Definition kept (st : state) (v : world) (q : list (nat * nat)) : Prop :=
  (forall t, Forall2 (fun e k => exists x, nth_error (objs v) k = Some x /\
      nth_error (vars st) k = Some (fst e) /\ o_stat x = Retired /\
      Z.land (snd e) pool_mask = tag_of x) (limbo st t) (mine q t)) /\ NoDup (map snd q).

Lemma push_ok st0 st v own cn t nl k x p q :
  inv st0 v own cn ->
  mem st = mem st0 -> pages st = pages st0 -> chunks st = chunks st0 -> pool st = pool st0 ->
  vars st = vars st0 -> kept st v q -> ~ In k (map snd q) ->
  nth_error (objs v) k = Some x -> nth_error (vars st) k = Some p -> o_stat x <> Gone ->
  o_pool x = true -> nl = nlines (o_size x) ->
  exists st' own', push_pool st t nl p = Fine st' /\ inv st' (gone v k x q) own' (change cn t nl 1) /\
    pages st' = pages st.
Proof.
  intros I Mm Mp Mc Ml Mv [Kl Kq] Nq Ex Ev Ns Pl ->. rewrite Mv in Ev.
  pose proof (i_obj _ _ _ _ I k x p Ex Ev Ns) as Ok. pose proof Ok as (P0 & Sz & O & _).
  rewrite Pl in O. destruct O as (Hn & Al & Ow & r & Ir & H1 & H2).
  destruct (nlines_size _ Sz) as [S1 S2]. pose proof (pools_range _ Hn) as Rn.
  unfold push_pool. rewrite wr_fine.
  2: { apply (mapped_page _ r); [rewrite Mp; auto|]. split; lia. }
  cbn [bind]. set (nl := nlines (o_size x)) in *.
  eexists. exists (give own p (64 * nl) (Free t nl p)). split; [reflexivity|]. split; [|auto].
  assert (Op : own p = User k) by (apply Ow; lia).
  constructor; simpl.
  - rewrite Mv, replace_length. apply I.
  - rewrite Mp, Mc. intros y Hy. unfold give in Hy. destruct (Z.leb_spec p y); cbn [andb] in Hy.
    + destruct (Z.ltb_spec y (p + 64 * nl)).
      * apply (i_mapped _ _ _ _ I). rewrite (Ow y) by lia. discriminate.
      * apply (i_mapped _ _ _ _ I); auto.
    + apply (i_mapped _ _ _ _ I); auto.
  - rewrite Mv. intros k' x' p' E1 E2 E3. destruct (Nat.eq_dec k k') as [<-|Nk].
    + rewrite (replace_same _ _ _ _ Ex) in E1. injection E1 as <-. simpl in E3. congruence.
    + rewrite replace_other in E1 by auto.
      apply obj_frame with (st := st0) (own := own); simpl; auto.
      * apply I; auto.
      * intros q' m Ho. eapply give_other; eauto. congruence.
      * rewrite Mp; auto.
      * rewrite Mc; auto.
      * intros a Ha. rewrite Mm. apply upd_other. intros ->. congruence.
  - rewrite Ml. intros t' nl' Hn'.
    destruct (i_free _ _ _ _ I t' nl' Hn') as (l & C & N & Ln & A).
    assert (Cf : chain (upd (mem st) p (pool st0 t nl)) (pool st0 t' nl') l).
    { apply chain_frame with (m := mem st0); auto. intros a Ha. rewrite Mm. apply upd_other. intros ->.
      destruct (A p Ha) as (_ & _ & O' & _). pose proof (pools_range _ Hn').
      rewrite (O' p) in Op by lia. discriminate. }
    assert (Af : forall a, In a l -> free_ok
      (with_pool (with_mem st (upd (mem st) p (pool st0 t nl))) t nl p)
      (give own p (64 * nl) (Free t nl p)) t' nl' a).
    { intros a Ha. apply free_frame with (st := st0) (own := own); simpl; auto.
      - intros q' m Ho. eapply give_other; eauto. discriminate.
      - rewrite Mp; auto. }
    unfold change.
    destruct (Nat.eqb_spec t' t) as [->|Nt]; cbn [andb]; [|exists l; auto].
    destruct (Z.eqb_spec nl' nl) as [->|Nl]; [|exists l; auto].
    exists (p :: l). split.
    { simpl. rewrite upd_same. repeat split; auto. lia. }
    split.
    { constructor; auto. intros Q. destruct (A p Q) as (_ & _ & O' & _).
      rewrite (O' p) in Op by lia. discriminate. }
    split. { cbn [length]. lia. }
    intros a [<-|Ha]; auto. split; auto. split; auto. split; [apply give_in|].
    exists r. simpl. rewrite Mp. split; auto. split; lia.
  - apply limbo_gone; auto.
  - exact Kq.
  - rewrite Mc. apply I.
  - rewrite Mc. apply I.
  - rewrite Mc, Mv. intros r' Ir'. destruct (i_chunks _ _ _ _ I r' Ir') as (k' & x' & E1 & E2 & E3 & E4 & E5).
    exists k', x'. split; auto. split; auto. rewrite replace_other; auto. intros <-. congruence.
Qed.

(** ** malloc *)

Lemma drop_ok c p n : NoDup (map fst c) -> In (p, n) c ->
  exists c', drop c p = Some c' /\ NoDup (map fst c') /\
    (forall r, In r c' -> In r c /\ fst r <> p) /\ (forall r, In r c -> fst r <> p -> In r c') /\
    (forall r, In r c -> r = (p, n) \/ In r c').
Proof.
  induction c as [|y c IH]; intros N I; [destruct I|]. simpl in N. inversion N; subst.
  simpl. destruct (Z.eqb_spec (fst y) p) as [E|E].
  - exists c. split; auto. split; auto. split.
    { intros r Ir. split; [right; auto|]. intros Er. apply H1. rewrite E, <- Er. apply in_map. auto. }
    assert (y = (p, n)).
    { destruct I as [->|I]; auto. exfalso. apply H1. rewrite E. apply in_map_iff.
      exists (p, n). auto. }
    split. { intros r [<-|Ir] Nr; auto. congruence. }
    intros r [<-|Ir]; auto.
  - destruct I as [->|I]; [simpl in E; congruence|].
    destruct (IH H2 I) as (c' & E' & N' & A & B & D). rewrite E'. exists (y :: c').
    split; auto. split.
    { simpl. constructor; auto. intros Q. apply H1. apply in_map_iff in Q as (r & Er & Ir).
      apply in_map_iff. exists r. split; auto. apply A; auto. }
    split. { intros r [<-|Ir]; [split; [left; auto|auto]|]. destruct (A r Ir). split; [right|]; auto. }
    split. { intros r [<-|Ir] Nr; [left; auto|right; auto]. }
    intros r [<-|Ir]; [right; left; auto|]. destruct (D r Ir); auto. right; right; auto.
Qed.

Lemma sys_free_ok st0 st v own cn k x p q :
  inv st0 v own cn ->
  mem st = mem st0 -> pages st = pages st0 -> chunks st = chunks st0 -> pool st = pool st0 ->
  vars st = vars st0 -> kept st v q -> ~ In k (map snd q) ->
  nth_error (objs v) k = Some x -> nth_error (vars st) k = Some p -> o_stat x <> Gone ->
  o_pool x = false ->
  exists st' own', sys_free st p = Fine st' /\ inv st' (gone v k x q) own' cn /\ pages st' = pages st.
Proof.
  intros I Mm Mp Mc Ml Mv [Kl Kq] Nq Ex Ev Ns Pl. rewrite Mv in Ev.
  pose proof (i_obj _ _ _ _ I k x p Ex Ev Ns) as Ok. pose proof Ok as (P0 & Sz & O & _).
  rewrite Pl in O. destruct O as (Ow & Ic).
  unfold sys_free. rewrite Mc.
  destruct (drop_ok _ _ _ (i_bases _ _ _ _ I) Ic) as (c' & E & N' & A & B & D). rewrite E.
  eexists. exists (give own p (o_size x) Nobody). split; [reflexivity|]. split; [|auto].
  constructor; simpl.
  - rewrite Mv, replace_length. apply I.
  - rewrite Mp. intros y Hy. unfold give in Hy.
    destruct ((p <=? y) && (y <? p + o_size x)) eqn:Q; [congruence|].
    destruct (i_mapped _ _ _ _ I y Hy) as (r & Ir & H). apply in_app_or in Ir as [Ir|Ir].
    + exists r. split; auto. apply in_or_app; auto.
    + destruct (D r Ir) as [->|Ir']; [simpl in H; lia|]. exists r. split; auto. apply in_or_app; auto.
  - rewrite Mv. intros k' x' p' E1 E2 E3. destruct (Nat.eq_dec k k') as [<-|Nk].
    + rewrite (replace_same _ _ _ _ Ex) in E1. injection E1 as <-. simpl in E3. congruence.
    + rewrite replace_other in E1 by auto.
      pose proof (i_obj _ _ _ _ I k' x' p' E1 E2 E3) as Ok'.
      apply obj_frame with (st := st0) (own := own); simpl; auto.
      * intros q' m Ho. eapply give_other; eauto. congruence.
      * rewrite Mp; auto.
      * intros _ Ic'. apply B; auto. simpl. intros ->.
        pose proof (obj_first _ _ _ _ _ Ok). pose proof (obj_first _ _ _ _ _ Ok'). congruence.
      * intros a Ha. rewrite Mm. auto.
  - rewrite Ml, Mm. intros t' nl' Hn'.
    destruct (i_free _ _ _ _ I t' nl' Hn') as (l & C & N & Ln & Al). exists l. split; auto. split; auto. split; auto.
    intros a Ha. apply free_frame with (st := st0) (own := own); simpl; auto.
    + intros q' m Ho. eapply give_other; eauto. discriminate.
    + rewrite Mp; auto.
  - apply limbo_gone; auto.
  - exact Kq.
  - intros r Ir. apply (i_sizes _ _ _ _ I). apply A; auto.
  - auto.
  - rewrite Mv. intros r' Ir'. destruct (A r' Ir') as [Ir0 Nr].
    destruct (i_chunks _ _ _ _ I r' Ir0) as (k' & x' & E1 & E2 & E3).
    exists k', x'. split; auto. rewrite replace_other; auto. intros <-. congruence.
Qed.

Lemma malloc_ok st v own cn sz base :
  inv st v own cn -> 0 < sz -> unused st base sz ->
  exists own', inv (with_var (sys_malloc st sz base) base) (add v sz false) own' cn.
Proof.
  intros I Hs U. pose proof U as (B0 & B1 & Up & Uc).
  exists (give own base sz (User (length (objs v)))).
  assert (Keep : forall q n o, o <> Nobody -> owns own q n o ->
    owns (give own base sz (User (length (objs v)))) q n o).
  { intros q n o No H x Hx. unfold give. rewrite (H x Hx).
    assert (~ (base <= x < base + sz)) by (eapply unused_out; eauto; rewrite (H x Hx); auto).
    replace ((base <=? x) && (x <? base + sz)) with false by lia. auto. }
  constructor; simpl.
  - rewrite !app_length, (i_len _ _ _ _ I). auto.
  - intros x Hx. unfold give in Hx. destruct (Z.leb_spec base x); cbn [andb] in Hx.
    + destruct (Z.ltb_spec x (base + sz)).
      * exists (base, sz). split; [apply in_or_app; right; left; auto|]. simpl. lia.
      * destruct (i_mapped _ _ _ _ I x Hx) as (r & Ir & H'). exists r. split; auto.
        apply in_app_or in Ir as [Ir|Ir]; apply in_or_app; simpl; auto.
    + destruct (i_mapped _ _ _ _ I x Hx) as (r & Ir & H'). exists r. split; auto.
      apply in_app_or in Ir as [Ir|Ir]; apply in_or_app; simpl; auto.
  - intros k x q E1 E2 E3.
    apply nth_app_last in E1 as [[E1 L1]|[-> ->]].
    + rewrite nth_error_app1 in E2 by (rewrite (i_len _ _ _ _ I); auto).
      apply obj_frame with (st := st) (own := own); simpl; auto.
      * apply I; auto.
      * intros q' m. apply Keep. discriminate.
    + rewrite <- (i_len _ _ _ _ I), nth_error_app2, Nat.sub_diag in E2 by auto. simpl in E2.
      injection E2 as <-. split; auto. split; [simpl; lia|]. split.
      * simpl. split; [apply give_in|auto].
      * simpl. discriminate.
  - intros t' nl' Hn'. destruct (i_free _ _ _ _ I t' nl' Hn') as (l & C & N & Ln & A). exists l.
    split; auto. split; auto. split; auto. intros a Ha. apply free_frame with (st := st) (own := own); simpl; auto.
    intros q' m. apply Keep. discriminate.
  - intros t'. apply limbo_app. apply I.
  - apply I.
  - intros r [<-|Ir]; [auto|]. apply (i_sizes _ _ _ _ I); auto.
  - constructor; [|apply I]. intros Q. apply in_map_iff in Q as (r & Er & Ir).
    pose proof (i_sizes _ _ _ _ I r Ir). destruct (Uc r Ir); lia.
  - intros r [<-|Ir].
    + exists (length (objs v)). eexists. split.
      { rewrite <- (i_len _ _ _ _ I), nth_error_app2, Nat.sub_diag by auto. reflexivity. }
      split. { rewrite nth_error_app2, Nat.sub_diag by auto. reflexivity. }
      simpl. split; [discriminate|auto].
    + apply chunks_app. apply (i_chunks _ _ _ _ I); auto.
Qed.

(** ** Retiring *)

Lemma mine_app q t' k t : mine (q ++ [(t', k)]) t = mine q t ++ (if Nat.eqb t' t then [k] else []).
Proof. unfold mine. rewrite filter_app, map_app. simpl. destruct (Nat.eqb t' t); auto. Qed.

Lemma queued st v own cn k : inv st v own cn -> In k (map snd (queue v)) ->
  exists x, nth_error (objs v) k = Some x /\ o_stat x = Retired.
Proof.
  intros I Q. apply in_map_iff in Q as ([t k'] & E & Ik). simpl in E. subst k'.
  pose proof (i_limbo _ _ _ _ I t) as F.
  assert (Im : In k (mine (queue v) t)).
  { unfold mine. apply in_map_iff. exists (t, k). split; auto. apply filter_In. split; auto.
    apply Nat.eqb_refl. }
  revert Im. induction F as [|e k' es ks (x & E1 & E2 & E3 & _) F IH]; intros [].
  - subst. eauto.
  - auto.
Qed.

Lemma retire_ok st v own cn t k x p tag :
  inv st v own cn -> nth_error (objs v) k = Some x -> nth_error (vars st) k = Some p ->
  o_stat x = Live -> Z.land tag pool_mask = tag_of x ->
  inv (record_rcu st t p tag)
      {| objs := replace (objs v) k (with_stat x Retired); queue := queue v ++ [(t, k)] |} own cn.
Proof.
  intros I Ex Ev Es Et.
  assert (Nq : ~ In k (map snd (queue v))).
  { intros Q. destruct (queued _ _ _ _ _ I Q) as (x' & E1 & E2). congruence. }
  constructor; simpl; try apply I.
  - rewrite replace_length. apply I.
  - intros k' x' p' E1 E2 E3. destruct (Nat.eq_dec k k') as [<-|Nk].
    + rewrite (replace_same _ _ _ _ Ex) in E1. injection E1 as <-.
      assert (p' = p) by congruence. subst p'.
      exact (i_obj _ _ _ _ I k x p Ex Ev ltac:(congruence)).
    + rewrite replace_other in E1 by auto. exact (i_obj _ _ _ _ I _ _ _ E1 E2 E3).
  - intros t'. rewrite mine_app. rewrite (Nat.eqb_sym t t').
    pose proof (limbo_gone st v (limbo st) (queue v) k (with_stat x Retired) (i_limbo _ _ _ _ I) Nq t') as F.
    destruct (Nat.eqb_spec t' t) as [->|Nt].
    + apply Forall2_app; auto. constructor; auto. exists (with_stat x Retired).
      split; [eapply replace_same; eauto|]. split; auto.
    + rewrite app_nil_r. auto.
  - rewrite map_app. simpl. apply NoDup_Add with (a := k) (l := map snd (queue v)).
    + rewrite <- (app_nil_r (map snd (queue v))) at 1. apply Add_app.
    + split; auto. apply I.
  - intros r Ir. destruct (i_chunks _ _ _ _ I r Ir) as (k' & x' & E1 & E2 & E3 & E4 & E5).
    destruct (Nat.eq_dec k k') as [<-|Nk].
    + exists k, (with_stat x Retired). assert (x' = x) by congruence. subst x'. split; auto.
      split; [eapply replace_same; eauto|]. split; [discriminate|auto].
    + exists k', x'. rewrite replace_other by auto. auto.
Qed.

(** ** Releasing the oldest *)

Lemma oldest_some q t k q' : oldest q t = Some (k, q') ->
  mine q t = k :: mine q' t /\ (forall t', t' <> t -> mine q t' = mine q' t') /\
  (NoDup (map snd q) -> NoDup (map snd q') /\ ~ In k (map snd q')).
Proof.
  revert q'; induction q as [|[t1 k1] q IH]; intros q' E; [discriminate|]. simpl in E.
  destruct (Nat.eqb_spec t1 t) as [->|N].
  - injection E as -> ->. unfold mine. simpl. rewrite Nat.eqb_refl. simpl. split; auto. split.
    + intros t' Nt. destruct (Nat.eqb_spec t t'); [congruence|auto].
    + intros Nd. inversion Nd; auto.
  - destruct (oldest q t) as [[k2 q2]|] eqn:E2; [|discriminate]. injection E as -> <-.
    destruct (IH q2 eq_refl) as (H1 & H2 & H3). unfold mine in *. simpl.
    destruct (Nat.eqb_spec t1 t); [congruence|]. split; auto. split.
    + intros t' Nt. destruct (Nat.eqb t1 t'); simpl; rewrite H2 by auto; auto.
    + intros Nd. inversion Nd; subst. destruct (H3 H5) as [H6 H7]. split.
      * constructor; auto. intros Q. apply H4.
        apply in_map_iff in Q as (e & Ee & Ie). apply in_map_iff. exists e. split; auto.
        clear - E2 Ie. revert q2 E2 Ie. induction q as [|[t3 k3] q IH]; intros q2 E2 Ie; [discriminate|].
        simpl in E2. destruct (Nat.eqb t3 t); [injection E2 as -> ->; right; auto|].
        destruct (oldest q t) as [[k4 q4]|]; [|discriminate]. injection E2 as -> <-.
        destruct Ie as [<-|Ie]; [left; auto|right; eauto].
      * intros [Q|Q]; auto. subst k1.
        assert (In k (map snd q)). 2: contradiction.
        assert (In k (map snd (filter (fun e => Nat.eqb (fst e) t) q))) as Q by (rewrite H1; left; auto).
        apply in_map_iff in Q as (e & Ee & Ie). apply filter_In in Ie as [Ie _].
        apply in_map_iff. eauto.
Qed.

Lemma oldest_none q t : oldest q t = None -> mine q t = [].
Proof.
  induction q as [|[t1 k1] q IH]; intros E; auto. simpl in E. unfold mine. simpl.
  destruct (Nat.eqb_spec t1 t); [discriminate|]. destruct (oldest q t) as [[]|]; [discriminate|].
  auto.
Qed.

(** ** Writing a word *)

Lemma put_ok st v own cn k x p i w :
  inv st v own cn -> nth_error (objs v) k = Some x -> nth_error (vars st) k = Some p ->
  o_stat x = Live -> inside x i = true ->
  exists st', wr st (p + 8 * i) w = Fine st' /\ inv st' (set v k (with_word x i w)) own cn /\
    pages st' = pages st.
Proof.
  intros I Ex Ev Es Hi.
  pose proof (i_obj _ _ _ _ I k x p Ex Ev ltac:(congruence)) as Ok.
  destruct (obj_mapped _ _ _ _ _ _ Ok Hi) as [Mp Op].
  rewrite wr_fine by auto. eexists. split; [reflexivity|]. split; [|auto].
  constructor; simpl; try apply I.
  - rewrite replace_length. apply I.
  - intros k' x' p' E1 E2 E3. destruct (Nat.eq_dec k k') as [<-|Nk].
    + rewrite (replace_same _ _ _ _ Ex) in E1. injection E1 as <-.
      assert (p' = p) by congruence. subst p'.
      destruct Ok as (P0 & Sz & O & W). split; auto. split; auto. split; auto.
      intros j w' Hj Hw. simpl in *. destruct (Z.eqb_spec j i) as [->|Nj].
      * injection Hw as <-. apply upd_same.
      * rewrite upd_other by lia. apply W; auto.
    + rewrite replace_other in E1 by auto.
      apply obj_frame with (st := st) (own := own); simpl; auto.
      * apply I; auto.
      * intros a Ha. apply upd_other. intros ->. congruence.
  - intros t nl Hn. destruct (i_free _ _ _ _ I t nl Hn) as (l & C & N & Ln & A). exists l. split.
    + apply chain_frame with (m := mem st); auto. intros a Ha. apply upd_other. intros ->.
      destruct (A _ Ha) as (_ & _ & O & _). pose proof (pools_range _ Hn).
      rewrite (O (p + 8 * i)) in Op by lia. discriminate.
    + split; auto.
  - intros t. assert (Nq : ~ In k (map snd (queue v))).
    { intros Q. destruct (queued _ _ _ _ _ I Q) as (x' & E1 & E2). congruence. }
    apply (limbo_gone st v (limbo st) (queue v) k (with_word x i w) (i_limbo _ _ _ _ I) Nq t).
  - intros r Ir. destruct (i_chunks _ _ _ _ I r Ir) as (k' & x' & E1 & E2 & E3 & E4 & E5).
    destruct (Nat.eq_dec k k') as [<-|Nk].
    + exists k, (with_word x i w). assert (x' = x) by congruence. subst x'. split; auto.
      split; [eapply replace_same; eauto|]. simpl. auto.
    + exists k', x'. rewrite replace_other by auto. auto.
Qed.
