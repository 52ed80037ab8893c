(* The queue of retired objects: groups, their chain, and handing over. *)
From Verif Require Import Lib M_Circular M_Limbo Spec_Limbo.

(* Slots. *)
Definition seg (g : group) : list slot := map (g_e g) (seq (g_head g) (g_tail g - g_head g)).
Fixpoint items (c : Z) (s : list slot) : list (Z * Z * Z) :=
  match s with [] => [] | SMark e :: r => items e r | SPtr p t :: r => (p, t, c) :: items c r end.
Fixpoint lastmark (c : Z) (s : list slot) : Z := match s with [] => c | SMark e :: r => lastmark e r | SPtr _ _ :: r => lastmark c r end.
Fixpoint asc (c : Z) (s : list slot) : Prop := match s with [] => True | SMark e :: r => c <= e /\ asc e r | SPtr _ _ :: r => asc c r end.
Lemma items_app c a b : items c (a ++ b) = items c a ++ items (lastmark c a) b.
Proof. revert c. induction a as [|[e|p t] a IH]; intros c; cbn [app items lastmark]; auto. now rewrite IH. Qed.
Lemma lastmark_app c a b : lastmark c (a ++ b) = lastmark (lastmark c a) b.
Proof. revert c. induction a as [|[e|p t] a IH]; intros c; cbn [app lastmark]; auto. Qed.
Lemma asc_app c a b : asc c (a ++ b) <-> asc c a /\ asc (lastmark c a) b.
Proof. revert c. induction a as [|[e|p t] a IH]; intros c; cbn [app lastmark asc]; [tauto| |auto]. rewrite IH. tauto. Qed.
Lemma asc_last c s : asc c s -> c <= lastmark c s.
Proof. revert c. induction s as [|[e|p t] s IH]; intros c; cbn [asc lastmark]; [lia| |auto]. intros [A B]. specialize (IH e B). lia. Qed.
Lemma asc_items c s : asc c s -> Forall (fun x => c <= snd x <= lastmark c s) (items c s).
Proof.
  revert c. induction s as [|[e|p t] s IH]; intros c; cbn [asc lastmark items]; [constructor| |].
  - intros [A B]. eapply Forall_impl; [|exact (IH e B)]. intros x Hx. cbn beta in *. lia.
  - intros A. constructor; [cbn [snd]; pose proof (asc_last _ _ A); lia|auto].
Qed.

(* One group. *)
Lemma seg_ext g g' : g_head g = g_head g' -> g_tail g = g_tail g' -> (forall i, (g_head g <= i < g_tail g)%nat -> g_e g i = g_e g' i) -> seg g = seg g'.
Proof. intros H1 H2 H. unfold seg. rewrite <- H1, <- H2. apply map_ext_in. intros i Hi. apply in_seq in Hi. apply H. lia. Qed.
Lemma seg_nil g : (g_head g <= g_tail g)%nat -> seg g = [] <-> g_head g = g_tail g.
Proof.
  intros L. unfold seg. split; intros H.
  - assert (E : length (map (g_e g) (seq (g_head g) (g_tail g - g_head g))) = 0%nat) by now rewrite H. rewrite map_length, seq_length in E. lia.
  - replace (g_tail g - g_head g)%nat with 0%nat by lia. reflexivity.
Qed.
Lemma seg_pop g : (g_head g < g_tail g)%nat -> seg g = g_e g (g_head g) :: seg (g_with_head g (S (g_head g))).
Proof. intros H. unfold seg, g_with_head. cbn [g_head g_tail g_e]. replace (g_tail g - g_head g)%nat with (S (g_tail g - S (g_head g))) by lia. reflexivity. Qed.
Lemma seg_push h t e nx f x : (h <= t)%nat -> seg (MkGroup h (S t) e nx (upd f t x)) = map f (seq h (t - h)) ++ [x].
Proof.
  intros H. unfold seg. cbn [g_head g_tail g_e]. replace (S t - h)%nat with (t - h + 1)%nat by lia. rewrite seq_app, map_app. f_equal.
  - apply map_ext_in. intros i Hi. apply in_seq in Hi. unfold upd. destruct (Nat.eqb_spec i t); [lia|reflexivity].
  - cbn [seq map]. unfold upd. replace (h + (t - h))%nat with t by lia. now rewrite Nat.eqb_refl.
Qed.
Lemma seg_rewrite g e : (g_head g < g_tail g)%nat -> seg (g_with_slot g (g_head g) (SMark e)) = SMark e :: seg (g_with_head g (S (g_head g))).
Proof.
  intros H. rewrite seg_pop by auto. cbn [g_with_slot g_e g_head]. unfold upd at 1. rewrite Nat.eqb_refl. f_equal.
  apply seg_ext; auto. cbn. intros i Hi. unfold upd. destruct (Nat.eqb_spec i (g_head g)); [lia|reflexivity].
Qed.

Lemma NoDup_app_snoc {A} (l : list A) x : NoDup l -> ~ In x l -> NoDup (l ++ [x]).
Proof. intros A1 B. apply NoDup_Add with (a := x) (l := l). { replace l with (l ++ []) at 1 by apply app_nil_r. apply Add_app. } auto. Qed.
(* Chains of groups. *)
Definition hd_or (b : list nat) (stop : option nat) : option nat := match b with [] => stop | x :: _ => Some x end.
Fixpoint lnk (f : nat -> group) (ids : list nat) (stop : option nat) : Prop :=
  match ids with [] => True | a :: r => g_next (f a) = hd_or r stop /\ lnk f r stop end.
Lemma lnk_app f a b stop : lnk f (a ++ b) stop <-> lnk f a (hd_or b stop) /\ lnk f b stop.
Proof.
  induction a as [|x a IH]; cbn [app lnk]; [tauto|]. rewrite IH.
  replace (hd_or (a ++ b) stop) with (hd_or a (hd_or b stop)) by (destruct a; reflexivity). tauto.
Qed.
Lemma lnk_ext f f' ids stop : (forall i, In i ids -> g_next (f i) = g_next (f' i)) -> lnk f ids stop -> lnk f' ids stop.
Proof. induction ids as [|a r IH]; intros H; cbn [lnk]; auto. intros [A B]. split; [rewrite <- H by (now left); auto|]. apply IH; auto. intros i Hi. apply H. now right. Qed.

Definition g_vacant (g : group) : Prop := g_head g = 0%nat /\ g_tail g = 0%nat.
Definition starts (s : list slot) : Prop := exists e p t r, s = SMark e :: SPtr p t :: r.

Section Limbo.
Context (cap : nat) (Hcap : (2 <= cap)%nat).

Definition gseg (l : limbo) (i : nat) (s : list slot) : Prop :=
  seg (l_g l i) = s /\ (g_head (l_g l i) <= g_tail (l_g l i) <= cap)%nat.
Record Inv (l : limbo) (pre ids spare : list nat) (c : Z) (ss : list (list slot)) : Prop := {
  i_lnk : lnk (l_g l) (pre ++ ids ++ spare) None;
  i_nodup : NoDup (pre ++ ids ++ spare);
  i_alloc : Forall (fun i => i < l_n l)%nat (pre ++ ids ++ spare);
  i_ne : ids <> [];
  i_head : l_head l = hd 0%nat ids;
  i_tail : l_tail l = last ids 0%nat;
  i_pre : Forall (fun i => g_vacant (l_g l i)) pre;
  i_spare : Forall (fun i => g_vacant (l_g l i)) spare;
  i_seg : Forall2 (gseg l) ids ss;
  i_epoch : last ss [] <> [] -> lastmark c (concat ss) = g_epoch (l_g l (l_tail l));
  i_asc : asc c (concat ss);
  i_now : lastmark c (concat ss) <= l_now l;
  i_c : 0 <= c }.
(* The last group can take a new object: it is not empty, or starts at slot 0. *)
Definition tail_ok (l : limbo) (ss : list (list slot)) : Prop := last ss [] <> [] \/ g_vacant (l_g l (l_tail l)).
(* Every group but the first starts with an epoch and holds an object. *)
Definition st_ok (ss : list (list slot)) : Prop := Forall starts (tl ss).

Lemma f2_last (l : limbo) ids ss : ids <> [] -> Forall2 (gseg l) ids ss ->
  exists ini t si st, ids = ini ++ [t] /\ ss = si ++ [st] /\ Forall2 (gseg l) ini si /\ gseg l t st.
Proof.
  intros N H. destruct (exists_last N) as (ini & t & ->). apply Forall2_app_inv_l in H. destruct H as (si & st & A & B & ->).
  inversion B as [|? y ? ? C D]; subst. inversion D; subst. exists ini, t, si, y. auto.
Qed.
Lemma last_snoc {A} (l : list A) x d : last (l ++ [x]) d = x.
Proof. apply last_last. Qed.
Lemma concat_snoc {A} (l : list (list A)) x : concat (l ++ [x]) = concat l ++ x.
Proof. rewrite concat_app. cbn. now rewrite app_nil_r. Qed.
Lemma hd_snoc (ini : list nat) t d x : hd d (ini ++ [t] ++ x) = hd d (ini ++ [t]).
Proof. destruct ini; reflexivity. Qed.
Lemma starts_snoc ss s : Forall starts (tl ss) -> starts s -> Forall starts (tl (ss ++ [s])).
Proof. intros A B. destruct ss as [|x ss]; cbn [app tl]; [constructor|]. apply Forall_app. auto. Qed.

(* Changing a group that is in no list, or its contents only. *)
Lemma gseg_ext l l' i s : l_g l i = l_g l' i -> gseg l i s -> gseg l' i s.
Proof. unfold gseg. now intros ->. Qed.
Lemma f2_ext l l' ids ss : (forall i, In i ids -> l_g l i = l_g l' i) -> Forall2 (gseg l) ids ss -> Forall2 (gseg l') ids ss.
Proof. intros H F. induction F as [|i s ids ss A F IH]; constructor; [apply (gseg_ext l); auto; apply H; now left|]. apply IH. intros j Hj. apply H. now right. Qed.
Lemma vac_ext l l' ids : (forall i, In i ids -> l_g l i = l_g l' i) -> Forall (fun i => g_vacant (l_g l i)) ids -> Forall (fun i => g_vacant (l_g l' i)) ids.
Proof. intros H F. rewrite Forall_forall in *. intros i Hi. rewrite <- H; auto. Qed.

(* Time passes, events are observed. *)
Lemma inv_ticks n l pre ids spare c ss : Inv l pre ids spare c ss -> Inv (ticks n l) pre ids spare c ss.
Proof. intros [A B C D E F G H I K L M N]. constructor; auto; cbn [ticks l_now l_g l_tail]; auto. lia. Qed.
Lemma inv_event e l pre ids spare c ss : Inv l pre ids spare c ss -> Inv (add_event l e) pre ids spare c ss.
Proof. intros [A B C D E F G H I K L M N]. constructor; auto. Qed.

(* push_back on the last group. *)
Lemma nodup_split {A} (a b c d : list A) x : NoDup (a ++ (b ++ [x]) ++ c) -> ~ In x a /\ ~ In x b /\ ~ In x c.
Proof.
  intros N. replace (a ++ (b ++ [x]) ++ c) with ((a ++ b) ++ x :: c) in N by (rewrite <- !app_assoc; reflexivity).
  apply NoDup_remove_2 in N. rewrite !in_app_iff in N. tauto.
Qed.
Lemma push_ok l pre ids spare c ss p t : Inv l pre ids spare c ss -> (st_ok ss \/ exists ss0, ss = ss0 ++ [[]] /\ st_ok ss0) -> tail_ok l ss -> (g_tail (l_g l (l_tail l)) + 2 <= cap)%nat ->
  exists l' ss', push_back cap l (l_tail l) p t (l_now l) = Some l' /\ Inv l' pre ids spare c ss' /\
    (exists m, (m = [] \/ m = [SMark (l_now l)]) /\ concat ss' = concat ss ++ m ++ [SPtr p t] /\ hd [] ss' = hd [] ss ++ (match tl ids with [] => m ++ [SPtr p t] | _ => [] end)) /\
    items c (concat ss') = items c (concat ss) ++ [(p, t, l_now l)] /\ last ss' [] <> [] /\ st_ok ss' /\
    l_trace l' = l_trace l /\ l_now l' = l_now l /\ l_perform l' = l_perform l /\ l_head l' = l_head l /\
    g_head (l_g l' (l_head l)) = g_head (l_g l (l_head l)).
Proof.
  intros [A B C D E F G H I K L M N] J T Hc.
  destruct (f2_last _ _ _ D I) as (ini & tt & si & st & -> & -> & I1 & I2). rewrite last_snoc in F. rewrite F in *.
  unfold tail_ok in T. rewrite last_snoc in K, T. rewrite F in T.
  destruct (nodup_split _ _ _ [] _ B) as (N1 & N2 & N3). destruct I2 as [I2 I3].
  unfold push_back. replace (g_tail (l_g l tt) + 2 <=? cap)%nat with true by (symmetry; apply Nat.leb_le; lia).
  set (g := l_g l tt) in *. set (b := Nat.eqb (g_head g) (g_tail g) || negb (g_epoch g =? l_now l)).
  set (m := if b then [SMark (l_now l)] else []).
  set (g1 := if b then MkGroup (g_head g) (S (g_tail g)) (l_now l) (g_next g) (upd (g_e g) (g_tail g) (SMark (l_now l))) else g).
  set (g2 := MkGroup (g_head g1) (S (g_tail g1)) (g_epoch g1) (g_next g1) (upd (g_e g1) (g_tail g1) (SPtr p t))).
  assert (S2 : seg g2 = st ++ m ++ [SPtr p t] /\ (g_head g2 <= g_tail g2 <= cap)%nat /\ g_next g2 = g_next g /\ g_head g2 = g_head g /\ g_epoch g2 = l_now l).
  { unfold g2, g1, m. destruct b eqn:Eb; cbn [g_head g_tail g_epoch g_next g_e].
    - split; [|split; [lia|auto]]. rewrite seg_push by lia. replace (S (g_tail g) - g_head g)%nat with (g_tail g - g_head g + 1)%nat by lia.
      pose proof (seg_push (g_head g) (g_tail g) 0 None (g_e g) (SMark (l_now l)) ltac:(lia)) as P. unfold seg in P. cbn [g_head g_tail g_e] in P.
      replace (S (g_tail g) - g_head g)%nat with (g_tail g - g_head g + 1)%nat in P by lia. rewrite P. rewrite <- I2. unfold seg. now rewrite <- app_assoc.
    - apply orb_false_iff in Eb. destruct Eb as [_ Eb]. apply negb_false_iff, Z.eqb_eq in Eb.
      split; [|split; [lia|auto]]. rewrite seg_push by lia. rewrite <- I2. reflexivity. }
  destruct S2 as (S2 & S3 & S4 & S5 & S6).
  set (l' := set_g l tt g2). exists l', (si ++ [st ++ m ++ [SPtr p t]]). split; [reflexivity|].
  assert (Gn : forall i, i <> tt -> l_g l i = l_g l' i). { intros i Hi. unfold l', set_g. cbn [l_g]. destruct (Nat.eqb_spec i tt); [easy|reflexivity]. }
  assert (Gt : l_g l' tt = g2). { unfold l', set_g. cbn [l_g]. now rewrite Nat.eqb_refl. }
  assert (LM : lastmark c (concat (si ++ [st]) ++ m ++ [SPtr p t]) = l_now l).
  { rewrite lastmark_app. unfold m. destruct b eqn:Eb; cbn [app lastmark]; [reflexivity|]. apply orb_false_iff in Eb. destruct Eb as [Eb1 Eb2]. apply negb_false_iff, Z.eqb_eq in Eb2.
    rewrite <- Eb2. apply K. intros E0. rewrite <- I2 in E0. apply seg_nil in E0; [|lia]. apply Nat.eqb_neq in Eb1. lia. }
  assert (CC : concat (si ++ [st ++ m ++ [SPtr p t]]) = concat (si ++ [st]) ++ m ++ [SPtr p t]) by (rewrite !concat_snoc, app_assoc; reflexivity).
  split; [|split; [|split; [|split; [|repeat split; auto]]]].
  - constructor; auto.
    + eapply lnk_ext; [|exact A]. intros i Hi. destruct (Nat.eq_dec i tt) as [->|Hi']; [rewrite Gt; auto|rewrite Gn; auto].
    + unfold l'. cbn [l_tail set_g]. now rewrite last_snoc.
    + apply (vac_ext l); auto. intros i Hi. apply Gn. intros ->. auto.
    + apply (vac_ext l); auto. intros i Hi. apply Gn. intros ->. auto.
    + apply Forall2_app. { apply (f2_ext l); auto. intros i Hi. apply Gn. intros ->. auto. } constructor; [|constructor]. split; rewrite Gt; auto.
    + intros _. rewrite CC, LM. unfold l'. cbn [l_tail set_g]. rewrite F. fold l'. now rewrite Gt.
    + rewrite CC, asc_app. split; auto. unfold m. destruct b; cbn [app asc]; auto.
    + rewrite CC, LM. cbn. lia.
  - exists m. split; [unfold m; destruct b; auto|]. split; auto. destruct ini as [|x ini]; inversion I1; cbn [app tl hd]; [reflexivity|]. destruct (ini ++ [tt]) eqn:E2; [destruct ini; discriminate|]. now rewrite app_nil_r.
  - rewrite CC, !items_app. f_equal. unfold m in *. destruct b eqn:Eb; cbn [app items lastmark]; [reflexivity|].
    rewrite lastmark_app in LM. cbn [app lastmark] in LM. now rewrite LM.
  - rewrite last_snoc. destruct st; [|discriminate]. destruct m; discriminate.
  - unfold st_ok in *. destruct J as [J|(ss0 & E0 & J)].
    + destruct si as [|s0 si]; cbn [app tl] in *; [constructor|]. apply Forall_app in J. destruct J as [J1 J2]. apply Forall_app. split; auto. constructor; [|constructor].
      inversion J2 as [|? ? (e0 & p0 & t0 & r0 & Es) _]. subst st. rewrite Es. now exists e0, p0, t0, (r0 ++ m ++ [SPtr p t]).
    + apply app_inj_tail in E0. destruct E0 as [<- E0]. apply starts_snoc; auto. rewrite E0. cbn [app]. rewrite <- I2 in E0. apply seg_nil in E0; [|lia].
      unfold m, b. rewrite E0, Nat.eqb_refl. cbn [orb app]. now exists (l_now l), p, t, [].
  - destruct (Nat.eq_dec (l_head l) tt) as [->|Hi]; [rewrite Gt; auto|now rewrite <- Gn].
Qed.

(* refill_rcu. *)
Lemma refill_ok l pre ids spare c ss : Inv l pre ids spare c ss -> exists l' spare' j, refill_rcu l = Some l' /\ Inv l' pre (ids ++ [j]) spare' c (ss ++ [[]]) /\
  g_vacant (l_g l' (l_tail l')) /\ l_trace l' = l_trace l /\ l_now l' = l_now l /\ l_perform l' = l_perform l /\ l_head l' = l_head l /\
  g_head (l_g l' (l_head l)) = g_head (l_g l (l_head l)).
Proof.
  intros [A B C D E F G H I K L M N].
  destruct (exists_last D) as (ini & tt & ED). pose proof F as F'. rewrite ED, last_snoc in F'.
  assert (GN : g_next (l_g l tt) = hd_or spare None).
  { rewrite ED in A. rewrite !lnk_app in A. destruct A as (_ & (_ & A1 & _) & _). exact A1. }
  unfold refill_rcu. rewrite F', GN. destruct spare as [|j spare]; cbn [hd_or].
  - set (n := l_n l). set (l0 := MkLimbo (l_g l) (S (l_n l)) (l_head l) tt (l_perform l) (l_now l) (l_trace l)).
    set (l1 := set_g (set_g l0 n g_empty) tt (g_with_next (l_g l tt) (Some n))).
    rewrite app_nil_r in *. assert (NI : ~ In n (pre ++ ids)). { intros X. rewrite Forall_forall in C. specialize (C _ X). unfold n in C. lia. }
    assert (TI : In tt (pre ++ ids)). { rewrite ED. rewrite !in_app_iff. cbn. tauto. }
    assert (NT : n <> tt) by (intros ->; auto).
    assert (Gn : l_g l1 n = g_empty). { unfold l1, set_g. cbn [l_g]. destruct (Nat.eqb_spec n tt); [easy|]. now rewrite Nat.eqb_refl. }
    assert (Gt : l_g l1 tt = g_with_next (l_g l tt) (Some n)). { unfold l1, set_g. cbn [l_g]. now rewrite Nat.eqb_refl. }
    assert (Go : forall i, In i (pre ++ ids) -> i <> tt -> l_g l i = l_g l1 i).
    { intros i Hi Ht. unfold l1, set_g. cbn [l_g]. destruct (Nat.eqb_spec i tt); [easy|]. destruct (Nat.eqb_spec i n); [subst; easy|reflexivity]. }
    change (l_n l) with n. change (set_g (set_g (MkLimbo (l_g l) (S n) (l_head l) tt (l_perform l) (l_now l) (l_trace l)) n g_empty) tt (g_with_next (l_g l tt) (Some n))) with l1. cbv beta iota. rewrite Gn. cbn [g_empty g_head g_tail Nat.eqb andb]. exists (set_tail l1 n), [], n. split; [reflexivity|].
    assert (NP : ~ In tt pre). { rewrite ED in B. replace (pre ++ ini ++ [tt]) with ((pre ++ ini) ++ tt :: []) in B by (rewrite <- app_assoc; reflexivity). apply NoDup_remove_2 in B. rewrite !in_app_iff in B. tauto. }
    assert (NIN : ~ In tt ini). { rewrite ED in B. replace (pre ++ ini ++ [tt]) with ((pre ++ ini) ++ tt :: []) in B by (rewrite <- app_assoc; reflexivity). apply NoDup_remove_2 in B. rewrite !in_app_iff in B. tauto. }
    split; [|split; [|repeat split; auto]].
    + constructor; cbn [set_tail l_g l_n l_head l_tail l_now]; rewrite ?app_nil_r.
      * rewrite ED in A |- *. rewrite app_assoc, app_assoc. rewrite lnk_app. split; [|cbn [lnk hd_or]; rewrite Gn; cbn; auto].
        rewrite app_assoc, lnk_app in A. destruct A as [A1 A2]. rewrite lnk_app. split; [|cbn [lnk hd_or]; rewrite Gt; cbn; auto].
        eapply lnk_ext; [|exact A1]. intros i Hi. f_equal. apply Go; [rewrite ED, app_assoc; apply in_or_app; auto|]. intros ->. apply in_app_iff in Hi. tauto.
      * rewrite app_assoc. apply NoDup_app_snoc; auto.
      * rewrite app_assoc. apply Forall_app. split; [|repeat constructor; unfold l1, set_g, l0, n; cbn [l_n]; lia]. eapply Forall_impl; [|exact C]. intros i Hi. cbn beta in *. unfold l1, set_g, l0. cbn [l_n]. lia.
      * destruct ids; discriminate.
      * unfold l1, set_g, l0. cbn [l_head]. rewrite E. destruct ids; [easy|reflexivity].
      * now rewrite last_snoc.
      * apply (vac_ext l); auto. intros i Hi. apply Go; [apply in_or_app; auto|]. intros ->. auto.
      * constructor.
      * apply Forall2_app; [|constructor; [split; cbn [set_tail l_g]; rewrite ?Gn; cbn; [reflexivity|lia]|constructor]].
        rewrite ED in I |- *. apply Forall2_app_inv_l in I. destruct I as (s1 & s2 & I1 & I2 & ->). apply Forall2_app.
        -- apply (f2_ext l); auto. intros i Hi. apply Go; [rewrite ED, !in_app_iff; auto|]. intros ->. auto.
        -- inversion I2 as [|? y ? ? X Y]; subst. inversion Y; subst. constructor; [|constructor]. destruct X as [X1 X2]. split; cbn [set_tail l_g]; rewrite Gt; auto.
      * rewrite last_snoc. easy.
      * now rewrite concat_snoc, app_nil_r.
      * now rewrite concat_snoc, app_nil_r.
      * auto.
    + cbn [set_tail l_g l_tail]. rewrite Gn. split; reflexivity.
    + cbn [set_tail l_g]. assert (HI : In (l_head l) (pre ++ ids)). { rewrite E. destruct ids; [easy|]. rewrite in_app_iff. cbn. tauto. }
      destruct (Nat.eq_dec (l_head l) tt) as [->|X]; [rewrite Gt; auto|now rewrite <- Go].
  - assert (V : g_vacant (l_g l j)) by (inversion H; auto). destruct V as [V1 V2]. rewrite V1, V2. cbn [Nat.eqb andb].
    exists (set_tail l j), spare, j. split; [reflexivity|]. split; [|repeat split; auto].
    constructor; cbn [set_tail l_g l_n l_head l_tail l_now]; rewrite <- ?app_assoc; cbn [app]; auto.
    + destruct ids; discriminate.
    + rewrite E. destruct ids; [easy|reflexivity].
    + rewrite last_snoc. reflexivity.
    + inversion H; auto.
    + apply Forall2_app; [exact I|]. constructor; [|constructor]. split; cbn [set_tail l_g]; rewrite ?V1, ?V2; [unfold seg; rewrite V1, V2; reflexivity|lia].
    + rewrite last_snoc. easy.
    + now rewrite concat_snoc, app_nil_r.
    + now rewrite concat_snoc, app_nil_r.
Qed.

(* record_rcu. *)
Record grown (l l' : limbo) (ss ss' : list (list slot)) : Prop := {
  g_first : exists x, hd [] ss' = hd [] ss ++ x;
  g_rest : exists y, concat ss' = concat ss ++ y;
  g_hd : l_head l' = l_head l;
  g_hhd : g_head (l_g l' (l_head l)) = g_head (l_g l (l_head l));
  g_perf : l_perform l' = l_perform l }.
Lemma grown_refl l ss : grown l l ss ss.
Proof. constructor; auto; exists []; now rewrite app_nil_r. Qed.
Lemma grown_trans l1 l2 l3 s1 s2 s3 : grown l1 l2 s1 s2 -> grown l2 l3 s2 s3 -> grown l1 l3 s1 s3.
Proof.
  intros [(x & A) (y & B) C D E] [(x' & A') (y' & B') C' D' E']. constructor; try congruence.
  - exists (x ++ x'). now rewrite A', A, app_assoc.
  - exists (y ++ y'). now rewrite B', B, app_assoc.
Qed.
Lemma record_ok l pre ids spare c ss p t : Inv l pre ids spare c ss -> st_ok ss -> tail_ok l ss ->
  exists l' ids' spare' ss', record_rcu cap l p t = Some l' /\ Inv l' pre ids' spare' c ss' /\ st_ok ss' /\ last ss' [] <> [] /\ grown l l' ss ss' /\
    items c (concat ss') = items c (concat ss) ++ [(p, t, l_now l)] /\ l_trace l' = l_trace l ++ [EHand p t (l_now l)] /\ l_now l' = l_now l.
Proof.
  intros I S T. unfold record_rcu. destruct (Nat.ltb_spec cap (g_tail (l_g l (l_tail l)) + 2)) as [Q|Q].
  - destruct (refill_ok _ _ _ _ _ _ I) as (l1 & spare' & j & -> & I1 & V & T1 & N1 & P1 & H1 & G1).
    pose proof (inv_event (EHand p t (l_now l1)) _ _ _ _ _ _ I1) as I2. set (l2 := add_event l1 (EHand p t (l_now l1))) in *.
    destruct (push_ok l2 _ _ _ _ _ p t I2) as (l' & ss' & E & I3 & (m & _ & C1 & C2) & C3 & C4 & C5 & C6 & C7 & C8 & C9 & C10).
    { right. exists ss. auto. } { now right. } { change (l_tail l2) with (l_tail l1). change (l_g l2) with (l_g l1). destruct V as [_ ->]. lia. }
    exists l', (ids ++ [j]), spare', ss'. split; [exact E|]. split; auto. split; auto. split; auto. split; [|split; [|split]].
    + constructor.
      * rewrite C2. assert (X : ss <> []). { intros ->. destruct I. inversion i_seg0; subst. easy. } destruct ss; [easy|]. cbn [hd app]. eexists. reflexivity.
      * rewrite C1, concat_snoc, app_nil_r. eexists. reflexivity.
      * rewrite C9. exact H1.
      * change (l_head l2) with (l_head l1) in C10. rewrite H1 in C10. rewrite C10. exact G1.
      * rewrite C8. exact P1.
    + rewrite C3, concat_snoc, app_nil_r. do 2 f_equal. change (l_now l2) with (l_now l1). now rewrite N1.
    + rewrite C6. unfold l2. cbn [add_event l_trace]. now rewrite T1, N1.
    + rewrite C7. exact N1.
  - pose proof (inv_event (EHand p t (l_now l)) _ _ _ _ _ _ I) as I2. set (l2 := add_event l (EHand p t (l_now l))) in *.
    destruct (push_ok l2 _ _ _ _ _ p t I2) as (l' & ss' & E & I3 & (m & _ & C1 & C2) & C3 & C4 & C5 & C6 & C7 & C8 & C9 & C10); auto.
    exists l', ids, spare, ss'. split; [exact E|]. split; auto. split; auto. split; auto. split; [|split; [|split]]; auto.
    constructor; auto; eexists; eauto.
Qed.
End Limbo.
