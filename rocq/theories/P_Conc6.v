(* Concurrent layer: a new internode above a node and its new right neighbour. *)
From Verif Require Import Lib M_Tree M_Stampc P_Stampc1 M_Conc P_Conc1 P_Conc2 P_Conc3 P_Conc4 P_Conc5.
From Coq Require Import Sorting.Sorted.

(* The list of leaves when only the tree above changes. *)
Section Leaves.
  Variables (s : cst) (g : gst) (s' : cst) (g' : gst).
  Hypothesis Ef : (fr s <= fr s')%nat.
  Hypothesis Ei : forall a, (a < fr s)%nat -> isl (nd s' a) = isl (nd s a).
  Hypothesis En : forall a, (fr s <= a < fr s')%nat -> isl (nd s' a) = false.
  Hypothesis El : forall a, (a < fr s)%nat -> isl (nd s a) = true -> ver (nd s' a) = ver (nd s a) /\ lo (nd s' a) = lo (nd s a) /\
    rws (nd s' a) = rws (nd s a) /\ zk (nd s' a) = zk (nd s a) /\ nxt (nd s' a) = nxt (nd s a) /\ prv (nd s' a) = prv (nd s a).
  Hypothesis Eg : forall a, (a < fr s)%nat -> isl (nd s a) = true -> ll g' a = ll g a /\ hh g' a = hh g a /\ l0 g' a = l0 g a /\ sp g' a = sp g a.
  Hypothesis Eu : us g' = us g.
  Hypothesis Eul : ul g' = ul g.
  Hypothesis Ez : ze g' = ze g.
  Hypothesis Vz : forall a, ze g a = true -> v_spl (ver (nd s' a)) = true.
  Lemma lv_linked a : linked s' g' a <-> linked s g a.
  Proof.
    unfold linked. rewrite Eul. split; intros (A & B & C).
    - assert (H : (a < fr s)%nat). { destruct (Nat.lt_ge_cases a (fr s)) as [H|H]; [exact H|]. rewrite En in B by lia. discriminate. }
      rewrite Ei in B by exact H. auto.
    - rewrite Ei by exact A. split; [lia|auto].
  Qed.
  Lemma lv_lo a : linked s g a -> lo (nd s' a) = lo (nd s a).
  Proof. intros (A & B & _). now apply El. Qed.
  Lemma lv_bd x : bd s g x -> bd s' g' x.
  Proof. apply bd_same. intros a Ha. rewrite lv_linked. split; [exact Ha|now apply lv_lo]. Qed.
  Lemma lv_rh a : GL s g -> (a < fr s)%nat -> isl (nd s a) = true -> rh g' a = rh g a.
  Proof.
    intros H A B. unfold rh. rewrite Eu. destruct (us g a) as [d|] eqn:E; [|now apply Eg]. destruct (gl_us _ _ H _ _ E) as (_ & (C & D & _) & _). now apply Eg.
  Qed.
  Lemma GL_tree : GL s g -> GL s' g'.
  Proof.
    intros H0. pose proof H0 as [H1 H2 H3 H4 H5 H6]. constructor.
    - intros n c. rewrite Eu. intros E. destruct (H1 n c E) as (A & B & C & D & F & Q).
      destruct (El n (proj1 A) (proj1 (proj2 A))) as (V1 & _ & V2 & _). destruct (El c (proj1 B) (proj1 (proj2 B))) as (_ & _ & V3 & _).
      destruct (Eg n (proj1 A) (proj1 (proj2 A))) as (_ & U1 & _). destruct (Eg c (proj1 B) (proj1 (proj2 B))) as (U2 & _).
      rewrite !lv_linked, V1, V2, V3, U1, U2. auto 10.
    - intros a A B. assert (Ha : (a < fr s)%nat). { destruct (Nat.lt_ge_cases a (fr s)) as [H|H]; [exact H|]. rewrite En in B by lia. discriminate. }
      rewrite Ei in B by exact Ha. destruct (El a Ha B) as (V1 & V2 & V3 & V4 & V5 & V6). destruct (Eg a Ha B) as (U1 & U2 & U3 & U4). rewrite V1, V2, V3, V5, U3, U4, Eul.
      destruct (H2 a Ha B) as (C1 & C2 & C3 & C4 & C5 & C6). do 5 (split; [assumption|]). intros b Hb. destruct (C6 b Hb). rewrite Ei by assumption. split; [lia|assumption].
    - intros a A. apply lv_linked in A. destruct (El a (proj1 A) (proj1 (proj2 A))) as (V1 & V2 & V3 & V4 & V5 & V6). destruct (Eg a (proj1 A) (proj1 (proj2 A))) as (U1 & U2 & U3 & U4).
      rewrite V2, V5, V6, U1, U2. destruct (H3 a A) as (C1 & C2 & C3 & C4 & C5 & C6). split; [exact C1|]. split; [exact C2|]. split; [|split; [|split; [|exact C6]]].
      + rewrite C3. unfold nlo. destruct (nxt (nd s a)) as [b|]; [|reflexivity]. symmetry. now apply lv_lo, C4.
      + intros b Hb. rewrite lv_linked. destruct (C4 b Hb) as (Q1 & Q2). split; [exact Q1|]. destruct (El b (proj1 Q1) (proj1 (proj2 Q1))) as (_ & _ & _ & _ & _ & V7). congruence.
      + intros b Hb. rewrite lv_linked. destruct (C5 b Hb) as (Q1 & Q2). split; [exact Q1|]. destruct (El b (proj1 Q1) (proj1 (proj2 Q1))) as (_ & _ & _ & _ & V7 & _). congruence.
    - intros a A B. assert (Ha : (a < fr s)%nat). { destruct (Nat.lt_ge_cases a (fr s)) as [H|H]; [exact H|]. rewrite En in B by lia. discriminate. }
      rewrite Ei in B by exact Ha. destruct (El a Ha B) as (V1 & V2 & V3 & V4 & V5 & V6). rewrite V2, V3, V4, Ez, (lv_rh a H0 Ha B). now apply H4.
    - intros a. rewrite Ez. apply Vz.
    - intros a b A B. apply lv_linked in A. apply lv_linked in B. rewrite !lv_lo by assumption.
      destruct (Eg a (proj1 A) (proj1 (proj2 A))) as (_ & U1 & _). destruct (Eg b (proj1 B) (proj1 (proj2 B))) as (_ & U2 & _). rewrite U1, U2. now apply H6.
  Qed.
End Leaves.

Lemma set_at_split {A} i (x : A) l : set_at i x l = firstn i l ++ x :: skipn (S i) l. Proof. reflexivity. Qed.
Lemma F2_set_r {A B} (R : A -> B -> Prop) l m i y : Forall2 R l m -> (forall x, In x l -> nth_error l i = Some x -> R x y) -> (i < length m)%nat ->
  Forall2 R l (set_at i y m).
Proof.
  intros H. revert i. induction H as [|a b l m Rab H IH]; intros i Hx Hi; [cbn in Hi; lia|]. destruct i as [|i].
  - constructor; [apply Hx; [now left|reflexivity]|exact H].
  - constructor; [exact Rab|]. apply (IH i); [|cbn in Hi; lia]. intros x H1 H2. apply Hx; [now right|exact H2].
Qed.
Lemma F2_at {A B} (R : A -> B -> Prop) l m i x e : Forall2 R l m -> nth_error l i = Some x -> R x (nth i m e).
Proof. intros H. revert i. induction H; intros [|i]; cbn; try discriminate; [congruence|]. auto. Qed.

Definition g_up (g : gst) (nn n c : nat) : gst :=
  MkG (setf (l0 g) nn (l0 g n)) (setf (ll g) nn (ll g n)) (setf (hh g) nn (hh g c)) (setf (sp g) nn (sp g n)) (setf (pd g) n None) (us g) (rp g) (ul g) (ze g).

Section Up.
  Variables (s : cst) (g : gst) (t n c : nat) (sk : Z) (po : option nat) (kp : nat) (s' : cst) (vp : cver).
  Hypothesis G : GI s g.
  Let nn := fr s.
  Definition is_po (x : nat) : bool := match po with Some p => (x =? p)%nat | None => false end.
  Hypothesis Hpd : pd g n = Some c.
  Hypothesis Hinj : forall m, pd g m = Some c -> m = n.
  Hypothesis Hpar : par (nd s n) = po.
  Hypothesis Hat : forall p, po = Some p -> nth kp (kids (nd s p)) None = Some n /\ p <> n /\ p <> c /\ v_lk (ver (nd s p)) = true.
  Hypothesis HS : SK g c sk.
  Hypothesis Ef : fr s' = S nn.
  Hypothesis Er : rootp s' = rootp s.
  Hypothesis Ei : forall x, isl (nd s' x) = if (x =? nn)%nat then false else isl (nd s x).
  Hypothesis Ev : forall x, ver (nd s' x) = if (x =? nn)%nat then v_new (is_none po) else if is_po x then v_mins (ver (nd s x)) else ver (nd s x).
  Hypothesis Epar : forall x, par (nd s' x) = if (x =? n)%nat || (x =? c)%nat then Some nn else if (x =? nn)%nat then po else par (nd s x).
  Hypothesis Ekeys : forall x, keys (nd s' x) = if (x =? nn)%nat then [sk] else keys (nd s x).
  Hypothesis Ekids : forall x, kids (nd s' x) = if (x =? nn)%nat then [Some n; Some c] else if is_po x then set_at kp (Some nn) (kids (nd s x)) else kids (nd s x).
  Hypothesis El : forall x, x <> nn -> lo (nd s' x) = lo (nd s x) /\ rws (nd s' x) = rws (nd s x) /\ zk (nd s' x) = zk (nd s x) /\ nxt (nd s' x) = nxt (nd s x) /\ prv (nd s' x) = prv (nd s x).
  Hypothesis Hze : forall a, ze g a = true -> (a < fr s)%nat.
  Let g' := g_up g nn n c.
  Let GA := gi_t _ _ G.
  Let GB := gi_l _ _ G.
  Let GC := gi_v _ _ G.

  Lemma up_n : (n < fr s)%nat /\ (c < fr s)%nat /\ hh g n = ll g c /\ pd g c = None /\ par (nd s c) = None /\ 0 < l0 g c /\ n <> c.
  Proof. destruct (gt_pd _ _ GA _ _ Hpd) as (A & B & C & D & E & F & _). repeat split; auto. intros ->. congruence. Qed.
  Lemma up_old x : (x < fr s)%nat -> x <> nn. Proof using. intros H. exact (Nat.lt_neq _ _ H). Qed.
  Lemma up_l0 x : l0 g' x = if (x =? nn)%nat then l0 g n else l0 g x. Proof. reflexivity. Qed.
  Lemma up_ll x : ll g' x = if (x =? nn)%nat then ll g n else ll g x. Proof. reflexivity. Qed.
  Lemma up_hh x : hh g' x = if (x =? nn)%nat then hh g c else hh g x. Proof. reflexivity. Qed.
  Lemma up_sp x : sp g' x = if (x =? nn)%nat then sp g n else sp g x. Proof. reflexivity. Qed.
  Lemma up_pd x : pd g' x = if (x =? n)%nat then None else pd g x. Proof. reflexivity. Qed.
  Lemma up_pdnn : pd g nn = None.
  Proof using G GA. destruct (pd g nn) as [d|] eqn:E; [|reflexivity]. destruct (gt_pd _ _ GA _ _ E) as (A & _). destruct (Nat.lt_irrefl _ A). Qed.
  Lemma up_rpnn : rp g nn = None.
  Proof using G GA. destruct (rp g nn) as [d|] eqn:E; [|reflexivity]. destruct (gt_rp _ _ GA _ _ E) as (A & _). destruct (Nat.lt_irrefl _ A). Qed.
  Lemma up_usnn : us g nn = None.
  Proof using G GB. destruct (us g nn) as [d|] eqn:E; [|reflexivity]. destruct (gl_us _ _ GB _ _ E) as ((A & _) & _). destruct (Nat.lt_irrefl _ A). Qed.
  Ltac old H := pose proof (up_old _ H) as ?Ho.
  Lemma up_ehi x : (x < fr s)%nat -> ehi g' x = if (x =? n)%nat then hh g n else ehi g x.
  Proof.
    intros Hx. unfold ehi. rewrite up_pd. destruct (Nat.eqb_spec x n) as [->|N].
    - rewrite up_hh. destruct (Nat.eqb_spec n nn) as [E|_]; [unfold nn in E; lia|reflexivity].
    - destruct (pd g x) as [d|] eqn:E; rewrite up_hh.
      + destruct (gt_pd _ _ GA _ _ E) as (_ & A & _). destruct (Nat.eqb_spec d nn) as [Q|_]; [unfold nn in Q; lia|reflexivity].
      + destruct (Nat.eqb_spec x nn) as [Q|_]; [unfold nn in Q; lia|reflexivity].
  Qed.
  Lemma up_aft k x : (x < fr s)%nat -> aft g' k x <-> aft g k x.
  Proof using. intros Hx. unfold aft. rewrite up_ll, up_sp. destruct (Nat.eqb_spec x nn) as [Q|_]; [destruct (up_old _ Hx Q)|split; exact (fun H => H)]. Qed.
  Lemma up_kok k x : (x < fr s)%nat -> kok g' k (Some x) <-> kok g k (Some x).
  Proof using.
    intros Hx. unfold kok. split; intros (d & E & A & B); injection E as <-; exists x; split; auto; rewrite up_l0 in *; rewrite up_aft in * by exact Hx;
      destruct (Nat.eqb_spec x nn) as [Q|_]; try (destruct (up_old _ Hx Q)); auto.
  Qed.
  (* The children of the nodes there before. *)
  Lemma up_kid q x : (q < fr s)%nat -> isl (nd s q) = false -> In (Some x) (kids (nd s' q)) -> (x = nn /\ po = Some q) \/ (In (Some x) (kids (nd s q)) /\ x <> n /\ x <> c /\ (x < fr s)%nat).
  Proof.
    intros Hq Hi. rewrite Ekids. destruct (Nat.eqb_spec q nn) as [Q|_]; [unfold nn in Q; lia|].
    assert (Nc : In (Some x) (kids (nd s q)) -> x <> c /\ (x < fr s)%nat /\ par (nd s x) = Some q).
    { intros H. destruct (gt_kid _ _ GA q x Hq Hi H) as (A & B). destruct up_n as (_ & _ & _ & _ & C & _). split; [congruence|auto]. }
    unfold is_po. destruct po as [p|] eqn:Epo.
    - destruct (Nat.eqb_spec q p) as [->|Np].
      + destruct (Hat p eq_refl) as (H1 & _). unfold set_at. rewrite in_app_iff. cbn [In].
        pose proof (gt_nd _ _ GA p Hq Hi) as ND. rewrite (kid_split _ _ _ H1), ks_app in ND. cbn [ks flat_map o2l app] in ND. apply nodup_mid in ND. destruct ND as (D1 & D2 & _).
        intros [H|[H|H]].
        * right. assert (In (Some x) (kids (nd s p))) by exact (in_firstn _ _ _ H). split; [assumption|]. split; [|split; now apply Nc]. intros ->. apply D1. now apply in_ks.
        * left. split; congruence.
        * right. assert (In (Some x) (kids (nd s p))) by exact (in_skipn _ _ _ H). split; [assumption|]. split; [|split; now apply Nc]. intros ->. apply D2. now apply in_ks.
      + intros H. right. split; [exact H|]. split; [|split; now apply Nc]. destruct (Nc H) as (_ & _ & K). congruence.
    - intros H. right. split; [exact H|]. split; [|split; now apply Nc]. destruct (Nc H) as (_ & _ & K). congruence.
  Qed.
  Lemma up_lkids l : (forall x, In (Some x) l -> x <> n) -> lkids g' l = lkids g l.
  Proof using. intros H. apply lkids_ext. intros x Hx. rewrite up_pd. destruct (Nat.eqb_spec x n) as [->|_]; [destruct (H n Hx eq_refl)|reflexivity]. Qed.
  Lemma up_ch a l b : (forall x, In x l -> (x < fr s)%nat) -> chain g a l b -> chain g' a l b.
  Proof using.
    intros H. apply chain_ext. intros x Hx. specialize (H x Hx). rewrite up_ll, up_hh. destruct (Nat.eqb_spec x nn) as [Q|_]; [destruct (up_old _ H Q)|auto].
  Qed.
  Lemma up_lfr q l : (forall o, In o l -> In o (kids (nd s q))) -> (q < fr s)%nat -> isl (nd s q) = false -> forall x, In x (lkids g l) -> (x < fr s)%nat.
  Proof using G GA.
    intros Hl Hq Hi x Hx. destruct (in_lkids _ _ _ Hx) as (d & A & [->|B]); [exact (proj1 (gt_kid _ _ GA _ _ Hq Hi (Hl _ A)))|]. now destruct (gt_pd _ _ GA _ _ B) as (_ & K & _).
  Qed.

  Lemma up_GT : GT s' g'.
  Proof.
    pose proof up_n as (Hn & Hc & Hhc & Hpc & Hparc & Hl0c & Nnc). pose proof GA as [H1 H2 H3 H4 H5 H6 H7 H8 H9 H10 H11].
    assert (Nn : n <> nn) by now apply up_old. assert (Ncn : c <> nn) by now apply up_old.
    assert (E0 : forall x, (x < fr s)%nat -> (x =? nn)%nat = false) by (intros x Hx; apply Nat.eqb_neq; now apply up_old).
    assert (Lt : forall x, (x < S nn)%nat -> x = nn \/ (x < fr s)%nat) by (unfold nn; intros; lia).
    assert (Enn : (nn =? n)%nat || (nn =? c)%nat = false) by (apply orb_false_iff; split; apply Nat.eqb_neq; congruence).
    assert (Hpo : forall p, po = Some p -> (p < fr s)%nat /\ isl (nd s p) = false /\ (l0 g n = 0 -> l0 g p = 0)).
    { intros p E. apply (H1 n p Hn). rewrite Hpar. exact E. }
    constructor.
    - (* par *) intros a p. rewrite Ef, Epar. intros A. destruct ((a =? n)%nat || (a =? c)%nat) eqn:Ea.
      + intros E. injection E as <-. split; [lia|]. split; [rewrite Ei, Nat.eqb_refl; reflexivity|]. rewrite !up_l0, Nat.eqb_refl.
        apply orb_prop in Ea. destruct Ea as [Ea|Ea]; apply Nat.eqb_eq in Ea; subst a; rewrite E0 by assumption; [auto|lia].
      + destruct (Lt a A) as [->|Ha].
        * rewrite Nat.eqb_refl. intros E. destruct (Hpo p E) as (B & C & D). rewrite Ei, !up_l0, Nat.eqb_refl, (E0 p B). split; [unfold nn; lia|auto].
        * rewrite (E0 a Ha). intros E. destruct (H1 a p Ha E) as (B & C & D). rewrite Ei, !up_l0, (E0 p B), (E0 a Ha). split; [unfold nn; lia|auto].
    - (* kid *) intros p x. rewrite Ef. intros A. rewrite Ei. destruct (Lt p A) as [->|Hp].
      + intros _. rewrite Ekids, Nat.eqb_refl, Epar. cbn [In]. intros [E|[E|[]]]; injection E as <-; rewrite Nat.eqb_refl, ?orb_true_r; split; auto; unfold nn; lia.
      + rewrite (E0 p Hp). intros B C. destruct (up_kid p x Hp B C) as [(-> & E)|(D & D1 & D2 & D3)].
        * rewrite Epar, Enn, Nat.eqb_refl. split; [lia|exact E].
        * rewrite Epar. destruct (Nat.eqb_spec x n); [contradiction|]. destruct (Nat.eqb_spec x c); [contradiction|]. cbn [orb]. rewrite (E0 x D3).
          split; [unfold nn; lia|]. now apply H2.
    - (* nodup *) intros p. rewrite Ef, Ei. intros A. destruct (Lt p A) as [->|Hp].
      + intros _. rewrite Ekids, Nat.eqb_refl. cbn. constructor; [intros [E|[]]; congruence|]. constructor; [intros []|constructor].
      + rewrite (E0 p Hp). intros B. rewrite Ekids, (E0 p Hp). pose proof (H3 p Hp B) as ND. unfold is_po. destruct po as [q|] eqn:Epo; [|exact ND].
        destruct (Nat.eqb_spec p q) as [->|Np]; [|exact ND]. destruct (Hat q eq_refl) as (Q1 & _). unfold set_at.
        assert (F : forall l, (forall o, In o l -> In o (kids (nd s q))) -> ~ In nn (ks l)).
        { intros l Hl K. apply in_ks in K. apply Hl in K. destruct (H2 q nn Hp B K) as (K1 & _). unfold nn in K1. lia. }
        rewrite (kid_split _ _ _ Q1), ks_app in ND. rewrite ks_app. cbn [ks flat_map o2l app] in *. apply nodup_mid in ND. destruct ND as (_ & _ & D).
        apply nodup_ins; [exact D| |]; apply F; intros o; [apply in_firstn|apply in_skipn].
    - (* int *) intros p. rewrite Ef, Ei. intros A. destruct (Lt p A) as [->|Hp].
      + intros _. rewrite Ekids, Ekeys, Nat.eqb_refl. exists (Some n), [Some c]. split; [reflexivity|]. split.
        * constructor; [|constructor]. apply up_kok; [exact Hc|]. exists c. destruct HS as (S1 & S2). split; [reflexivity|]. split; [lia|exact S2].
        * intros x E. injection E as <-. rewrite !up_l0, Nat.eqb_refl, (E0 n Hn). lia.
      + rewrite (E0 p Hp). intros B. rewrite Ekids, Ekeys, (E0 p Hp). destruct (H4 p Hp B) as (k0 & tl & C1 & C2 & C3).
        assert (Fk : Forall2 (kok g') (keys (nd s p)) tl).
        { revert C2. apply F2_impl. intros k o Ho (x & -> & Q). assert (Hx : (x < fr s)%nat) by (apply (H2 p x Hp B); rewrite C1; now right).
          apply up_kok; [exact Hx|]. exists x. auto. }
        assert (F0 : forall x, k0 = Some x -> l0 g' x <= l0 g' p).
        { intros x ->. assert (Hx : (x < fr s)%nat) by (apply (H2 p x Hp B); rewrite C1; now left). rewrite !up_l0, (E0 x Hx), (E0 p Hp). now apply C3. }
        unfold is_po. destruct po as [q|] eqn:Epo; [|exists k0, tl; auto].
        destruct (Nat.eqb_spec p q) as [->|Np]; [|exists k0, tl; auto]. destruct (Hat q eq_refl) as (Q1 & _). rewrite C1 in *. destruct kp as [|i].
        * cbn [set_at firstn skipn app nth] in *. exists (Some nn), tl. split; [reflexivity|]. split; [exact Fk|]. intros x E. injection E as <-. subst k0.
          rewrite !up_l0, Nat.eqb_refl, (E0 q Hp). now apply C3.
        * cbn [nth] in Q1. exists k0, (set_at i (Some nn) tl). split; [reflexivity|]. split; [|exact F0]. apply F2_set_r; [exact Fk| |exact (nth_some_lt _ _ _ Q1)].
          intros k Hk Hki. pose proof (F2_at _ _ _ _ _ None C2 Hki) as Kok. rewrite Q1 in Kok. destruct Kok as (x & E & K1 & K2). injection E as <-.
          exists nn. split; [reflexivity|]. unfold aft in *. rewrite up_l0, up_ll, up_sp, Nat.eqb_refl. auto.
    - (* chain *) intros p. rewrite Ef, Ei. intros A. destruct (Lt p A) as [->|Hp].
      + intros _. rewrite Ekids, Nat.eqb_refl. change (rp g' nn) with (rp g nn). rewrite up_rpnn. cbn [subs app lkids flat_map]. rewrite !up_pd, Nat.eqb_refl.
        destruct (Nat.eqb_spec c n); [congruence|]. rewrite Hpc. cbn [o2l app chain]. rewrite !up_ll, !up_hh, Nat.eqb_refl, (E0 n Hn), (E0 c Hc). auto.
      + rewrite (E0 p Hp). intros B. rewrite Ekids, (E0 p Hp). rewrite up_ll, up_hh, (E0 p Hp). change (rp g' p) with (rp g p). pose proof (H5 p Hp B) as C.
        assert (Old : (forall x, In (Some x) (kids (nd s p)) -> x <> n) -> chain g' (ll g p) (subs g' (rp g p) ++ lkids g' (kids (nd s p))) (hh g p)).
        { intros Hno. rewrite (up_lkids _ Hno). destruct (rp g p) as [r|] eqn:Erp.
          - destruct (H7 p r Erp) as (_ & _ & R1 & R2 & R3 & _). assert (Nr : r <> n).
            { intros ->. rewrite Hpar in R3. destruct (Hat p R3) as (Q1 & _). rewrite R1 in Q1. destruct kp as [|[|]]; discriminate. }
            assert (Es : subs g' (Some r) = subs g (Some r)) by (cbn [subs]; rewrite up_pd; destruct (Nat.eqb_spec r n); [contradiction|reflexivity]).
            rewrite Es. apply up_ch; [|exact C]. intros x Hx. apply in_app_or in Hx. destruct Hx as [Hx|Hx]; [|now apply (up_lfr p _ (fun o H => H) Hp B)].
            cbn [subs In] in Hx. destruct Hx as [<-|Hx]; [exact R2|]. destruct (pd g r) as [d|] eqn:Ed; [|destruct Hx]. destruct Hx as [<-|[]]. now destruct (H8 _ _ Ed) as (_ & K & _).
          - apply up_ch; [|exact C]. intros x Hx. cbn [subs app] in Hx. now apply (up_lfr p _ (fun o H => H) Hp B). }
        unfold is_po. destruct po as [q|] eqn:Epo.
        2:{ apply Old. intros x Hx ->. destruct (H2 p n Hp B Hx) as (_ & K). congruence. }
        destruct (Nat.eqb_spec p q) as [->|Np].
        2:{ apply Old. intros x Hx ->. destruct (H2 p n Hp B Hx) as (_ & K). congruence. }
        destruct (Hat q eq_refl) as (Q1 & _). rewrite (rp_some _ _ _ _ GA (kid_in _ _ _ Q1)) in *. cbn [subs app] in C |- *.
        pose proof (H3 q Hp B) as ND. rewrite (kid_split _ _ _ Q1), ks_app in ND. cbn [ks flat_map o2l app] in ND. apply nodup_mid in ND. destruct ND as (D1 & D2 & _).
        rewrite (kid_split _ _ _ Q1), lkids_app in C. unfold set_at. rewrite lkids_app.
        change (lkids ?gg (Some ?a :: ?r)) with (subs gg (Some a) ++ lkids gg r) in *. cbn [subs] in *. rewrite Hpd in C. rewrite up_pd.
        destruct (Nat.eqb_spec nn n); [congruence|]. rewrite up_pdnn. cbn [o2l app] in *.
        rewrite !up_lkids by (intros x Hx ->; first [apply D1; now apply in_ks|apply D2; now apply in_ks]).
        apply chain_app in C. destruct C as (z & C1 & C2). cbn [chain] in C2. destruct C2 as (C2 & C3 & C4). apply chain_app. exists z. split.
        * apply up_ch; [|exact C1]. apply (up_lfr q); auto. intros o. apply in_firstn.
        * cbn [chain]. rewrite up_ll, up_hh, Nat.eqb_refl. split; [exact C2|]. apply up_ch; [|exact C4]. apply (up_lfr q); auto. intros o. apply in_skipn.
    - (* first *) intros p f. rewrite Ef, Ei. intros A. destruct (Lt p A) as [->|Hp].
      + intros _. rewrite Ekids, Nat.eqb_refl. cbn [first_kid]. intros E. injection E as <-. apply up_aft; [exact Hn|]. rewrite up_sp, Nat.eqb_refl. right. lia.
      + rewrite (E0 p Hp). intros B. rewrite up_sp, (E0 p Hp). rewrite Ekids, (E0 p Hp).
        assert (Old : first_kid (kids (nd s p)) = Some f -> aft g' (sp g p) f).
        { intros E. apply up_aft; [exact (proj1 (H2 p f Hp B (first_in _ _ E)))|now apply H6]. }
        unfold is_po. destruct po as [q|] eqn:Epo; [|exact Old]. destruct (Nat.eqb_spec p q) as [->|Np]; [|exact Old].
        destruct (Hat q eq_refl) as (Q1 & _). pose proof (H6 q) as F6. destruct (kids (nd s q)) as [|k0 tl]; [destruct kp; discriminate|].
        assert (New : first_kid (k0 :: tl) = Some n -> aft g' (sp g q) nn).
        { intros E. pose proof (F6 n Hp B E) as Q. unfold aft in *. rewrite up_ll, up_sp, Nat.eqb_refl. exact Q. }
        destruct kp as [|[|i]]; cbn [set_at firstn skipn app nth first_kid] in *.
        * subst k0. intros E. injection E as <-. now apply New.
        * destruct tl as [|k1 tl]; [discriminate|]. cbn [nth] in Q1. subst k1. cbn [set_at firstn skipn app nth first_kid] in *. destruct k0 as [d|]; [exact Old|].
          intros E. injection E as <-. now apply New.
        * destruct k0 as [d|]; [exact Old|]. destruct tl as [|[d|] tl]; cbn [firstn skipn app] in *; [destruct i; discriminate|exact Old|exact Old].
    - (* rp *) intros p r E. change (rp g' p) with (rp g p) in E. destruct (H7 p r E) as (A & B & C & D & F & I1 & I2).
      assert (Nr : r <> n).
      { intros ->. rewrite Hpar in F. destruct (Hat p F) as (Q1 & _). rewrite C in Q1. destruct kp as [|[|]]; discriminate. }
      assert (Nrc : r <> c) by congruence.
      rewrite Ef, Ei, Ekids, Epar, !up_l0, up_sp, !(E0 p A), !(E0 r D). split; [unfold nn; lia|]. split; [exact B|]. split.
      + unfold is_po. destruct po as [q|] eqn:Epo; [|exact C]. destruct (Nat.eqb_spec p q) as [->|Np]; [|exact C]. destruct (Hat q eq_refl) as (Q1 & _). rewrite C in Q1. destruct kp as [|[|]]; discriminate.
      + split; [unfold nn; lia|]. destruct (Nat.eqb_spec r n); [contradiction|]. destruct (Nat.eqb_spec r c); [contradiction|]. cbn [orb]. split; [exact F|].
        split; [exact I1|]. now apply up_aft.
    - (* pd *) intros m d. rewrite up_pd. destruct (Nat.eqb_spec m n) as [->|Nm]; [discriminate|]. intros E. destruct (H8 m d E) as (A & B & C & D & F & I1 & I2).
      assert (Nd : d <> n) by congruence. assert (Ndc : d <> c) by (intros ->; exact (Nm (Hinj m E))).
      rewrite Ef, up_hh, up_ll, up_pd, Epar, up_l0, !Ei, !(E0 m A), !(E0 d B). destruct (Nat.eqb_spec d n); [contradiction|]. destruct (Nat.eqb_spec d c); [contradiction|]. cbn [orb].
      split; [unfold nn; lia|]. split; [unfold nn; lia|]. auto 10.
    - (* root2 *) intros a. rewrite Ef, Epar. intros A. destruct ((a =? n)%nat || (a =? c)%nat) eqn:Ea; [discriminate|]. apply orb_false_iff in Ea. destruct Ea as (Ea1 & Ea2).
      apply Nat.eqb_neq in Ea1. apply Nat.eqb_neq in Ea2. destruct (Lt a A) as [->|Ha].
      + rewrite Nat.eqb_refl. intros E. right. rewrite up_l0, Nat.eqb_refl. unfold ehi. rewrite up_pd. destruct (Nat.eqb_spec nn n); [congruence|]. rewrite up_pdnn, up_hh, Nat.eqb_refl.
        destruct (H9 n Hn ltac:(congruence)) as [(m & Q)|(Q1 & Q2)]; [destruct (H8 _ _ Q) as (_ & _ & _ & Q2 & _); congruence|]. unfold ehi in Q2. rewrite Hpd in Q2. auto.
      + rewrite (E0 a Ha). intros E. rewrite up_l0, (E0 a Ha), (up_ehi a Ha). destruct (Nat.eqb_spec a n); [contradiction|]. destruct (H9 a Ha E) as [(m & Q)|Q]; [|now right].
        left. exists m. rewrite up_pd. destruct (Nat.eqb_spec m n) as [->|_]; [congruence|exact Q].
    - rewrite Ef, Er, up_l0. destruct H10 as (A & B). rewrite (E0 _ A). split; [unfold nn; lia|exact B].
    - (* num *) intros a. rewrite Ef, up_l0, up_ll, up_hh, up_sp. intros A. destruct (Lt a A) as [->|Ha].
      + rewrite Nat.eqb_refl. destruct (H11 n Hn) as (A1 & A2 & A3 & A4). destruct (H11 c Hc) as (B1 & B2 & B3 & B4). lia.
      + rewrite (E0 a Ha). now apply H11.
  Qed.

  Lemma up_po_inter x : is_po x = true -> (x < fr s)%nat /\ isl (nd s x) = false /\ v_lk (ver (nd s x)) = true.
  Proof.
    destruct up_n as (A & _). unfold is_po. destruct po as [p|] eqn:E; [|discriminate]. intros H. apply Nat.eqb_eq in H. subst x.
    destruct (gt_par _ _ GA n p A Hpar) as (B & C & _). destruct (Hat p eq_refl) as (_ & _ & _ & D). auto.
  Qed.
  Lemma up_ei : forall x, (x < fr s)%nat -> isl (nd s' x) = isl (nd s x).
  Proof. intros x H. rewrite Ei. destruct (Nat.eqb_spec x nn) as [Q|_]; [unfold nn in Q; lia|reflexivity]. Qed.
  Lemma up_GL : GL s' g' /\ (forall x, bd s g x -> bd s' g' x).
  Proof.
    assert (P1 : (fr s <= fr s')%nat) by (rewrite Ef; unfold nn; lia).
    assert (P2 : forall a, (fr s <= a < fr s')%nat -> isl (nd s' a) = false) by (intros a H; rewrite Ef in H; rewrite Ei; replace a with nn by (unfold nn in *; lia); now rewrite Nat.eqb_refl).
    assert (P3 : forall a, (a < fr s)%nat -> isl (nd s a) = true -> ver (nd s' a) = ver (nd s a) /\ lo (nd s' a) = lo (nd s a) /\
      rws (nd s' a) = rws (nd s a) /\ zk (nd s' a) = zk (nd s a) /\ nxt (nd s' a) = nxt (nd s a) /\ prv (nd s' a) = prv (nd s a)).
    { intros a A B. pose proof (up_old a A) as N. split; [|now apply El]. rewrite Ev. destruct (Nat.eqb_spec a nn); [contradiction|].
      destruct (is_po a) eqn:E; [|reflexivity]. destruct (up_po_inter a E) as (_ & Q & _). congruence. }
    assert (P4 : forall a, (a < fr s)%nat -> isl (nd s a) = true -> ll g' a = ll g a /\ hh g' a = hh g a /\ l0 g' a = l0 g a /\ sp g' a = sp g a).
    { intros a A _. pose proof (up_old a A) as N. rewrite up_ll, up_hh, up_l0, up_sp. destruct (Nat.eqb_spec a nn); [contradiction|auto]. }
    assert (P5 : forall a, ze g a = true -> v_spl (ver (nd s' a)) = true).
    { intros a Ha. pose proof (Hze a Ha) as A. pose proof (up_old a A) as N. rewrite Ev. destruct (Nat.eqb_spec a nn); [contradiction|].
      pose proof (gl_ze _ _ GB a Ha). destruct (is_po a); auto. }
    split; [apply (GL_tree s g s' g' P1 up_ei P2 P3 P4); auto|]. intros x. apply lv_bd; auto using up_ei.
  Qed.
  Lemma up_rh x : (x < fr s)%nat -> rh g' x = rh g x.
  Proof.
    intros Hx. unfold rh. change (us g' x) with (us g x). destruct (us g x) as [d|] eqn:E; rewrite up_hh.
    - destruct (gl_us _ _ GB _ _ E) as (_ & (A & _) & _). destruct (Nat.eqb_spec d nn) as [Q|_]; [unfold nn in Q; lia|reflexivity].
    - destruct (Nat.eqb_spec x nn) as [Q|_]; [unfold nn in Q; lia|reflexivity].
  Qed.
  Lemma up_GV : GV s' g'.
  Proof.
    pose proof GC as [H1 H2 H3 H4 H5 H6 H7]. pose proof up_n as (Hn & Hc & Hhc & Hpc & Hparc & Hl0c & Nnc).
    assert (Lt : forall x, (x < S nn)%nat -> x = nn \/ (x < fr s)%nat) by (unfold nn; intros; lia).
    assert (E0 : forall x, (x < fr s)%nat -> (x =? nn)%nat = false) by (intros x Hx; apply Nat.eqb_neq; now apply up_old).
    destruct up_GL as (_ & Bd). constructor.
    - intros m d. rewrite up_pd. destruct (Nat.eqb_spec m n) as [->|Nm]; [discriminate|]. intros E. destruct (gt_pd _ _ GA m d E) as (A & _).
      rewrite Ei, Ev, (E0 m A). destruct (H1 m d E) as (B & C). split; [exact B|]. intros D. specialize (C D). destruct (is_po m); exact C.
    - intros a. rewrite Ef, up_ll, up_hh. intros A. destruct (Lt a A) as [->|Ha].
      + rewrite Nat.eqb_refl. split; apply Bd; [now apply H2|now apply H2].
      + rewrite (E0 a Ha). destruct (H2 a Ha). split; now apply Bd.
    - intros a. rewrite Ef, Ev. intros A. destruct (Lt a A) as [->|Ha].
      + rewrite Nat.eqb_refl. discriminate.
      + rewrite (E0 a Ha). destruct (is_po a) eqn:E; [|now apply H3]. intros _. now destruct (up_po_inter a E) as (_ & _ & Q).
    - intros a. rewrite Ef, Ev, up_l0. intros A. destruct (Lt a A) as [->|Ha].
      + rewrite Nat.eqb_refl. cbn [v_new v_rt v_spl]. intros B C _. unfold rh. change (us g' nn) with (us g nn). rewrite up_usnn, up_hh, Nat.eqb_refl.
        destruct po as [p|] eqn:E; [discriminate|]. destruct (gt_root2 _ _ GA n Hn Hpar) as [(m & Q)|(_ & Q)].
        * destruct (gt_pd _ _ GA _ _ Q) as (_ & _ & _ & Q2 & _). congruence.
        * unfold ehi in Q. now rewrite Hpd in Q.
      + rewrite (E0 a Ha), (up_rh a Ha). intros B C D. apply H4; auto; destruct (is_po a); auto.
    - intros a. rewrite Ef, Epar, Ev. intros A. destruct ((a =? n)%nat || (a =? c)%nat) eqn:Ea; [discriminate|]. apply orb_false_iff in Ea. destruct Ea as (Ea1 & Ea2).
      apply Nat.eqb_neq in Ea1. apply Nat.eqb_neq in Ea2. destruct (Lt a A) as [->|Ha].
      + rewrite Nat.eqb_refl. intros ->. cbn. auto.
      + rewrite (E0 a Ha), up_pd. destruct (Nat.eqb_spec a n); [contradiction|]. intros B C D. destruct (H5 a Ha B) as (Q1 & Q2); [|exact D|destruct (is_po a); auto].
        intros m Q. apply (C m). rewrite up_pd. destruct (Nat.eqb_spec m n) as [->|_]; [congruence|exact Q].
    - intros p tl. rewrite Ef, Ei, Ev, Ekids, up_l0. intros A. destruct (Lt p A) as [->|Hp].
      + rewrite Nat.eqb_refl. discriminate.
      + rewrite (E0 p Hp). intros B C D. destruct (is_po p) eqn:E; [|exact (H6 p tl Hp B C D)].
        destruct (kids (nd s p)) as [|k0 tl'] eqn:Ek; [destruct kp; discriminate|]. destruct kp as [|i]; cbn [set_at firstn app] in D; [discriminate|].
        injection D as -> _. exact (H6 p tl' Hp B C Ek).
    - intros p. rewrite Ef, Ei, Ev, Ekids. intros A. destruct (Lt p A) as [->|Hp]; [rewrite Nat.eqb_refl; discriminate|]. rewrite (E0 p Hp).
      destruct (is_po p) eqn:E; [|now apply H7]. cbn [v_mins v_del]. intros B C. exfalso. pose proof (H7 p Hp B C) as Q. revert E. unfold is_po. destruct po as [q|]; [|discriminate].
      intros E. apply Nat.eqb_eq in E. subst q. destruct (Hat p eq_refl) as (Q1 & _). rewrite Q in Q1. destruct kp as [|[|]]; discriminate.
  Qed.
  Lemma up_GI : GI s' g'. Proof. constructor; [apply up_GT|apply up_GL|apply up_GV]. Qed.
  Lemma up_Rel : Rel s g s' g'.
  Proof.
    assert (E0 : forall x, (x < fr s)%nat -> (x =? nn)%nat = false) by (intros x Hx; apply Nat.eqb_neq; now apply up_old).
    constructor.
    - rewrite Ef. unfold nn. lia.
    - apply up_ei.
    - intros a A. rewrite up_l0, (E0 a A). lia.
    - intros a A. rewrite up_l0, (E0 a A). lia.
    - intros a A. rewrite Ev, (E0 a A). destruct (is_po a); [apply vmono_mins|apply vmono_refl].
    - intros a A B. rewrite Epar, (E0 a A). destruct ((a =? n)%nat || (a =? c)%nat); [discriminate|exact B].
    - intros a A _. rewrite (up_rh a A). lia.
    - intros a A B. rewrite Ev, Ekeys, Ekids, (E0 a A). destruct (is_po a) eqn:Epo; [discriminate|]. intros C. split; [reflexivity|]. split; [reflexivity|].
      intros x Hx. destruct (gt_kid _ _ GA a x A B Hx) as (Q1 & Q2). rewrite (up_ehi x Q1). destruct (Nat.eqb_spec x n) as [->|_]; [|lia].
      exfalso. revert Epo. unfold is_po. rewrite Hpar in Q2. rewrite Q2, Nat.eqb_refl. discriminate.
  Qed.
  Lemma up_Frame p' : LI s -> In n (holds (pcs s t)) -> In c (holds (pcs s t)) -> (forall p, po = Some p -> In p (holds (pcs s t))) ->
    (forall t0, pcs s' t0 = setf (pcs s) t p' t0) -> Frame s g s' g' t.
  Proof.
    intros L Hhn Hhc Hhp Ep. assert (E0 : forall x, (x < fr s)%nat -> (x =? nn)%nat = false) by (intros x Hx; apply Nat.eqb_neq; now apply up_old).
    assert (Npo : forall t' a, t' <> t -> In a (holds (pcs s t')) -> is_po a = false).
    { intros t' a N H. destruct (is_po a) eqn:E; [|reflexivity]. exfalso. revert E. unfold is_po. destruct po as [p|]; [|discriminate]. intros E. apply Nat.eqb_eq in E. subst a.
      exact (mine s t L p (Hhp p eq_refl) t' N H). }
    constructor.
    - intros t' a N H. destruct (proj1 L _ _ H) as (A & _). rewrite Ev, Ekeys, Ekids, up_l0, up_ll, up_hh, up_sp, (E0 a A), (Npo _ _ N H).
      destruct (El a (up_old a A)) as (_ & Q & _). rewrite Q. repeat split; auto; lia.
    - intros t' a x N H Hx Hp. destruct (proj1 L _ _ H) as (A & _). rewrite Epar, up_ll, up_sp, (E0 x Hx).
      destruct (Nat.eqb_spec x n) as [->|Nx].
      + exfalso. assert (Q : po = Some a) by congruence. exact (mine s t L a (Hhp a Q) t' N H).
      + destruct (Nat.eqb_spec x c) as [->|Nc]; [destruct up_n as (_ & _ & _ & _ & Q & _); congruence|]. cbn [orb]. repeat split; auto; lia.
    - intros a A. apply El. now apply up_old.
    - intros t' N. rewrite Ep. now apply setf_other.
  Qed.
End Up.
