(* Concurrent layer: without deleted leaves the tree keeps exact separators, so that no child is misplaced. *)
From Verif Require Import Lib M_Tree M_Stampc P_Stampc1 M_Conc Spec_Conc P_Conc1 P_Conc2 P_Conc3 P_Conc4 P_Conc6 P_Conc14 P_Conc15 P_Conc11 P_Conc16 P_Conc16b P_Conc18 P_Conc19 P_Conc20 P_Conc21 P_ConcR.

Lemma in_set_other {A} (x y z : A) : forall l i, In z l -> nth_error l i = Some x -> z <> x -> In z (set_at i y l).
Proof.
  unfold set_at. induction l as [|a l IH]; intros i Hz Hi N; [destruct Hz|]. destruct i as [|i]; cbn [firstn skipn app nth_error] in *.
  - injection Hi as ->. destruct Hz as [->|Hz]; [contradiction|]. now right.
  - destruct Hz as [->|Hz]; [now left|]. right. now apply IH.
Qed.
Lemma in_set_new {A} (y : A) l i : In y (set_at i y l). Proof. unfold set_at. apply in_or_app. right. now left. Qed.
Lemma Forall2_set {A B} (R : A -> B -> Prop) l m : Forall2 R l m -> forall i x y, nth_error m i = Some x -> (forall k, R k x -> R k y) -> Forall2 R l (set_at i y m).
Proof.
  unfold set_at. induction 1 as [|a c l m H1 H2 IH]; intros i x y Hi Q; [destruct i; discriminate|]. destruct i as [|i]; cbn [firstn skipn app nth_error] in *.
  - injection Hi as ->. constructor; auto.
  - constructor; [exact H1|]. now apply (IH i x).
Qed.
Lemma nth_some_err {A} (l : list (option A)) i c : nth i l None = Some c -> nth_error l i = Some (Some c).
Proof. intros H. rewrite <- H. apply nth_error_nth'. exact (nth_some_lt _ _ _ H). Qed.

Lemma skipn_nth {A} : forall (l : list A) i d, (i < length l)%nat -> skipn i l = nth i l d :: skipn (S i) l.
Proof. induction l as [|x l IH]; intros [|i] d H; cbn [length] in H; try lia; [reflexivity|]. cbn [nth]. change (skipn (S i) (x :: l)) with (skipn i l). rewrite (IH i d) by lia. reflexivity. Qed.
Section Grow.
  Variables (s : cst) (g : gst) (b : nat -> Z) (t : nat) (s' : cst) (g' : gst).
  Hypothesis I : Inv s g.
  Hypothesis X : XI s b.
  Hypothesis F : Frame s g s' g' t.
  Let G := proj1 I.
  Let GA := gi_t _ _ G.
  Let GB := gi_l _ _ G.
  Let L := proj1 (proj2 I).
  Let K := proj1 (proj2 (proj2 I)).

  Lemma named_up p (v : Z) : (p < fr s)%nat -> isl (nd s p) = false -> Forall2 (named (setf b (fr s) v)) (b p :: keys (nd s p)) (kids (nd s p)).
  Proof.
    intros Hp Hi. refine (Forall2_impl2 _ _ _ _ _ (x_int _ _ X p Hp Hi)). intros k o _ Ho (c & -> & Hc). exists c. split; [reflexivity|]. rewrite setf_other; [exact Hc|].
    destruct (gt_kid _ _ GA p c Hp Hi Ho). lia.
  Qed.
  Lemma x_kidfr p c : (p < fr s)%nat -> isl (nd s p) = false -> In (Some c) (kids (nd s p)) -> (c < fr s)%nat.
  Proof. intros Hp Hi Ho. now destruct (gt_kid _ _ GA p c Hp Hi Ho). Qed.
  Lemma x_parfr a p : (a < fr s)%nat -> par (nd s a) = Some p -> (p < fr s)%nat /\ isl (nd s p) = false.
  Proof. intros Ha Hp. destruct (gt_par _ _ GA a p Ha Hp) as (A & B & _). auto. Qed.

  (* A new leaf beside the others. *)
  Lemma XI_leaf y w n sk st tg xn : fr s' = S (fr s) -> (forall a, (a < fr s)%nat -> shape (nd s' a) = shape (nd s a)) -> nd s' (fr s) = xn -> isl xn = true -> lo xn = sk -> ht xn = 0%nat -> par xn = None ->
    (n < fr s)%nat -> isl (nd s n) = true -> pcs s' t = WUp y w tg n (fr s) sk 0 st -> XI s' (setf b (fr s) sk).
  Proof.
    intros Ef H Nc I1 I2 I3 I4 Hn Hni Ep.
    assert (E : forall a, (a < fr s)%nat -> isl (nd s' a) = isl (nd s a) /\ lo (nd s' a) = lo (nd s a) /\ ht (nd s' a) = ht (nd s a) /\ par (nd s' a) = par (nd s a) /\ keys (nd s' a) = keys (nd s a) /\ kids (nd s' a) = kids (nd s a)).
    { intros a Ha. specialize (H a Ha). unfold shape in H. injection H; intros; repeat split; assumption. }
    apply (XI_grow s g s' g' b _ t L K F X); rewrite ?Ef.
    - intros a Ha. split; [apply (E a Ha)|]. rewrite setf_other; [reflexivity|lia].
    - intros a Ha Hi. destruct (Nat.eq_dec a (fr s)) as [->|N]; [rewrite setf_same, Nc; auto|]. rewrite setf_other by exact N. assert (Ha' : (a < fr s)%nat) by lia. destruct (E a Ha') as (E1 & -> & -> & _). apply (x_leaf _ _ X a Ha'). congruence.
    - intros p Hp Hi. destruct (Nat.eq_dec p (fr s)) as [->|N]; [congruence|]. rewrite setf_other by exact N. assert (Hp' : (p < fr s)%nat) by lia. destruct (E p Hp') as (E1 & _ & _ & _ & -> & ->). apply named_up; congruence.
    - intros p c Hp Hi Hc. destruct (Nat.eq_dec p (fr s)) as [->|N]; [congruence|]. assert (Hp' : (p < fr s)%nat) by lia. destruct (E p Hp') as (E1 & _ & E3 & _ & _ & E6). rewrite E6 in Hc. assert (Hi' : isl (nd s p) = false) by congruence.
      destruct (E c (x_kidfr p c Hp' Hi' Hc)) as (_ & _ & -> & _). rewrite E3. now apply (x_kid _ _ X).
    - intros a p Ha Hp. destruct (Nat.eq_dec a (fr s)) as [->|N]; [congruence|]. assert (Ha' : (a < fr s)%nat) by lia. destruct (E a Ha') as (_ & _ & _ & E4 & _). rewrite E4 in Hp.
      destruct (x_parfr a p Ha' Hp) as (Hpf & _). destruct (E p Hpf) as (_ & _ & _ & _ & _ & ->). now apply (x_par _ _ X).
    - rewrite Ep. cbn [XT]. destruct (E n Hn) as (_ & _ & -> & _). destruct (x_leaf _ _ X n Hn Hni) as (_ & ->). rewrite Nc, setf_same. auto.
  Qed.

  (* A new internode above the two nodes, below q if there is one. *)
  Lemma XI_above n c sk h qo kp xn : fr s' = S (fr s) -> (n < fr s)%nat -> (c < fr s)%nat -> n <> c -> ht (nd s n) = h -> ht (nd s c) = h -> b c = sk ->
    nd s' (fr s) = xn -> isl xn = false -> ht xn = S h -> keys xn = [sk] -> kids xn = [Some n; Some c] -> par xn = qo -> par (nd s n) = qo ->
    (forall a, (a < fr s)%nat -> isl (nd s' a) = isl (nd s a) /\ lo (nd s' a) = lo (nd s a) /\ ht (nd s' a) = ht (nd s a) /\ par (nd s' a) = (if ((a =? n) || (a =? c))%nat then Some (fr s) else par (nd s a)) /\
      keys (nd s' a) = keys (nd s a) /\ kids (nd s' a) = if is_po qo a then set_at kp (Some (fr s)) (kids (nd s a)) else kids (nd s a)) ->
    (forall q, qo = Some q -> nth kp (kids (nd s q)) None = Some n /\ (S h < ht (nd s q))%nat) ->
    XT s' (setf b (fr s) (b n)) (pcs s' t) -> XI s' (setf b (fr s) (b n)).
  Proof.
    intros Ef Hn Hc Nnc H1 H2 H3 Nx I1 I2 I3 I4 I5 Hpn E Hq HT. apply (XI_grow s g s' g' b _ t L K F X); rewrite ?Ef.
    - intros a Ha. split; [apply (E a Ha)|]. rewrite setf_other; [reflexivity|lia].
    - intros a Ha Hi. destruct (Nat.eq_dec a (fr s)) as [->|N]; [congruence|]. rewrite setf_other by exact N. assert (Ha' : (a < fr s)%nat) by lia. destruct (E a Ha') as (E1 & -> & -> & _). apply (x_leaf _ _ X a Ha'). congruence.
    - intros p Hp Hi. destruct (Nat.eq_dec p (fr s)) as [->|N].
      + rewrite Nx, I3, I4, setf_same. constructor; [exists n; split; [reflexivity|]; rewrite setf_other by lia; reflexivity|]. constructor; [|constructor]. exists c. split; [reflexivity|]. rewrite setf_other by lia. exact H3.
      + rewrite setf_other by exact N. assert (Hp' : (p < fr s)%nat) by lia. destruct (E p Hp') as (E1 & _ & _ & _ & -> & ->). assert (Hi' : isl (nd s p) = false) by congruence. pose proof (named_up p (b n) Hp' Hi') as Q.
        unfold is_po. destruct qo as [q|]; [|exact Q]. destruct (Nat.eqb_spec p q) as [->|N2]; [|exact Q]. destruct (Hq q eq_refl) as (Hat & _). refine (Forall2_set _ _ _ Q kp _ _ (nth_some_err _ _ _ Hat) _).
        intros k (z & Hz & Hk). injection Hz as <-. exists (fr s). split; [reflexivity|]. rewrite setf_same. rewrite setf_other in Hk by lia. exact Hk.
    - intros p d Hp Hi Hd. destruct (Nat.eq_dec p (fr s)) as [->|N].
      + rewrite Nx in *. rewrite I4 in Hd. rewrite I2. destruct Hd as [[= <-]|[[= <-]|[]]]; [destruct (E n Hn) as (_ & _ & -> & _)|destruct (E c Hc) as (_ & _ & -> & _)]; lia.
      + assert (Hp' : (p < fr s)%nat) by lia. destruct (E p Hp') as (E1 & _ & E3 & _ & _ & E6). assert (Hi' : isl (nd s p) = false) by congruence. rewrite E3. rewrite E6 in Hd.
        assert (Old : In (Some d) (kids (nd s p)) -> (ht (nd s' d) < ht (nd s p))%nat).
        { intros Q. destruct (E d (x_kidfr p d Hp' Hi' Q)) as (_ & _ & -> & _). now apply (x_kid _ _ X). }
        unfold is_po in Hd. destruct qo as [q|]; [|auto]. destruct (Nat.eqb_spec p q) as [->|N2]; [|auto]. apply in_set in Hd. destruct Hd as [[= ->]|Hd]; [|auto]. rewrite Nx, I2. apply (Hq q eq_refl).
    - intros a p Ha Hp. destruct (Nat.eq_dec a (fr s)) as [->|N].
      + rewrite Nx, I5 in Hp. destruct (x_parfr n p Hn) as (Hpf & _); [congruence|]. destruct (E p Hpf) as (_ & _ & _ & _ & _ & ->). rewrite Hp. unfold is_po. rewrite Nat.eqb_refl. apply in_set_new.
      + assert (Ha' : (a < fr s)%nat) by lia. destruct (E a Ha') as (_ & _ & _ & E4 & _). rewrite E4 in Hp. destruct (Nat.eqb_spec a n) as [Q|Q]; cbn [orb] in Hp.
        { injection Hp as <-. rewrite Nx, I4. subst a. now left. }
        destruct (Nat.eqb_spec a c) as [Q2|Q2]; [injection Hp as <-; rewrite Nx, I4; subst a; right; now left|].
        destruct (x_parfr a p Ha' Hp) as (Hpf & _). destruct (E p Hpf) as (_ & _ & _ & _ & _ & ->). pose proof (x_par _ _ X a p Ha' Hp) as In1. unfold is_po. destruct qo as [q|]; [|exact In1].
        destruct (Nat.eqb_spec p q) as [->|N2]; [|exact In1]. destruct (Hq q eq_refl) as (Hat & _). refine (in_set_other (Some n) _ _ _ _ In1 (nth_some_err _ _ _ Hat) _). congruence.
    - exact HT.
  Qed.

  (* Both nodes below q. *)
  Section Into.
    Variables (n c q kp h : nat) (sk : Z).
    Hypothesis Hn : (n < fr s)%nat.
    Hypothesis Hc : (c < fr s)%nat.
    Hypothesis Hq : (q < fr s)%nat.
    Hypothesis Hqi : isl (nd s q) = false.
    Hypothesis Hqc : q <> c.
    Hypothesis Hat : nth kp (kids (nd s q)) None = Some n.
    Hypothesis Hhc : ht (nd s c) = h.
    Hypothesis Hhq : ht (nd s q) = S h.
    Hypothesis Hb : b c = sk.
    Hypothesis Hpc : par (nd s c) = None.
    Let ks := ins_at kp sk (keys (nd s q)).
    Let cs := ins_at (S kp) (Some c) (kids (nd s q)).
    Lemma into_int v : Forall2 (named (setf b (fr s) v)) (b q :: ks) cs.
    Proof.
      pose proof (named_up q v Hq Hqi) as Q. refine (Forall2_ins _ _ _ sk (Some c) (S kp) Q _). exists c. split; [reflexivity|]. rewrite setf_other by lia. exact Hb.
    Qed.
    Lemma into_fr d : In (Some d) cs -> (d < fr s)%nat. Proof. unfold cs. rewrite in_ins. intros [[= ->]|H]; [exact Hc|exact (x_kidfr q d Hq Hqi H)]. Qed.
    Lemma into_ht d : In (Some d) cs -> (ht (nd s d) < S h)%nat.
    Proof. unfold cs. rewrite in_ins. intros [[= ->]|H]; [lia|]. rewrite <- Hhq. now apply (x_kid _ _ X). Qed.
    Lemma XI_room : fr s' = fr s -> 
      (forall a, isl (nd s' a) = isl (nd s a) /\ lo (nd s' a) = lo (nd s a) /\ ht (nd s' a) = ht (nd s a) /\ par (nd s' a) = (if (a =? c)%nat then Some q else par (nd s a)) /\
        keys (nd s' a) = (if (a =? q)%nat then ks else keys (nd s a)) /\ kids (nd s' a) = if (a =? q)%nat then cs else kids (nd s a)) ->
      XT s' b (pcs s' t) -> XI s' b.
    Proof.
      intros Ef E HT. apply (XI_grow s g s' g' b _ t L K F X); rewrite ?Ef.
      - intros a Ha. split; [apply (E a)|reflexivity].
      - intros a Ha. destruct (E a) as (-> & -> & -> & _). now apply (x_leaf _ _ X).
      - intros p Hp. destruct (E p) as (-> & _ & _ & _ & -> & ->). intros Hi. destruct (Nat.eqb_spec p q) as [->|N]; [|now apply (x_int _ _ X)].
        refine (Forall2_impl2 _ _ _ _ _ (into_int 0)). intros k o _ Ho (z & -> & Hz). exists z. split; [reflexivity|]. pose proof (into_fr z Ho). rewrite setf_other in Hz by lia. exact Hz.
      - intros p d Hp. destruct (E p) as (-> & _ & -> & _ & _ & ->). destruct (E d) as (_ & _ & -> & _). intros Hi. destruct (Nat.eqb_spec p q) as [->|N]; [|now apply (x_kid _ _ X)]. rewrite Hhq. apply into_ht.
      - intros a p Ha. destruct (E a) as (_ & _ & _ & -> & _). destruct (E p) as (_ & _ & _ & _ & _ & ->). destruct (Nat.eqb_spec a c) as [->|N].
        + intros [= <-]. rewrite Nat.eqb_refl. apply in_ins. now left.
        + intros Hp. pose proof (x_par _ _ X a p Ha Hp) as Q. destruct (Nat.eqb_spec p q) as [->|N2]; [|exact Q]. apply in_ins. now right.
      - exact HT.
    Qed.
    Lemma XI_full mid xn : fr s' = S (fr s) -> (mid < length ks)%nat -> nd s' (fr s) = xn -> isl xn = false -> ht xn = S h -> keys xn = skipn (S mid) ks -> kids xn = skipn (S mid) cs -> par xn = None ->
      (forall a, (a < fr s)%nat -> isl (nd s' a) = isl (nd s a) /\ lo (nd s' a) = lo (nd s a) /\ ht (nd s' a) = ht (nd s a) /\
        (In (Some a) (skipn (S mid) cs) -> par (nd s' a) = Some (fr s)) /\ (~ In (Some a) (skipn (S mid) cs) -> par (nd s' a) = (if (a =? c)%nat then Some q else par (nd s a))) /\
        keys (nd s' a) = (if (a =? q)%nat then firstn mid ks else keys (nd s a)) /\ kids (nd s' a) = if (a =? q)%nat then firstn (S mid) cs else kids (nd s a)) ->
      XT s' (setf b (fr s) (nth mid ks 0)) (pcs s' t) -> XI s' (setf b (fr s) (nth mid ks 0)).
    Proof.
      intros Ef Hmid Nx I1 I2 I3 I4 I5 E HT. set (v := nth mid ks 0) in *. pose proof (into_int v) as FI. apply (XI_grow s g s' g' b _ t L K F X); rewrite ?Ef.
      - intros a Ha. split; [apply (E a Ha)|]. rewrite setf_other; [reflexivity|lia].
      - intros a Ha Hi. destruct (Nat.eq_dec a (fr s)) as [->|N]; [congruence|]. rewrite setf_other by exact N. assert (Ha' : (a < fr s)%nat) by lia. destruct (E a Ha') as (E1 & -> & -> & _). apply (x_leaf _ _ X a Ha'). congruence.
      - intros p Hp Hi. destruct (Nat.eq_dec p (fr s)) as [->|N].
        + rewrite Nx, I3, I4, setf_same. pose proof (Forall2_skipn _ _ _ FI (S mid)) as Q. cbn [skipn] in Q. rewrite (skipn_nth ks mid 0 Hmid) in Q. exact Q.
        + rewrite setf_other by exact N. assert (Hp' : (p < fr s)%nat) by lia. destruct (E p Hp') as (E1 & _ & _ & _ & _ & -> & ->). assert (Hi' : isl (nd s p) = false) by congruence.
          destruct (Nat.eqb_spec p q) as [->|N2]; [|now apply named_up]. exact (Forall2_firstn _ _ _ FI (S mid)).
      - intros p d Hp Hi Hd. destruct (Nat.eq_dec p (fr s)) as [->|N].
        + rewrite Nx in *. rewrite I4 in Hd. rewrite I2. apply in_skipn in Hd. destruct (E d (into_fr d Hd)) as (_ & _ & -> & _). now apply into_ht.
        + assert (Hp' : (p < fr s)%nat) by lia. destruct (E p Hp') as (E1 & _ & E3 & _ & _ & _ & E6). assert (Hi' : isl (nd s p) = false) by congruence. rewrite E3. rewrite E6 in Hd. destruct (Nat.eqb_spec p q) as [->|N2].
          * apply in_firstn in Hd. destruct (E d (into_fr d Hd)) as (_ & _ & -> & _). rewrite Hhq. now apply into_ht.
          * destruct (E d (x_kidfr p d Hp' Hi' Hd)) as (_ & _ & -> & _). now apply (x_kid _ _ X).
      - intros a p Ha Hp. destruct (Nat.eq_dec a (fr s)) as [->|N]; [congruence|]. assert (Ha' : (a < fr s)%nat) by lia. destruct (E a Ha') as (_ & _ & _ & E4 & E5 & _).
        assert (D : {In (Some a) (skipn (S mid) cs)} + {~ In (Some a) (skipn (S mid) cs)}) by (apply in_dec; decide equality; apply Nat.eq_dec). destruct D as [D|D].
        + rewrite (E4 D) in Hp. injection Hp as <-. rewrite Nx, I4. exact D.
        + rewrite (E5 D) in Hp. assert (Cut : In (Some a) cs -> In (Some a) (firstn (S mid) cs)) by (intros Q; rewrite <- (firstn_skipn (S mid) cs) in Q; apply in_app_or in Q; tauto). destruct (Nat.eqb_spec a c) as [Q|Q].
          * injection Hp as <-. destruct (E q Hq) as (_ & _ & _ & _ & _ & _ & ->). rewrite Nat.eqb_refl. apply Cut. subst a. apply in_ins. now left.
          * destruct (x_parfr a p Ha' Hp) as (Hpf & _). destruct (E p Hpf) as (_ & _ & _ & _ & _ & _ & ->). pose proof (x_par _ _ X a p Ha' Hp) as In1. destruct (Nat.eqb_spec p q) as [->|N2]; [|exact In1]. apply Cut. apply in_ins. now right.
      - exact HT.
    Qed.
  End Into.
End Grow.

Lemma in_misp_eq s t y w tg n c sk h st q : misp s = false -> is_at n (upper sk (keys (nd s q))) (kids (nd s q)) = true -> misp (in_parent s t y w tg n c sk h st q) = false.
Proof.
  intros M A. unfold in_parent. cbv zeta. destruct (S h <? ht (nd s q))%nat; [cbn; now rewrite M, A|]. destruct (length (keys (nd s q)) <? W)%nat; [cbn; now rewrite M, A|].
  match goal with |- context[setpars ?a ?b ?d] => destruct (setpars_rest d b a) as (_ & _ & _ & Q & _) end. cbn [go misp]. rewrite Q. cbn. now rewrite M, A.
Qed.
Lemma misp_ok s g b t x s' : Inv s g -> XI s b -> nodel s -> step s t x = Some s' -> misp s = false -> misp s' = false.
Proof.
  intros Ig X ND ST M. pose proof (x_thr _ _ X t) as T. pose proof (proj2 (proj2 (proj2 Ig)) t) as J. revert ST T J. unfold step. destruct (pcs s t) eqn:E; intros ST T J; destruct x; try discriminate ST; try (destruct o; discriminate ST);
    try (destruct T; fail); cases ST; try exact M.
  all: try (repeat match goal with |- context[if ?b then _ else _] => destruct b | |- context[match ?b with Some _ => _ | None => _ end] => destruct b end; exact M).
  all: try (unfold leaf_split; destruct (nxt (nd s n)); exact M).
  - cbn [XT] in T. destruct T as (T1 & T2 & T3 & T4). apply in_misp_eq; [exact M|]. rewrite <- T3. apply (kid_pos s g b Ig X ND n c p); [|apply (proj1 (proj1 (proj2 Ig)) t); rewrite E; cbn; tauto|exact T4].
    apply (have_pd s g t (proj1 (proj2 (proj2 Ig))) _ n c E). reflexivity.
Qed.

Section StepX.
  Variables (s : cst) (g : gst) (b : nat -> Z) (t : nat).
  Hypothesis I : Inv s g.
  Hypothesis X : XI s b.
  Hypothesis ND : nodel s.
  Let G := proj1 I.
  Let GA := gi_t _ _ G.
  Let GB := gi_l _ _ G.
  Let L := proj1 (proj2 I).
  Let K := proj1 (proj2 (proj2 I)).

  Lemma XI_root y w tg n c sk h st g' : pcs s t = WUp y w tg n c sk h st -> par (nd s n) = None -> Frame s g (new_root s t y w tg n c sk h st) g' t -> XI (new_root s t y w tg n c sk h st) (setf b (fr s) (b n)).
  Proof.
    intros E Hpar F. pose proof (x_thr _ _ X t) as T. rewrite E in T. cbn [XT] in T. destruct T as (T1 & T2 & T3).
    assert (Hp : WUp y w tg n c sk h st = WUp y w tg n c sk h st \/ exists q0, WUp y w tg n c sk h st = WIn y w tg n c sk h st q0) by now left.
    destruct (sp_fr s t L _ y w tg n c sk h st E Hp) as (F1 & F2 & F3). pose proof (sp_nc s g t G K _ y w tg n c sk h st E Hp) as Nnc.
    set (s' := new_root s t y w tg n c sk h st) in *.
    assert (ND' : forall z, nd s' z = if (z =? n)%nat then with_par (nd s n) (Some (fr s)) else if (z =? c)%nat then with_par (nd s c) (Some (fr s)) else if (z =? fr s)%nat then new_inter (v_new true) None [sk] [Some n; Some c] (S h) else nd s z).
    { intros z. unfold s', new_root. cbv zeta. change (nd (go ?a t _)) with (nd a). rewrite !nd_spar, !nd_put. change (nd (grow s)) with (nd s). destruct (Nat.eqb_spec n c); [contradiction|]. destruct (Nat.eqb_spec n (fr s)); [lia|]. destruct (Nat.eqb_spec c (fr s)); [lia|]. reflexivity. }
    apply (XI_above s g b t s' g' I X F n c sk h None 0 (new_inter (v_new true) None [sk] [Some n; Some c] (S h))); auto; try discriminate.
    - rewrite ND'. destruct (Nat.eqb_spec (fr s) n); [lia|]. destruct (Nat.eqb_spec (fr s) c); [lia|]. now rewrite Nat.eqb_refl.
    - intros a Ha. rewrite ND'. cbn [is_po]. destruct (Nat.eqb_spec a n) as [->|]; [repeat split|]. destruct (Nat.eqb_spec a c) as [->|]; [repeat split|]. destruct (Nat.eqb_spec a (fr s)); [lia|]. repeat split.
    - unfold s'. rewrite pcs_root. unfold after_in. destruct h; exact Logic.I.
  Qed.

  Lemma XI_in y w tg n c sk h st q g' : pcs s t = WIn y w tg n c sk h st q -> Frame s g (in_parent s t y w tg n c sk h st q) g' t -> exists b', XI (in_parent s t y w tg n c sk h st q) b'.
  Proof.
    intros E F. pose proof (x_thr _ _ X t) as T. rewrite E in T. cbn [XT] in T. destruct T as (T1 & T2 & T3 & T4). pose proof (proj2 (proj2 (proj2 I)) t) as J. rewrite E in J. cbn [JI] in J. destruct J as (Y & HS & Hqi & Hqn & Hqc).
    assert (Hp : WIn y w tg n c sk h st q = WUp y w tg n c sk h st \/ exists q0, WIn y w tg n c sk h st q = WIn y w tg n c sk h st q0) by (right; eauto).
    assert (Hq : In q (holds (WIn y w tg n c sk h st q))) by (cbn; tauto).
    destruct (sp_fr s t L _ y w tg n c sk h st E Hp) as (F1 & F2 & F3). destruct (my_fr s t L _ q E Hq) as (Hf & Hk). pose proof (sp_nc s g t G K _ y w tg n c sk h st E Hp) as Nnc.
    pose proof (sp_par s g t G K _ y w tg n c sk h st E Hp) as Hpc.
    assert (Hat : nth (upper sk (keys (nd s q))) (kids (nd s q)) None = Some n).
    { apply is_at_iff. rewrite <- T3. apply (kid_pos s g b I X ND n c q); auto. exact (sp_pd s g t K _ y w tg n c sk h st E Hp). }
    pose proof (x_kid _ _ X q n Hf Hqi (kid_in _ _ _ Hat)) as Hht.
    assert (D1 : fr s <> q) by lia. assert (D2 : fr s <> n) by lia. assert (D3 : fr s <> c) by lia.
    unfold in_parent in *. cbv zeta in *. destruct (Nat.ltb_spec (S h) (ht (nd s q))) as [H1|H1].
    - match goal with |- context[put (grow ?s0) (fr s) ?x] => set (sa := s0) in *; set (xn := x) in * end.
      set (cs := set_at _ _ _) in *. set (pn := after_in _ _ _ _ _ _ _ _ _ _) in *.
      pose proof (nd_gap sa s q n c (fr s) (v_mins (ver (nd s q))) xn (keys (nd s q)) cs t pn eq_refl Hqn Hqc Nnc D1 D2 D3) as N. cbv zeta in N.
      match type of N with forall z, nd ?a z = _ => set (s' := a) in * end. assert (Ef : fr s' = S (fr s)) by reflexivity. assert (Ep : pcs s' t = pn) by apply gone. clearbody s'.
      exists (setf b (fr s) (b n)). apply (XI_above s g b t s' g' I X F n c sk h (Some q) (upper sk (keys (nd s q))) xn); auto.
      + rewrite N. now rewrite Nat.eqb_refl.
      + intros a Ha. rewrite N. unfold is_po. destruct (Nat.eqb_spec a (fr s)); [lia|]. destruct (Nat.eqb_spec a q) as [->|Na].
        { destruct (Nat.eqb_spec q n); [congruence|]. destruct (Nat.eqb_spec q c); [congruence|]. repeat split. }
        destruct (Nat.eqb_spec a n) as [->|]; [repeat split|]. destruct (Nat.eqb_spec a c) as [->|]; repeat split.
      + intros q0 [= <-]. auto.
      + rewrite Ep. unfold pn, after_in. destruct h; exact Logic.I.
    - assert (Hhq : ht (nd s q) = S h) by lia. destruct (Nat.ltb_spec (length (keys (nd s q))) W) as [H2|H2].
      + match goal with |- context[put ?s0 q (with_kk _ ?a ?d)] => set (sa := s0) in *; set (cs := d) in *; set (ks := a) in * end. set (pn := after_in _ _ _ _ _ _ _ _ _ _) in *.
        pose proof (nd_room sa s q c (v_mins (ver (nd s q))) ks cs t pn eq_refl Hqc) as N. cbv zeta in N.
        match type of N with forall z, nd ?a z = _ => set (s' := a) in * end. assert (Ef : fr s' = fr s) by reflexivity. assert (Ep : pcs s' t = pn) by apply gone. clearbody s'.
        exists b. apply (XI_room s g b t s' g' I X F n c q (upper sk (keys (nd s q))) h sk); auto.
        * intros a. rewrite N. destruct (Nat.eqb_spec a c) as [->|]; [destruct (Nat.eqb_spec c q); [congruence|repeat split]|]. destruct (Nat.eqb_spec a q) as [->|]; repeat split.
        * rewrite Ep. unfold pn, after_in. destruct h; exact Logic.I.
      + set (mid := if (st =? 2)%nat then W else Nat.div (W + 1) 2) in *. assert (Hmid : (mid <= length (keys (nd s q)))%nat).
        { unfold mid, W in *. change ((15 + 1) / 2)%nat with 8%nat. destruct (st =? 2)%nat; lia. }
        clearbody mid. set (ks := ins_at _ sk _) in *. set (cs := ins_at _ (Some c) _) in *.
        match goal with |- context[setpar ?s0 c (Some q)] => set (sm := s0) in * end. set (xn := new_inter _ _ _ _ _) in *.
        pose proof (nd_full sm s q c (fr s) (v_mins (ver (nd s q))) xn (firstn mid ks) (firstn (S mid) cs) eq_refl Hqc D1 D3) as NF. cbv zeta in NF.
        match goal with |- context[go (setpars ?a ?z ?d) t _] => set (sa := a) in *; destruct (setpars_rest d z sa) as (R1 & R2 & R3 & R4 & R5); pose proof (setpars_nd d z sa) as N end.
        set (pn := after_in _ _ _ _ _ _ _ _ _ _) in *. set (s' := go _ t _) in *.
        assert (Ef : fr s' = S (fr s)) by (unfold s'; cbn [go fr]; rewrite R1; reflexivity). assert (Ep : pcs s' t = pn) by apply gone. assert (Es : nd s' = nd (setpars sa (skipn (S mid) cs) (fr s))) by reflexivity.
        assert (Nx : nd s' (fr s) = xn).
        { rewrite Es. destruct (N (fr s)) as (o & N1 & N2 & N3). rewrite N1, NF, Nat.eqb_refl. assert (Q : ~ In (Some (fr s)) (skipn (S mid) cs)).
          { intros Q. apply in_skipn in Q. apply (into_fr s g I c q (upper sk (keys (nd s q))) F3 Hf Hqi) in Q. lia. }
          rewrite (N3 Q), NF, Nat.eqb_refl. now destruct xn. }
        exists (setf b (fr s) (nth mid ks 0)). apply (XI_full s g b t s' g' I X F n c q (upper sk (keys (nd s q))) h sk F2 F3 Hf Hqi Hqc T2 Hhq T3 mid xn); auto.
        * unfold ks, ins_at. fold ks. rewrite app_length, firstn_length. cbn [length]. rewrite skipn_length. lia.
        * intros a Ha. rewrite Es. destruct (N a) as (o & N1 & N2 & N3). rewrite N1, NF. destruct (Nat.eqb_spec a (fr s)); [lia|]. rewrite NF in N3. destruct (Nat.eqb_spec a (fr s)); [lia|].
          destruct (Nat.eqb_spec a q) as [->|Na]; [destruct (Nat.eqb_spec q c); [congruence|]; repeat split; auto|]. destruct (Nat.eqb_spec a c) as [->|]; repeat split; auto.
        * rewrite Ep. unfold pn, after_in. assert (Qq : ht (nd s' q) = S h).
          { rewrite Es. destruct (N q) as (o & N1 & _). rewrite N1, NF. destruct (Nat.eqb_spec q (fr s)); [lia|]. rewrite Nat.eqb_refl. exact Hhq. }
          destruct h; cbn [XT XN]; rewrite Qq, Nx, setf_same; auto.
  Qed.
End StepX.

Lemma XI_step s g b t x s' : Inv s g -> XI s b -> nodel s -> nodel s' -> step s t x = Some s' -> misp s = false -> abnd s' = false -> exists b', XI s' b'.
Proof.
  intros Ig X ND ND' ST M A. pose proof (misp_ok s g b t x s' Ig X ND ST M) as M'. destruct (Inv_step _ _ _ _ _ Ig ST M' A) as (g' & _ & _ & F).
  pose proof (x_thr _ _ X t) as T. pose proof (proj2 (proj2 (proj2 Ig)) t) as J. pose proof (proj1 (proj2 Ig)) as L.
  assert (Fl : flat s s' -> XT s' b (pcs s' t) -> exists b', XI s' b').
  { intros H1 H2. exists b. apply (XI_flat s b s' t H1 X); [|exact H2]. intros t' N. exact (fm_pc _ _ _ _ _ F t' N). }
  revert ST T J. unfold step.
  destruct (pcs s t) as [|y o n|y o n|y o n v l u|y o n v c|y o n v c vc|y o n v|y o n v vi|y o n v vi gt|y o n v|y o n v r|y o n v|y o n v|y o n v vi|y o n v vi gt|y o n v|y o n
      |y o r|y o n|y o n r|y w tg n c sk h st|y w tg n c sk h st q|y w tg n c sk st q nc|y w tg n c h st q nc|y w tg c h st q nc|y w tg h st q nc|y w tg|y r n|y r n|y r n ik rep|y r n ik rep p|y r n p cur ik rik
      |y r n p cur p2 ik rik|y r n p cur p2 ik rik|y r n p p2 rik|y r n p ik|y r p ik|] eqn:E; intros ST T J; destruct x; try discriminate ST; try (destruct o; discriminate ST); try (destruct T; fail).
  all: try (cases ST; try discriminate A; (apply Fl; [unfold unlock; repeat match goal with |- context[if ?b then _ else _] => destruct b end; auto using flat_refl, flat_go, flat_vput, flat_put; fail
    |rewrite ?gone; unfold enter; repeat match goal with |- context[if ?b then _ else _] => destruct b | |- context[match ?b with Some _ => _ | None => _ end] => destruct b end; rewrite ?gone;
     first [exact Logic.I|exact T|cbn [vput put pcs]; rewrite E; exact Logic.I]]); fail).
  - destruct (v_rt _); [discriminate ST|]. injection ST as <-. apply Fl; [destruct (par (nd s (rootp s))); (split; [reflexivity|intros; reflexivity])|]. destruct (par (nd s (rootp s))); cbn [reroot pcs]; rewrite E; exact Logic.I.
  - destruct o as [|w|]; try discriminate ST. destruct (_ && _); [|discriminate ST]. injection ST as <-. cbn [JI] in J. destruct J as (Y & _ & (Ln & Hy & Hd)). destruct (pcs_split s t y w n) as (tg & c & sk & st & Ep).
    assert (Q : exists xn, c = fr s /\ nd (leaf_split s t y w n) (fr s) = xn /\ isl xn = true /\ lo xn = sk /\ ht xn = 0%nat /\ par xn = None /\ fr (leaf_split s t y w n) = S (fr s) /\ forall a, (a < fr s)%nat -> shape (nd (leaf_split s t y w n) a) = shape (nd s a)).
    { clear - Ep Ln Ig. unfold leaf_split in *. cbv zeta in *. rewrite gone in Ep. injection Ep as E1 E2 E3 E4. subst c. set (k := split_key _ _ _ _) in *. clearbody k. subst sk.
      exists (new_leaf (ver (nd s n)) k (filter (fun r => k <=? fst r) (rws (nd s n))) k (nxt (nd s n)) (Some n)). split; [reflexivity|].
      assert (Nn : (fr s =? n)%nat = false) by (destruct Ln; apply Nat.eqb_neq; lia).
      assert (Hb : forall x, nxt (nd s n) = Some x -> (fr s =? x)%nat = false).
      { intros x Q. destruct (gl_link _ _ (gi_l _ _ (proj1 Ig)) n Ln) as (_ & _ & _ & Q4 & _). destruct (Q4 x Q) as ((Q5 & _) & _). apply Nat.eqb_neq. lia. }
      destruct (nxt (nd s n)) as [x|]; [specialize (Hb x eq_refl)|clear Hb; pose proof Nn as Hb]; (split; [cbn [go nd put grow fr]; unfold setf; rewrite Nn, ?Hb, Nat.eqb_refl; reflexivity|]); do 5 (split; [reflexivity|]);
        intros a Ha; cbn [go nd put grow fr]; unfold setf; (destruct (Nat.eqb_spec a n) as [Qa|Qa]; [rewrite Qa in *; cbn [with_nxt]|]).
      - destruct (Nat.eqb_spec n x) as [Qx|]; [rewrite <- Qx; destruct (Nat.eqb_spec n (fr s)); [lia|reflexivity]|]. destruct (Nat.eqb_spec n (fr s)); [lia|reflexivity].
      - destruct (Nat.eqb_spec a x) as [Qx|]; [rewrite <- Qx; destruct (Nat.eqb_spec a (fr s)); [lia|reflexivity]|]. destruct (Nat.eqb_spec a (fr s)); [lia|reflexivity].
      - destruct (Nat.eqb_spec n (fr s)); [lia|reflexivity].
      - destruct (Nat.eqb_spec a (fr s)); [lia|reflexivity]. }
    destruct Q as (xn & -> & Q1 & Q2 & Q3 & Q4 & Q5 & Q6 & Q7). eexists. eapply (XI_leaf s g b t (leaf_split s t y w n) g' Ig X F y w n sk st tg xn); auto; apply Ln.
  - destruct (par (nd s n)) as [p|] eqn:P; [|injection ST as <-; eexists; exact (XI_root s g b t Ig X y w tg n c sk h st g' E P F)]. destruct (v_lk _); [discriminate ST|]. injection ST as <-.
    set (s1 := go _ t _) in *. assert (Hf : flat s s1) by (apply flat_go, flat_vput, flat_refl). apply (Fl Hf). unfold s1 at 2. rewrite gone. cbn [XT] in *. destruct Hf as (_ & Hf).
    pose proof (Hf n) as Hn. pose proof (Hf c) as Hc. unfold shape in Hn, Hc. injection Hn. injection Hc. intros. repeat split; [| |apply T|]; try congruence; destruct T as (T1 & T2 & _); congruence.
  - injection ST as <-. exact (XI_in s g b t Ig X ND y w tg n c sk h st q g' E F).
  - injection ST as <-. set (s1 := go _ t _) in *. assert (Hf : flat s s1) by (apply flat_go, flat_put; [apply flat_refl|reflexivity]). apply (Fl Hf). unfold s1 at 2. rewrite gone. cbn [XT] in *.
    revert T. apply XN_stable. intros a _. split; [|reflexivity]. destruct Hf as (_ & Hf). specialize (Hf a). unfold shape in Hf. congruence.
  - injection ST as <-. set (s1 := go _ t _) in *. assert (Hf : flat s s1) by (apply flat_go, flat_if; [apply flat_refl|apply flat_vput, flat_refl]). apply (Fl Hf). unfold s1 at 2. rewrite gone. cbn [XT] in *.
    revert T. apply XN_stable. intros a _. split; [|reflexivity]. destruct Hf as (_ & Hf). specialize (Hf a). unfold shape in Hf. congruence.
  - injection ST as <-. set (s1 := go _ t _) in *. assert (Hf : flat s s1) by (apply flat_go, flat_if; [apply flat_refl|apply flat_vput, flat_refl]). apply (Fl Hf). unfold s1 at 2. rewrite gone. cbn [XT] in *.
    revert T. apply XN_stable. intros a _. split; [|reflexivity]. destruct Hf as (_ & Hf). specialize (Hf a). unfold shape in Hf. congruence.
  - cbn [JI] in J. destruct J as (J1 & _ & J2). rewrite (ND n (proj1 J1)) in J2. discriminate.
Qed.
