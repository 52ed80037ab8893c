(* Concurrent layer: splits keep the invariant. *)
From Verif Require Import Lib M_Tree M_Stampc P_Stampc1 M_Conc P_Conc1 P_Conc2 P_Conc3 P_Conc4 P_Conc5 P_Conc6 P_Conc7 P_Conc8 P_Conc11 P_Conc12 P_Conc14 P_Conc15.
From Coq Require Import Sorting.Sorted.

Ltac pw := unfold unlock, setpar, vput, go, grow, misplace, put, setf; cbn [nd fr rootp pcs];
  repeat match goal with |- context[(?a =? ?b)%nat] => destruct (Nat.eqb_spec a b); subst; cbn [orb andb] end; try reflexivity; try congruence; try lia.

(* setpars changes the parents of the nodes listed. *)
Lemma setpars_nd q : forall l s x, exists o, nd (setpars s l q) x = with_par (nd s x) o /\ (In (Some x) l -> o = Some q) /\ (~ In (Some x) l -> o = par (nd s x)).
Proof.
  induction l as [|[c|] l IH]; intros s x; cbn [setpars].
  - exists (par (nd s x)). split; [now destruct (nd s x)|]. split; [intros []|auto].
  - destruct (IH (setpar s c (Some q)) x) as (o & A & B & C).
    assert (N : nd (setpar s c (Some q)) x = with_par (nd s x) (if (x =? c)%nat then Some q else par (nd s x))).
    { unfold setpar, put, setf. cbn [nd]. destruct (Nat.eqb_spec x c) as [->|]; [reflexivity|]. now destruct (nd s x). }
    rewrite N in A, C. exists o. split; [exact A|]. cbn [par with_par] in C. split.
    + intros [E|H]; [|auto]. injection E as ->. rewrite Nat.eqb_refl in C.
      destruct (in_dec (fun a b : option nat => ltac:(decide equality; apply Nat.eq_dec)) (Some x) l); auto.
    + intros H. rewrite C by (intros Q; apply H; now right). destruct (Nat.eqb_spec x c) as [->|]; [|reflexivity]. destruct H. now left.
  - destruct (IH s x) as (o & A & B & C). exists o. split; [exact A|]. split; [intros [E|H]; [discriminate|auto]|]. intros H. apply C. intros Q. apply H. now right.
Qed.
Lemma setpars_rest q : forall l s, fr (setpars s l q) = fr s /\ rootp (setpars s l q) = rootp s /\ pcs (setpars s l q) = pcs s /\ misp (setpars s l q) = misp s /\ abnd (setpars s l q) = abnd s.
Proof. induction l as [|[c|] l IH]; intros s; cbn [setpars]; [auto|rewrite !(proj1 (IH _)); destruct (IH (setpar s c (Some q))) as (A & B & C & D & E); auto|apply IH]. Qed.

Lemma Adv_trans s g s1 g1 s2 g2 t : Adv s g s1 g1 t -> Adv s1 g1 s2 g2 t ->
  (forall a, (a < fr s)%nat -> (v_spl (ver (nd s2 a)) = false -> v_spl (ver (nd s1 a)) = false) /\ (v_dirty (ver (nd s2 a)) = false -> v_dirty (ver (nd s1 a)) = false)) ->
  Adv s g s2 g2 t.
Proof.
  intros (A & B & C) (D & E & F) V. split; [exact D|]. split; [exact (Rel_trans _ _ _ _ _ _ B E V)|]. exact (Frame_trans _ _ _ _ _ _ _ (rl_fr _ _ _ _ B) C F).
Qed.
Lemma Adv_quiet s g s' t : GI s g -> nd s' = nd s -> fr s' = fr s -> rootp s' = rootp s -> (forall t0, t0 <> t -> pcs s' t0 = pcs s t0) -> Adv s g s' g t.
Proof.
  intros G E1 E2 E3 E4. split; [apply (GI_ext s); auto; rewrite E3; apply (gt_rootp _ _ (gi_t _ _ G))|]. split; [now apply Rel_quiet|].
  apply (Frame_quiet s g s' t (pcs s' t) E1). intros t0. unfold setf. destruct (Nat.eqb_spec t0 t) as [->|N]; auto.
Qed.

Section Core.
  Variables (s : cst) (g : gst) (t : nat).
  Hypothesis G : GI s g.
  Hypothesis L : LI s.
  Hypothesis K : LK s g.
  Hypothesis JA : forall t, JI s g (pcs s t).
  Let GA := gi_t _ _ G.
  Let GB := gi_l _ _ G.
  Let GC := gi_v _ _ G.

  Lemma ze_leaf a : ze g a = true -> (a < fr s)%nat /\ isl (nd s a) = true.
  Proof.
    intros H. apply (proj2 (proj2 (proj2 K))) in H. destruct H as (t' & H). pose proof (JA t') as J. assert (Q : exists y, TG s g a y).
    { destruct (pcs s t'); cbn [zeof] in H; try discriminate; cbn [JI] in J; try (destruct h; [discriminate|]); injection H as <-.
      - destruct J as (_ & _ & _ & J). eauto.
      - destruct J as (_ & (_ & _ & J) & _). eauto.
      - destruct J as (_ & J & _). eauto.
      - destruct J as (_ & J & _). eauto.
      - destruct J as (_ & J & _). eauto.
      - destruct J as (_ & J). eauto. }
    destruct Q as (y & (Q1 & Q2 & _) & _). auto.
  Qed.
  Lemma Adv_ok p p' s' g' : pcs s t = p -> Adv s g s' g' t -> (forall t0, pcs s' t0 = setf (pcs s) t p' t0) ->
    (forall a, In a (holds p') -> (In a (holds p) \/ (fr s <= a)%nat \/ v_lk (ver (nd s a)) = false) /\ (a < fr s')%nat /\ v_lk (ver (nd s' a)) = true) ->
    LK s' g' -> JI s' g' p' -> OK s g s' t.
  Proof.
    intros E (A & B & C) Ep Hh HK J. exists g'. split; [exact A|]. split; [exact B|]. split; [exact C|]. split; [|split; [exact HK|]].
    - apply (LI_step s g s' g' t p' L C Ep (rl_fr _ _ _ _ B)). rewrite E. exact Hh.
    - now rewrite (Ep t), setf_same.
  Qed.
  (* What the facts of a writer need of the nodes it names. *)
  Definition keepx (s' : cst) (g' : gst) (x : nat) : Prop :=
    isl (nd s' x) = isl (nd s x) /\ lo (nd s' x) = lo (nd s x) /\ rws (nd s' x) = rws (nd s x) /\ v_del (ver (nd s' x)) = v_del (ver (nd s x)) /\
    ul g' x = ul g x /\ l0 g' x = l0 g x /\ ll g' x = ll g x /\ hh g' x = hh g x /\ sp g' x = sp g x.
  Lemma lk_keep s' g' x : (fr s <= fr s')%nat -> keepx s' g' x -> linked s g x -> linked s' g' x.
  Proof. intros Hf (E1 & _ & _ & _ & E5 & _) (A & B & C). split; [lia|]. split; congruence. Qed.
  Lemma TG_keep s' g' x y : (fr s <= fr s')%nat -> keepx s' g' x -> TG s g x y -> TG s' g' x y.
  Proof.
    intros Hf H (A & B & C). split; [now apply lk_keep|]. destruct H as (E1 & E2 & E3 & E4 & E5 & E6 & E7 & E8 & E9). rewrite E2, E4, E8. auto.
  Qed.
  Lemma SK_keep s' g' c sk : keepx s' g' c -> SK g c sk -> SK g' c sk.
  Proof. intros (E1 & E2 & E3 & E4 & E5 & E6 & E7 & E8 & E9). unfold SK, aft. now rewrite E6, E7, E9. Qed.
  Lemma SF_keep s' g' y tg n c sk h : (fr s <= fr s')%nat -> keepx s' g' tg -> keepx s' g' n -> keepx s' g' c -> SF s g y tg n c sk h -> SF s' g' y tg n c sk h.
  Proof.
    intros Hf Ht Hn Hc (A & B). split; [now apply (SK_keep s')|]. destruct h.
    - destruct B as (B1 & B2 & B3). split; [now apply lk_keep|]. split; [now apply lk_keep|]. destruct Hn as (E1 & E2 & E3 & E4 & _). destruct Hc as (F1 & F2 & F3 & F4 & F5 & F6 & F7 & F8 & _).
      rewrite E2, E3, E4, F2, F4, F8. exact B3.
    - destruct B as (B1 & B2). split; [destruct Hn as (E1 & _); congruence|now apply TG_keep].
  Qed.
  Lemma after_JI s' g' y w tg n c sk h st q nc : yr y -> SF s' g' y tg n c sk h -> PF s' g' q nc -> NE n q nc -> NE c q nc -> par (nd s' n) <> None -> n <> c ->
    JI s' g' (after_in y w tg n c sk h st q nc).
  Proof. intros Y A B C D E F. destruct h; cbn [after_in JI]; [auto 10|]. split; [exact Y|]. split; [apply A|auto 10]. Qed.
  Lemma after_holds y w tg n c sk h st q nc : holds (after_in y w tg n c sk h st q nc) = [tg; n; c] ++ o2l q ++ n2l nc.
  Proof. now destruct h. Qed.

  Section Split.
    Variables (p : pct) (y w : Z) (tg n c : nat) (sk : Z) (h st : nat).
    Hypothesis E : pcs s t = p.
    Hypothesis Hp : p = WUp y w tg n c sk h st \/ exists q, p = WIn y w tg n c sk h st q.
    Hypothesis HY : yr y.
    Hypothesis HS : SF s g y tg n c sk h.
    Lemma sp_in : In tg (holds p) /\ In n (holds p) /\ In c (holds p).
    Proof. destruct Hp as [Q|(q & Q)]; rewrite Q; cbn; tauto. Qed.
    Lemma sp_pd : pd g n = Some c.
    Proof. apply (have_pd s g t K p n c E). destruct Hp as [Q|(q & Q)]; rewrite Q; reflexivity. Qed.
    Lemma sp_inj m : pd g m = Some c -> m = n.
    Proof. intros Q. apply (to_pd s g t L K p c m E (proj2 (proj2 sp_in))) in Q. destruct Hp as [Q2|(q & Q2)]; rewrite Q2 in Q; cbn in Q; congruence. Qed.
    Lemma sp_nc : n <> c.
    Proof. intros Q. pose proof sp_pd as Q2. destruct (gt_pd _ _ GA _ _ Q2) as (_ & _ & _ & Q3 & _). congruence. Qed.
    Lemma sp_par : par (nd s c) = None.
    Proof. now destruct (gt_pd _ _ GA _ _ sp_pd) as (_ & _ & _ & _ & Q & _). Qed.
    Lemma sp_fr : (tg < fr s)%nat /\ (n < fr s)%nat /\ (c < fr s)%nat.
    Proof. destruct sp_in as (A & B & C). split; [now apply (my_fr s t L p)|]. split; now apply (my_fr s t L p). Qed.
    Lemma sp_us q nc : usof (after_in y w tg n c sk h st q nc) = usof p.
    Proof. destruct Hp as [Q|(r & Q)]; rewrite Q; now destruct h. Qed.
    Lemma sp_ze q nc : zeof (after_in y w tg n c sk h st q nc) = zeof p.
    Proof. destruct Hp as [Q|(r & Q)]; rewrite Q; now destruct h. Qed.
    Lemma sp_rp q nc : rpof p = None /\ rpof (after_in y w tg n c sk h st q nc) = None.
    Proof. destruct Hp as [Q|(r & Q)]; rewrite Q; now destruct h. Qed.
    Lemma sp_pdof q nc : pdof p = Some (n, c) /\ pdof (after_in y w tg n c sk h st q nc) = ncof q nc.
    Proof. destruct Hp as [Q|(r & Q)]; rewrite Q; now destruct h. Qed.
    Lemma sp_LK s' g' q nc : (forall t0, pcs s' t0 = setf (pcs s) t (after_in y w tg n c sk h st q nc) t0) ->
      (forall a d, pd g' a = Some d <-> (pd g a = Some d /\ a <> n) \/ ncof q nc = Some (a, d)) -> us g' = us g -> rp g' = rp g -> ze g' = ze g -> LK s' g'.
    Proof.
      intros Ep A B C D. pose proof sp_pd as Q. destruct (sp_pdof q nc) as (E1 & E2). destruct (sp_rp q nc) as (E3 & E4).
      apply (LK_step s t _ L g g' s' K Ep).
      - intros a d. rewrite A, E, E1, E2. split; intros [H|H]; auto; left; destruct H as (H1 & H2); (split; [exact H1|]); congruence.
      - rewrite B. apply lnk_same; [apply K|]. rewrite E. apply sp_us.
      - rewrite C. apply lnk_none; [now rewrite E|exact E4|reflexivity].
      - rewrite D. apply ze_same; [apply K|]. right. rewrite E. apply sp_ze.
    Qed.

    (* a new internode above n and c *)
    Lemma up_ok po kp s' : let nn := fr s in
      par (nd s n) = po -> (forall q, po = Some q -> nth kp (kids (nd s q)) None = Some n /\ q <> n /\ q <> c /\ isl (nd s q) = false /\ In q (holds p)) ->
      fr s' = S nn -> rootp s' = rootp s ->
      (forall x, isl (nd s' x) = if (x =? nn)%nat then false else isl (nd s x)) ->
      (forall x, ver (nd s' x) = if (x =? nn)%nat then v_new (is_none po) else if is_po po x then v_mins (ver (nd s x)) else ver (nd s x)) ->
      (forall x, par (nd s' x) = if (x =? n)%nat || (x =? c)%nat then Some nn else if (x =? nn)%nat then po else par (nd s x)) ->
      (forall x, keys (nd s' x) = if (x =? nn)%nat then [sk] else keys (nd s x)) ->
      (forall x, kids (nd s' x) = if (x =? nn)%nat then [Some n; Some c] else if is_po po x then set_at kp (Some nn) (kids (nd s x)) else kids (nd s x)) ->
      (forall x, x <> nn -> lo (nd s' x) = lo (nd s x) /\ rws (nd s' x) = rws (nd s x) /\ zk (nd s' x) = zk (nd s x) /\ nxt (nd s' x) = nxt (nd s x) /\ prv (nd s' x) = prv (nd s x)) ->
      (forall t0, pcs s' t0 = setf (pcs s) t (after_in y w tg n c sk h st po None) t0) -> OK s g s' t.
    Proof.
      intros nn Hpar Hat Ef Er Ei Ev Epar Ekeys Ekids El Ep. destruct sp_in as (I1 & I2 & I3). destruct sp_fr as (F1 & F2 & F3).
      assert (Lkd : forall q, po = Some q -> v_lk (ver (nd s q)) = true) by (intros q Q; destruct (Hat q Q) as (_ & _ & _ & _ & Q2); now apply (my_fr s t L p)).
      assert (Hat2 : forall q, po = Some q -> nth kp (kids (nd s q)) None = Some n /\ q <> n /\ q <> c /\ v_lk (ver (nd s q)) = true).
      { intros q Q. destruct (Hat q Q) as (Q1 & Q2 & Q3 & _). auto. }
      assert (Hz : forall a, ze g a = true -> (a < fr s)%nat) by (intros a Q; now destruct (ze_leaf a Q)).
      set (g' := g_up g nn n c).
      assert (AD : Adv s g s' g' t).
      { split; [exact (up_GI s g n c sk po kp s' G sp_pd sp_inj Hpar Hat2 (proj1 HS) Ef Er Ei Ev Epar Ekeys Ekids El Hz)|]. split.
        - exact (up_Rel s g n c sk po kp s' G sp_inj Hpar Hat2 Ef Er Ei Ev Epar Ekeys Ekids El Hz).
        - apply (up_Frame s g t n c sk po kp s' G sp_pd sp_inj Hpar Hat2 Ef Er Ei Ev Epar Ekeys Ekids El Hz (after_in y w tg n c sk h st po None) L); try (rewrite E; assumption); [|exact Ep].
          intros q Q. rewrite E. now apply Hat. }
      assert (Nn : forall x, (x < fr s)%nat -> (x =? nn)%nat = false) by (intros x Hx; apply Nat.eqb_neq; unfold nn; lia).
      assert (KP : forall x, (x < fr s)%nat -> keepx s' g' x).
      { intros x Hx. assert (Nx : x <> nn) by (unfold nn; lia). destruct (El x Nx) as (E1 & E2 & _). unfold keepx. rewrite Ei, Ev, E1, E2. cbn [g' g_up ul l0 ll hh sp]. unfold setf. rewrite (Nn x Hx).
        repeat split; auto. now destruct (is_po po x). }
      apply (Adv_ok p _ s' g' E AD Ep).
      - intros a. rewrite after_holds. cbn [n2l]. rewrite app_nil_r. intros Ha.
        assert (Hb : In a (holds p)). { apply in_app_or in Ha. destruct Ha as [[<-|[<-|[<-|[]]]]|Ha]; auto. destruct po as [q|]; [|destruct Ha]. destruct Ha as [<-|[]]. now apply (Hat q). }
        destruct (my_fr s t L p a E Hb) as (B1 & B2). split; [now left|]. split; [rewrite Ef; unfold nn; lia|]. rewrite Ev, (Nn a B1). destruct (is_po po a); [exact B2|exact B2].
      - apply (sp_LK s' g' po None Ep); try reflexivity. intros a d. assert (Q : ncof po None = None) by (now destruct po). rewrite Q. unfold g', g_up. cbn [pd]. unfold setf.
        destruct (Nat.eqb_spec a n) as [->|N]; (split; [intros H; try discriminate; now left|]). + intros [(_ & H)|H]; congruence. + intros [(H & _)|H]; congruence.
      - apply after_JI; [exact HY| | | | | |exact sp_nc].
        + apply SF_keep; auto. rewrite Ef. unfold nn. lia.
        + destruct po as [q|]; [|exact Logic.I]. cbn [PF]. destruct (Hat q eq_refl) as (_ & _ & _ & Q & Q2). destruct (my_fr s t L p q E Q2) as (Q3 & _). rewrite Ei, (Nn q Q3). auto.
        + intros a Ha. destruct po as [q|]; [|destruct Ha]. destruct Ha as [<-|[]]. now apply (Hat q).
        + intros a Ha. destruct po as [q|]; [|destruct Ha]. destruct Ha as [<-|[]]. now apply (Hat q).
        + rewrite Epar, Nat.eqb_refl. discriminate.
    Qed.
    Lemma root_ok : par (nd s n) = None -> OK s g (new_root s t y w tg n c sk h st) t.
    Proof.
      intros Hpar. destruct sp_fr as (F1 & F2 & F3). pose proof sp_nc as Nnc. apply (up_ok None 0 _ Hpar); try reflexivity.
      - intros q Q. discriminate.
      - intros x. unfold new_root. pw.
      - intros x. unfold new_root. pw.
      - intros x. unfold new_root. pw.
      - intros x. unfold new_root. pw.
      - intros x. unfold new_root. pw.
      - intros x Hx. unfold new_root. revert Hx. pw; intros Hx; try contradiction; repeat split.
    Qed.
    (* the parent has room *)
    Lemma sp_pdone g' q (pd1 : nat -> option nat) : (forall a, pd1 a = setf (pd g) n None a) -> pd g' = pd1 ->
      forall a d, pd g' a = Some d <-> (pd g a = Some d /\ a <> n) \/ ncof (Some q) None = Some (a, d).
    Proof.
      intros A B a d. rewrite B, A. cbn [ncof]. unfold setf. destruct (Nat.eqb_spec a n) as [->|N]; (split; [intros H; try discriminate; now left|]).
      - intros [(_ & H)|H]; congruence.
      - intros [(H & _)|H]; congruence.
    Qed.
    Variable q : nat.
    Let x := nd s q.
    Let kp := upper sk (keys x).
    Let ks1 := ins_at kp sk (keys x).
    Let cs1 := ins_at (S kp) (Some c) (kids x).
    Hypothesis Hq : In q (holds p).
    Hypothesis Hqi : isl x = false.
    Hypothesis Hqn : q <> n.
    Hypothesis Hqc : q <> c.
    Hypothesis Hat : nth kp (kids x) None = Some n.
    Lemma in_par : par (nd s n) = Some q.
    Proof. destruct (my_fr s t L p q E Hq) as (A & _). exact (proj2 (gt_kid _ _ GA q n A Hqi (kid_in _ _ _ Hat))). Qed.
    Lemma in_chg s' v : v = v_mins (ver x) ->
      fr s' = fr s -> rootp s' = rootp s -> (forall t', t' <> t -> pcs s' t' = pcs s t') ->
      (forall z, nd s' z = if (z =? c)%nat then with_par (nd s c) (Some q) else if (z =? q)%nat then with_kk (with_ver x v) ks1 cs1 else nd s z) ->
      chg s s' t q (v_mins (ver (nd s q))) ks1 cs1 (Some c).
    Proof.
      intros -> E1 E2 E3 E4. assert (E5 : forall z, z <> c -> nd s' z = if (z =? q)%nat then with_kk (with_ver x (v_mins (ver x))) ks1 cs1 else nd s z).
      { intros z N. rewrite E4. now destruct (Nat.eqb_spec z c). }
      split; [exact E1|]. split; [exact E2|].
      assert (H : forall z, (z = c /\ nd s' z = with_par (nd s c) (Some q)) \/ (z = q /\ z <> c /\ nd s' z = with_kk (with_ver x (v_mins (ver x))) ks1 cs1) \/ (z <> q /\ z <> c /\ nd s' z = nd s z)).
      { intros z. destruct (Nat.eq_dec z c) as [->|N]; [left; split; [reflexivity|]; rewrite E4, Nat.eqb_refl; reflexivity|]. right. rewrite (E5 z N).
        destruct (Nat.eqb_spec z q) as [->|N2]; auto. }
      repeat split; try (intros t' Ht; now apply E3); try intros z; try (destruct (H z) as [(-> & Q)|[(-> & N & Q)|(N & N2 & Q)]]; rewrite Q);
        repeat (match goal with |- context[(?a =? ?b)%nat] => destruct (Nat.eqb_spec a b) end); try reflexivity; try congruence.
      all: match goal with H : forall z : nat, _ \/ _ |- _ (nd _ ?z) = _ (nd s ?z) => destruct (H z) as [(-> & Q)|[(-> & N & Q)|(N & N2 & Q)]]; rewrite Q; reflexivity end.
    Qed.
    Lemma room_ok s' : fr s' = fr s -> rootp s' = rootp s -> (forall t0, pcs s' t0 = setf (pcs s) t (after_in y w tg n c sk h st (Some q) None) t0) ->
      (forall z, nd s' z = if (z =? c)%nat then with_par (nd s c) (Some q) else if (z =? q)%nat then with_kk (with_ver x (v_mins (ver x))) ks1 cs1 else nd s z) ->
      OK s g s' t.
    Proof.
      intros Ef Er Ep En. destruct sp_in as (I1 & I2 & I3). destruct sp_fr as (F1 & F2 & F3). destruct (my_fr s t L p q E Hq) as (Hf & Hk).
      assert (Ep2 : forall t', t' <> t -> pcs s' t' = pcs s t') by (intros t' N; rewrite Ep; now apply setf_other).
      pose proof (in_chg s' _ eq_refl Ef Er Ep2 En) as HC.
      pose proof (plain_adv s g t n c q sk kp s' G sp_pd sp_inj in_par Hat Hk (conj Hqn Hqc) (proj1 HS) HC (my_own s t L p q E Hq) ze_leaf) as AD.
      set (g' := g_pr g q (setf (pd g) n None) (rp g)) in *. pose proof HC as (_ & _ & Ei & Ev & _ & _ & Epar & El & _).
      assert (KP : forall z, keepx s' g' z).
      { intros z. destruct (El z) as (E1 & E2 & _). unfold keepx. unfold g'. rewrite Ei, Ev, E1, E2, gp_l0, gp_ll, gp_sp. repeat split. now destruct (Nat.eqb_spec z q) as [->|]. }
      assert (Pn : par (nd s' n) = Some q). { rewrite Epar. destruct (Nat.eqb_spec n c) as [Q|_]; [destruct (sp_nc Q)|]. exact in_par. }
      apply (Adv_ok p _ s' g' E AD Ep).
      - intros a. rewrite after_holds. cbn [n2l o2l app]. intros Ha. assert (Hb : In a (holds p)) by (destruct Ha as [<-|[<-|[<-|[<-|[]]]]]; auto).
        destruct (my_fr s t L p a E Hb) as (B1 & B2). split; [now left|]. rewrite Ef, Ev. split; [exact B1|]. destruct (Nat.eqb_spec a q) as [->|]; assumption.
      - apply (sp_LK s' g' (Some q) None Ep); try reflexivity. apply (sp_pdone g' q (setf (pd g) n None)); reflexivity.
      - apply after_JI; [exact HY| | | | | |exact sp_nc].
        + apply SF_keep; auto. rewrite Ef. lia.
        + cbn [PF]. rewrite Ei. auto.
        + intros a [<-|[]]. exact Hqn.
        + intros a [<-|[]]. exact Hqc.
        + congruence.
    Qed.
    (* the parent is split *)
    Lemma full_ok mid s' : let nr := fr s in (1 <= mid <= length (keys x))%nat ->
      fr s' = S nr -> rootp s' = rootp s ->
      (forall t0, pcs s' t0 = setf (pcs s) t (after_in y w tg n c sk h st (Some q) (Some (nr, nth mid ks1 0))) t0) ->
      (forall z, exists o, nd s' z = with_par (if (z =? nr)%nat then new_inter (v_nonroot (v_mins (ver x))) None (skipn (S mid) ks1) (skipn (S mid) cs1) (S h)
                     else if (z =? q)%nat then with_kk (with_ver x (v_mspl (v_mins (ver x)))) (firstn mid ks1) (firstn (S mid) cs1) else nd s z) o /\
        (In (Some z) (skipn (S mid) cs1) -> o = Some nr) /\ (~ In (Some z) (skipn (S mid) cs1) -> o = if (z =? nr)%nat then None else if (z =? c)%nat then Some q else par (nd s z))) ->
      OK s g s' t.
    Proof.
      intros nr Hmid Ef Er Ep En. destruct sp_in as (I1 & I2 & I3). destruct sp_fr as (F1 & F2 & F3). destruct (my_fr s t L p q E Hq) as (Hf & Hk).
      set (si := put (put s q (with_kk (with_ver x (v_mins (ver x))) ks1 cs1)) c (with_par (nd s c) (Some q))).
      assert (Esi : forall z, nd si z = if (z =? c)%nat then with_par (nd s c) (Some q) else if (z =? q)%nat then with_kk (with_ver x (v_mins (ver x))) ks1 cs1 else nd s z).
      { intros z. unfold si, put, setf. cbn [nd]. reflexivity. }
      pose proof (in_chg si _ eq_refl eq_refl eq_refl (fun _ _ => eq_refl) Esi) as HC.
      pose proof (plain_adv s g t n c q sk kp si G sp_pd sp_inj in_par Hat Hk (conj Hqn Hqc) (proj1 HS) HC (my_own s t L p q E Hq) ze_leaf) as AD.
      set (g1 := g_pr g q (setf (pd g) n None) (rp g)) in *. pose proof HC as (_ & _ & Ei & Ev & Ekeys & Ekids & Epar & El & _).
      pose proof (Ekeys q) as Kq. rewrite Nat.eqb_refl in Kq. pose proof (Ekids q) as Cq. rewrite Nat.eqb_refl in Cq. pose proof (Ev q) as Vq. rewrite Nat.eqb_refl in Vq.
      assert (Lks : length ks1 = S (length (keys x))).
      { unfold ks1, ins_at. rewrite app_length. cbn [length]. rewrite firstn_length, skipn_length. pose proof (upper_le sk (keys x)). fold kp in H. lia. }
      assert (Cin : forall z, In (Some z) cs1 -> (z < fr s)%nat).
      { intros z Hz. unfold cs1 in Hz. apply in_ins in Hz. destruct Hz as [Hz|Hz]; [injection Hz as ->; exact F3|]. now apply (gt_kid _ _ GA q z Hf Hqi). }
      assert (Nr : forall z, (z < fr s)%nat -> (z =? nr)%nat = false) by (intros z Hz; apply Nat.eqb_neq; unfold nr; lia).
      assert (Ng : ~ In (Some nr) (skipn (S mid) cs1)) by (intros Q; apply in_skipn, Cin in Q; unfold nr in Q; lia).
      assert (FD : forall z, isl (nd s' z) = (if (z =? nr)%nat then false else isl (nd s z)) /\
        ver (nd s' z) = (if (z =? nr)%nat then v_nonroot (v_mins (ver x)) else if (z =? q)%nat then v_mspl (v_mins (ver x)) else ver (nd s z)) /\
        keys (nd s' z) = (if (z =? nr)%nat then skipn (S mid) ks1 else if (z =? q)%nat then firstn mid ks1 else keys (nd s z)) /\
        kids (nd s' z) = (if (z =? nr)%nat then skipn (S mid) cs1 else if (z =? q)%nat then firstn (S mid) cs1 else kids (nd s z)) /\
        ((z < fr s)%nat -> lo (nd s' z) = lo (nd s z) /\ rws (nd s' z) = rws (nd s z) /\ zk (nd s' z) = zk (nd s z) /\ nxt (nd s' z) = nxt (nd s z) /\ prv (nd s' z) = prv (nd s z)) /\
        (In (Some z) (skipn (S mid) cs1) -> par (nd s' z) = Some nr) /\ (~ In (Some z) (skipn (S mid) cs1) -> par (nd s' z) = if (z =? nr)%nat then None else if (z =? c)%nat then Some q else par (nd s z))).
      { intros z. destruct (En z) as (o & O1 & O2 & O3). rewrite O1. cbn [par with_par].
        destruct (Nat.eqb_spec z nr) as [Q|Q]; [subst z; repeat split; auto; intros; unfold nr in *; lia|]. destruct (Nat.eqb_spec z q) as [Q2|Q2]; [subst z; repeat split; auto|repeat split; auto]. }
      assert (Pq : pd g1 q = None).
      { cbn. rewrite setf_other by congruence. apply (no_pd s g t L K p q E Hq). intros d Q. destruct (sp_pdof None None) as (Q2 & _). rewrite Q2 in Q. congruence. }
      assert (Pq2 : forall z, pd g1 z <> Some q).
      { intros z Q. cbn in Q. unfold setf in Q. destruct (Nat.eqb_spec z n); [discriminate|]. apply (to_pd s g t L K p q z E Hq) in Q. destruct (sp_pdof None None) as (Q2 & _). rewrite Q2 in Q. congruence. }
      assert (Zs : forall a, ze g1 a = true -> (a < fr si)%nat /\ isl (nd si a) = true) by (intros a Q; rewrite Ei; now apply ze_leaf).
      assert (IA : exists f, let g' := g_side g1 q (fr si) (ll g1 f) (l0 g1 f) (nth mid (keys (nd si q)) 0) (us g1) (ul g1) in Adv si g1 s' g' t /\ SK g' (fr si) (nth mid (keys (nd si q)) 0)).
      { apply (isplit_adv si g1 t q mid s' (proj1 AD)); auto; try (rewrite ?Kq, ?Cq, ?Vq, ?Lks).
        - rewrite Ei. exact Hqi.
        - exact Hk.
        - lia.
        - intros z. rewrite Ei. apply FD.
        - intros z. change (fr si) with nr. rewrite (Ev z). destruct (FD z) as (_ & Q & _). rewrite Q. now destruct (z =? nr)%nat; destruct (z =? q)%nat.
        - intros z. change (fr si) with nr. rewrite (Ekeys z). destruct (FD z) as (_ & _ & Q & _). rewrite Q. now destruct (z =? nr)%nat; destruct (z =? q)%nat.
        - intros z. change (fr si) with nr. rewrite (Ekids z). destruct (FD z) as (_ & _ & _ & Q & _). rewrite Q. now destruct (z =? nr)%nat; destruct (z =? q)%nat.
        - change (fr si) with nr. destruct (FD nr) as (_ & _ & _ & _ & _ & _ & Q). rewrite (Q Ng), Nat.eqb_refl. reflexivity.
        - intros z. apply FD.
        - intros z Nz Q. change (fr si) with nr in Nz. destruct (FD z) as (_ & _ & _ & _ & _ & _ & Q2). rewrite (Q2 Q), Epar. destruct (Nat.eqb_spec z nr); [contradiction|reflexivity].
        - intros z Hz. destruct (El z) as (E1 & E2 & E3 & E4 & E5). rewrite E1, E2, E3, E4, E5. now apply FD.
        - intros t' a N Ha. split; [exact (proj1 (proj1 L t' a Ha))|]. intros ->. exact (my_own s t L p q E Hq t' N Ha).
        - intros t' N. rewrite Ep. now apply setf_other. }
      destruct IA as (f & AD2 & SKr). rewrite Kq in AD2, SKr. change (fr si) with nr in AD2, SKr.
      set (g' := g_side g1 q nr (ll g1 f) (l0 g1 f) (nth mid ks1 0) (us g1) (ul g1)) in *.
      assert (AT : Adv s g s' g' t).
      { apply (Adv_trans s g si g1 s' g' t AD AD2). intros a Ha. rewrite (Ev a). destruct (FD a) as (_ & Q & _). rewrite Q, (Nr a Ha). destruct (Nat.eqb_spec a q) as [->|]; [|auto]. cbn. split; [discriminate|].
        unfold v_dirty. cbn. discriminate. }
      assert (KP : forall z, (z < fr s)%nat -> z <> q -> keepx s' g' z).
      { intros z Hz Nz. destruct (FD z) as (Q1 & Q2 & _ & _ & Q3 & _). destruct (Q3 Hz) as (Q4 & Q5 & _). unfold keepx. rewrite Q1, Q2, Q4, Q5, (Nr z Hz).
        destruct (Nat.eqb_spec z q); [contradiction|]. unfold g', g_side. cbn [ul l0 ll hh sp]. rewrite !setf_other by (auto; unfold nr; lia). unfold g1. rewrite gp_l0, gp_ll, gp_sp. repeat split. }
      assert (Ntq : tg <> q).
      { intros Q. destruct HS as (_ & HS2). clear - HS2 Q Hqi Hqn Hqc. unfold x in Hqi. destruct h.
        - destruct HS2 as (_ & _ & _ & A & _). destruct (y <? sk); congruence.
        - destruct HS2 as (_ & ((_ & A & _) & _)). congruence. }
      apply (Adv_ok p _ s' g' E AT Ep).
      - intros a. rewrite after_holds. cbn [n2l o2l app]. intros Ha. destruct (Nat.eq_dec a nr) as [->|Na].
        + split; [right; left; unfold nr; lia|]. split; [rewrite Ef; lia|]. destruct (FD nr) as (_ & Q & _). rewrite Q, Nat.eqb_refl. exact Hk.
        + assert (Hb : In a (holds p)) by (destruct Ha as [<-|[<-|[<-|[<-|[Q|[]]]]]]; auto; congruence). destruct (my_fr s t L p a E Hb) as (B1 & B2). split; [now left|]. split; [rewrite Ef; unfold nr; lia|].
          destruct (FD a) as (_ & Q & _). rewrite Q, (Nr a B1). destruct (Nat.eqb_spec a q) as [->|]; [exact Hk|exact B2].
      - apply (sp_LK s' g' _ _ Ep); try reflexivity. intros a d. unfold g', g_side. cbn [pd ncof]. change (pd g1) with (setf (pd g) n None). unfold setf at 1. destruct (Nat.eqb_spec a q) as [->|Na].
        + split; [intros Q; right; congruence|]. intros [(Q & _)|Q]; [|congruence]. cbn in Pq. rewrite setf_other in Pq by congruence. congruence.
        + unfold setf. destruct (Nat.eqb_spec a n) as [->|N]; (split; [intros H; try discriminate; now left|]).
          * intros [(_ & H)|H]; congruence.
          * intros [(H & _)|H]; congruence.
      - apply after_JI; [exact HY| | | | | |exact sp_nc].
        + apply SF_keep; auto. rewrite Ef. unfold nr. lia.
        + cbn [PF]. destruct (FD q) as (Q & _). rewrite Q, (Nr q Hf). auto.
        + intros a [<-|[<-|[]]]; [exact Hqn|unfold nr; lia].
        + intros a [<-|[<-|[]]]; [exact Hqc|unfold nr; lia].
        + destruct (FD n) as (_ & _ & _ & _ & _ & Q1 & Q2). destruct (in_dec (fun a b : option nat => ltac:(decide equality; apply Nat.eq_dec)) (Some n) (skipn (S mid) cs1)) as [Q|Q].
          * rewrite (Q1 Q). discriminate.
          * rewrite (Q2 Q), (Nr n F2). destruct (Nat.eqb_spec n c) as [Q3|_]; [destruct (sp_nc Q3)|]. rewrite in_par. discriminate.
    Qed.
  End Split.

End Core.
