(* Concurrent layer: removals of nodes keep the invariant. *)
From Verif Require Import Lib M_Tree M_Stampc P_Stampc1 M_Conc P_Conc1 P_Conc2 P_Conc3 P_Conc4 P_Conc5 P_Conc6 P_Conc7 P_Conc8 P_Conc9 P_Conc10 P_Conc13 P_Conc14 P_Conc15 P_Conc16.

Section Core.
  Variables (s : cst) (g : gst) (t : nat).
  Hypothesis G : GI s g.
  Hypothesis L : LI s.
  Hypothesis K : LK s g.
  Hypothesis JA : forall t, JI s g (pcs s t).
  Let GA := gi_t _ _ G.
  Let GB := gi_l _ _ G.
  Let GC := gi_v _ _ G.

  Lemma LK_plain p p' s' g' : pcs s t = p -> (forall t0, pcs s' t0 = setf (pcs s) t p' t0) ->
    pdof p = None -> pdof p' = None -> usof p = None -> usof p' = None -> zeof p = None ->
    (forall a, pd g' a = pd g a) -> us g' = us g -> ze g' = ze g -> lnk s t p' rpof (rp g) (rp g') -> LK s' g'.
  Proof.
    intros E Ep H1 H2 H3 H4 H5 E1 E2 E3 HR. apply (LK_step s t p' L g g' s' K Ep).
    - apply lnk_none; [now rewrite E|exact H2|exact E1].
    - apply lnk_none; [now rewrite E|exact H4|now rewrite E2].
    - exact HR.
    - rewrite E3. apply ze_same; [apply K|]. left. now rewrite E.
  Qed.

  Lemma unlink_ok y r n : pcs s t = DUnlink y r n -> JI s g (DUnlink y r n) ->
    let x := nd s n in
    let s1 := match prv x with Some a => put s a (with_nxt (nd s a) (nxt x)) | None => s end in
    let s2 := match nxt x with Some b => put s1 b (with_prv (nd s1 b) (prv x)) | None => s1 end in
    OK s g (go s2 t (DUp y r n (lo x) None)) t.
  Proof.
    intros E J x s1 s2. cbn [JI] in J. destruct J as (A & B & Hd). assert (Hin : In n (holds (DUnlink y r n))) by now left.
    destruct (my_fr s t L _ n E Hin) as (Hf & Hk). set (s' := go s2 t (DUp y r n (lo x) None)).
    assert (N0 : forall z, isl (nd s' z) = isl (nd s z) /\ ver (nd s' z) = ver (nd s z) /\ keys (nd s' z) = keys (nd s z) /\ kids (nd s' z) = kids (nd s z) /\ par (nd s' z) = par (nd s z) /\
        lo (nd s' z) = lo (nd s z) /\ rws (nd s' z) = rws (nd s z) /\ zk (nd s' z) = zk (nd s z)).
    { intros z. unfold s', s2, s1, x. destruct (prv (nd s n)) as [a|], (nxt (nd s n)) as [b|]; pw; repeat split. }
    assert (Ef : fr s' = fr s) by (unfold s', s2, s1, x; destruct (prv (nd s n)) as [a|], (nxt (nd s n)) as [b|]; reflexivity).
    assert (Ep : forall t0, pcs s' t0 = setf (pcs s) t (DUp y r n (lo x) None) t0) by (intros t0; unfold s', s2, s1, x; destruct (prv (nd s n)) as [a|], (nxt (nd s n)) as [b|]; reflexivity).
    destruct (unlink_adv s g t n s' G A B Hd) as (AD & U1 & U2); auto.
    - intros z Q. pose proof (to_us s g t L K _ n z E Hin Q). discriminate.
    - unfold s', s2, s1, x; destruct (prv (nd s n)) as [a|], (nxt (nd s n)) as [b|]; reflexivity.
    - intros z. unfold s', s2, s1, x. destruct (prv (nd s n)) as [a|], (nxt (nd s n)) as [b|]; pw.
    - intros z. unfold s', s2, s1, x. destruct (prv (nd s n)) as [a|], (nxt (nd s n)) as [b|]; pw.
    - intros t' a N Ha ->. exact (my_own s t L _ n E Hin t' N Ha).
    - intros t' N. rewrite Ep. now apply setf_other.
    - destruct (gl_leaf _ _ GB n Hf (proj1 (proj2 A))) as (Q1 & _). destruct (gt_num _ _ GA n Hf) as (Q2 & _).
      apply (Adv_ok s g t L _ _ s' _ E AD Ep).
      + intros a [<-|[]]. split; [now left|]. destruct (N0 n) as (_ & Q & _). rewrite Ef, Q. auto.
      + apply (LK_plain _ _ s' _ E Ep); try reflexivity. apply lnk_none; [now rewrite E|reflexivity|reflexivity].
      + cbn [JI]. destruct (N0 n) as (N1 & _ & _ & _ & N5 & _). unfold DF. rewrite N1, N5. split; [intros _; auto|]. split; [intros Q; destruct A as (_ & A & _); congruence|].
        split; [intros _; unfold g_unl; cbn [l0]; lia|]. intros Q. destruct (gt_root2 _ _ GA n Hf Q) as [(m & Q3)|(Q3 & _)]; [|lia].
        pose proof (to_pd s g t L K _ n m E Hin Q3). discriminate.
  Qed.

  Lemma dnext_ok y r p ik : pcs s t = DNext y r p ik -> JI s g (DNext y r p ik) -> keys (nd s p) = [] -> v_rt (ver (nd s p)) = false ->
    OK s g (go (put s p (with_kk (with_ver (nd s p) (v_mdel (ver (nd s p)))) [] [None])) t (DUp y r p ik (ofirst (kids (nd s p))))) t.
  Proof.
    intros E J HK Hr. cbn [JI] in J. destruct J as (A & B). assert (Hin : In p (holds (DNext y r p ik))) by now left.
    destruct (my_fr s t L _ p E Hin) as (Hf & Hk). set (s' := go _ t _). pose proof (my_own s t L _ p E Hin) as HO.
    assert (Rp : rp g p = None) by (apply (no_rp s g t L K _ p E Hin); discriminate).
    assert (Pp : par (nd s p) <> None).
    { intros Q. destruct (gv_root3 _ _ GC p Hf Q) as (Q2 & _); [| |congruence].
      - intros m Q2. pose proof (to_pd s g t L K _ p m E Hin Q2). discriminate.
      - apply (no_pd s g t L K _ p E Hin). discriminate. }
    assert (HC : chg s s' t p (v_mdel (ver (nd s p))) [] [None] None).
    { split; [reflexivity|]. split; [reflexivity|]. split; [intros z; unfold s'; pw|]. split; [intros z; unfold s'; pw|]. split; [intros z; unfold s'; pw|]. split; [intros z; unfold s'; pw|].
      split; [intros z; unfold s'; pw|]. split; [intros z; unfold s'; pw; repeat split|]. intros t' N. unfold s'. cbn [go pcs put]. now apply setf_other. }
    assert (Ep : forall t0, pcs s' t0 = setf (pcs s) t (DUp y r p ik (ofirst (kids (nd s p)))) t0) by reflexivity.
    pose proof (dnext_adv s g t p s' G Hf A Hk HK Rp Pp HC HO (ze_leaf s g K JA)) as AD. pose proof AD as (_ & RL & _).
    destruct (gt_int _ _ GA p Hf A) as (k0 & tl & K1 & _).
    apply (Adv_ok s g t L _ _ s' _ E AD Ep).
    - intros a [<-|[]]. split; [now left|]. split; [exact Hf|]. destruct HC as (_ & _ & _ & Q & _). rewrite Q, Nat.eqb_refl. exact Hk.
    - apply (LK_plain _ _ s' _ E Ep); try reflexivity. rewrite K1. cbn [ofirst]. destruct k0 as [c|].
      + apply (lnk_on s t _ rpof _ _ p c); [now rewrite E|reflexivity|reflexivity|exact Rp].
      + apply lnk_none; [now rewrite E|reflexivity|]. intros a. cbn. unfold setf. destruct (Nat.eqb_spec a p) as [->|]; auto.
    - cbn [JI]. destruct HC as (_ & _ & Q1 & _ & _ & Q2 & _). unfold DF. rewrite Q1, Q2, Nat.eqb_refl, gp_l0. split; [congruence|]. split; [reflexivity|].
      split; [|exact (rl_par _ _ _ _ RL p Hf Pp)]. rewrite K1. cbn [ofirst]. intros ->. exact (gv_n0 _ _ GC p tl Hf A B K1).
  Qed.

  Lemma dup_par y r n ik rep : JI s g (DUp y r n ik rep) -> par (nd s n) <> None.
  Proof. cbn [JI]. unfold DF. tauto. Qed.
  Lemma dred_par y r n p cur ik rik : pcs s t = DRed y r n p cur ik rik -> JI s g (DRed y r n p cur ik rik) -> par (nd s cur) <> None.
  Proof.
    intros E J Q. cbn [JI] in J. assert (Hin : In cur (holds (DRed y r n p cur ik rik))) by (cbn; tauto). destruct (my_fr s t L _ cur E Hin) as (Hf & _).
    destruct (gt_root2 _ _ GA cur Hf Q) as [(m & Q3)|(Q3 & _)]; [|lia]. pose proof (to_pd s g t L K _ cur m E Hin Q3). discriminate.
  Qed.

  Lemma redw_ok y r n p cur p2 ik rik s' : pcs s t = DRedW y r n p cur p2 ik rik -> JI s g (DRedW y r n p cur p2 ik rik) ->
    step s t Go = Some s' -> misp s' = false -> OK s g s' t.
  Proof.
    intros E J ST M. cbn [JI] in J. destruct J as (A1 & A2 & A3 & A4 & A5 & A6 & A7 & A8 & A9 & A10).
    assert (Hin : In p2 (holds (DRedW y r n p cur p2 ik rik))) by (cbn; tauto). destruct (my_fr s t L _ p2 E Hin) as (Hf & Hk). pose proof (my_own s t L _ p2 E Hin) as HO.
    unfold step in ST. rewrite E in ST. cbv zeta in ST. set (x := nd s p2) in *. set (kp := upper ik (keys x)) in *.
    injection ST as <-. assert (Hat : nth kp (kids x) None = Some cur).
    { apply is_at_iff. destruct (kp =? 0)%nat; unfold go, put, misplace in M; cbn [misp] in M; rewrite orb_false_iff, negb_false_iff in M; tauto. }
    clear M. assert (Hi : In (Some cur) (kids x)) by (eapply kid_in; eassumption). assert (Hrik : 0 < rik) by (destruct A10; lia).
    destruct (gt_int _ _ GA p2 Hf A4) as (k0 & tl & K1 & K2 & K3). fold x in K1, K2.
    assert (ZL := ze_leaf s g K JA).
    destruct kp as [|i] eqn:Ek; cbn [Nat.eqb orb].
    - rewrite K1 in Hat. cbn [nth] in Hat. subst k0. set (s' := go _ t _).
      assert (AD : Adv s g s' g t) by (apply Adv_quiet; auto; intros t0 N; now apply setf_other).
      destruct (lower_adv s' g t p2 cur rik (proj1 AD) Hf A4 Hk) as (AD2 & RF2); auto.
      + cbn [s' go nd misplace]. fold x. now rewrite K1.
      + apply A10.
      + apply A10.
      + intros t' N. replace (pcs s' t') with (pcs s t') by (symmetry; now apply setf_other). now apply HO.
      + assert (AT : Adv s g s' _ t) by (apply (Adv_trans s g s' g s' _ t AD AD2); auto).
        apply (Adv_ok s g t L _ (DRed y r n p p2 ik rik) s' _ E AT).
        * reflexivity.
        * intros a Ha. assert (Hb : In a (holds (DRedW y r n p cur p2 ik rik))) by exact Ha. split; [now left|]. exact (my_fr s t L _ a E Hb).
        * apply (LK_plain _ (DRed y r n p p2 ik rik) s' _ E); try reflexivity. apply lnk_none; [now rewrite E|reflexivity|reflexivity].
        * cbn [JI]. repeat (split; [assumption || congruence|]). split; [|exact RF2]. cbn [g_one l0]. rewrite setf_same. specialize (K3 cur eq_refl). lia.
    - replace (S i - 1)%nat with i by lia. set (nx := if _ && _ then _ else _).
      set (s' := go _ t _).
      assert (HC : chg s s' t p2 (ver (nd s p2)) (set_at i rik (keys (nd s p2))) (kids (nd s p2)) None).
      { split; [reflexivity|]. split; [reflexivity|]. split; [intros z; unfold s', x; pw|]. split; [intros z; unfold s', x; pw|]. split; [intros z; unfold s', x; pw|]. split; [intros z; unfold s', x; pw|].
        split; [intros z; unfold s', x; pw|]. split; [intros z; unfold s', x; pw; repeat split|]. intros t' N. unfold s'. cbn [go pcs put misplace]. now apply setf_other. }
      destruct (redw_adv s g t p2 cur i rik s' G Hf A4 Hk Hat A10 HC HO ZL) as (AD & RF2).
      set (g' := g_pr g p2 (pd g) (rp g)) in *.
      destruct HC as (_ & _ & C1 & C2 & C3 & C4 & _).
      assert (Hd : v_del (ver x) = false) by exact (kid_del s g p2 cur G Hf A4 Hi).
      assert (V : forall a, ver (nd s' a) = ver (nd s a)) by (intros a; rewrite C2; now destruct (Nat.eqb_spec a p2) as [->|]).
      assert (HH : forall a, In a (holds nx) -> In a (holds (DRedW y r n p cur p2 ik rik))) by (unfold nx; intros a Ha; destruct (_ && _); exact Ha).
      assert (Ep : forall t0, pcs s' t0 = setf (pcs s) t nx t0) by reflexivity.
      assert (HL : forall a, In a (holds nx) -> (In a (holds (DRedW y r n p cur p2 ik rik)) \/ (fr s <= a)%nat \/ v_lk (ver (nd s a)) = false) /\ (a < fr s')%nat /\ v_lk (ver (nd s' a)) = true).
      { intros a Ha. apply HH in Ha. split; [now left|]. rewrite V. exact (my_fr s t L _ a E Ha). }
      clearbody s'. destruct ((i =? 0)%nat && is_none (ofirst (kids x))) eqn:EC; subst nx.
      + rewrite andb_true_iff, Nat.eqb_eq in EC. destruct EC as (E1 & E2). subst i.
        rewrite K1 in E2. cbn [ofirst is_none] in E2. destruct k0 as [|]; [discriminate|].
        assert (L0 : 0 < l0 g p2) by exact (gv_n0 _ _ GC p2 tl Hf A4 Hd K1).
        destruct (lower_adv s' g' t p2 cur rik (proj1 AD)) as (AD2 & RF3); auto.
        * pose proof (rl_fr _ _ _ _ (proj1 (proj2 AD))). lia.
        * now rewrite C1.
        * now rewrite V.
        * rewrite C4, Nat.eqb_refl. fold x. rewrite K1 in Hat |- *. cbn [nth] in Hat. destruct tl as [|o tl]; [discriminate|]. cbn [nth] in Hat. now rewrite Hat.
        * apply RF2.
        * apply RF2.
        * intros t' N. rewrite Ep, setf_other by assumption. now apply HO.
        * intros a Ha. rewrite C1. pose proof (rl_fr _ _ _ _ (proj1 (proj2 AD))). destruct (ZL a Ha). split; [lia|assumption].
        * assert (AT : Adv s g s' _ t) by (apply (Adv_trans s g s' g' s' _ t AD AD2); auto).
          apply (Adv_ok s g t L _ _ s' _ E AT Ep HL).
          -- apply (LK_plain _ _ s' _ E Ep); try reflexivity. apply lnk_none; [now rewrite E|reflexivity|reflexivity].
          -- cbn [JI]. rewrite !C1, V. repeat (split; [assumption || congruence|]). split; [|exact RF3]. cbn [g_one l0]. rewrite setf_same. unfold g'. rewrite gp_l0. lia.
      + apply (Adv_ok s g t L _ _ s' _ E AD Ep HL).
        * apply (LK_plain _ _ s' _ E Ep); try reflexivity. apply lnk_none; [now rewrite E|reflexivity|reflexivity].
        * cbn [JI]. rewrite !C1, V. auto 10.
  Qed.

  Lemma out_ok y r n ik rep p : pcs s t = DIn y r n ik rep p -> JI s g (DIn y r n ik rep p) -> misp (out_parent s t y r n ik rep p) = false ->
    OK s g (out_parent s t y r n ik rep p) t.
  Proof.
    intros E J M. cbn [JI] in J. destruct J as (D & A & B). assert (Hin : In p (holds (DIn y r n ik rep p))) by (cbn; tauto). assert (Hn : In n (holds (DIn y r n ik rep p))) by (cbn; tauto).
    destruct (my_fr s t L _ p E Hin) as (Hf & Hk). pose proof (my_own s t L _ p E Hin) as HO. destruct (my_fr s t L _ n E Hn) as (Hnf & Hnk). pose proof (my_own s t L _ n E Hn) as HOn.
    assert (ZL := ze_leaf s g K JA). unfold out_parent in *. set (x := nd s p) in *. set (kp := upper ik (keys x)) in *.
    set (kc := match rep with Some _ => (keys x, set_at kp rep (kids x)) | None => if (kp =? 0)%nat then (keys x, set_at 0 None (kids x)) else (del_at (kp - 1) (keys x), del_at kp (kids x)) end) in *.
    destruct kc as (ks, cs) eqn:Ekc. set (nx := if _ && _ && _ then _ else _) in *. set (s' := go _ t nx) in *.
    assert (Hat : nth kp (kids x) None = Some n).
    { apply is_at_iff. unfold s', go, setpar, put, misplace, vput in M. destruct rep; cbn [misp] in M; unfold put in M; cbn [misp] in M; rewrite orb_false_iff, negb_false_iff in M; tauto. }
    clear M. assert (Hi : In (Some n) (kids x)) by (eapply kid_in; eassumption). destruct (gt_kid _ _ GA p n Hf A Hi) as (_ & Pn).
    assert (Hd : v_del (ver x) = false) by exact (kid_del s g p n G Hf A Hi).
    assert (Pd : pd g n = None) by (apply (no_pd s g t L K _ n E Hn); discriminate).
    assert (HC : chg s s' t p (v_mins (ver (nd s p))) ks cs rep).
    { unfold s'. clear Ekc kc. clearbody nx kp. split; [destruct rep; reflexivity|]. split; [destruct rep; reflexivity|]. split; [intros z; destruct rep; unfold x; pw|]. split; [intros z; destruct rep; unfold x; pw|]. split; [intros z; destruct rep; unfold x; pw|]. split; [intros z; destruct rep; unfold x; pw|].
      split; [intros z; destruct rep; unfold x; pw|]. split; [intros z; destruct rep; unfold x; pw; repeat split|]. intros t' N. destruct rep; cbn [go pcs put setpar misplace]; now apply setf_other. }
    assert (Ep : forall t0, pcs s' t0 = setf (pcs s) t nx t0) by (intros t0; unfold s'; destruct rep; reflexivity).
    assert (AD : exists g', Adv s g s' g' t /\ (forall a, pd g' a = pd g a) /\ us g' = us g /\ ze g' = ze g /\ (forall p', rpof p' = None -> lnk s t p' rpof (rp g) (rp g'))).
    { clearbody s'. unfold kc in Ekc. clear kc. destruct rep as [q|].
      - injection Ekc as <- <-. assert (Rn : rp g n = Some q) by exact (have_rp s g t K _ n q E eq_refl).
        eexists. split; [apply (outsome_adv s g t n q p kp s' G Rn Pd Pn Hat Hk B HC); auto|]. repeat (split; [reflexivity|]).
        intros p' Q. apply (lnk_off s t p' rpof _ _ n q); [now rewrite E|exact Q|reflexivity|exact Rn].
      - assert (Rn : rp g n = None) by (apply (no_rp s g t L K _ n E Hn); discriminate).
        assert (Ll : ll g n = hh g n).
        { destruct (isl (nd s n)) eqn:Il; [now apply D|]. pose proof (gt_chain _ _ GA n Hnf Il) as Q. destruct D as (_ & D & _). rewrite (D Il), Rn in Q. exact Q. }
        exists (g_pr g p (pd g) (rp g)). split; [|repeat (split; [reflexivity|]); intros p' Q; apply lnk_none; [now rewrite E|exact Q|reflexivity]].
        apply (outnone_adv s g t n p kp s' G Ll); auto; [now apply D|]. fold x. destruct (kp =? 0)%nat; injection Ekc as <- <-; exact HC. }
    destruct AD as (g' & AD & P1 & P2 & P3 & P4). pose proof HC as (C0 & _ & C1 & C2 & C3 & C4 & _).
    assert (V : forall a, v_lk (ver (nd s' a)) = v_lk (ver (nd s a)) /\ v_del (ver (nd s' a)) = v_del (ver (nd s a))) by (intros a; rewrite C2; now destruct (Nat.eqb_spec a p) as [->|]).
    assert (HL : forall a, In a (holds nx) -> (In a (holds (DIn y r n ik rep p)) \/ (fr s <= a)%nat \/ v_lk (ver (nd s a)) = false) /\ (a < fr s')%nat /\ v_lk (ver (nd s' a)) = true).
    { intros a Ha. assert (Hb : In a (holds (DIn y r n ik rep p))) by (unfold nx in Ha; destruct (_ && _ && _); cbn [holds In] in *; intuition). split; [now left|].
      rewrite C0, (proj1 (V a)). exact (my_fr s t L _ a E Hb). }
    clearbody s'. destruct ((kp <=? 1)%nat && negb (length ks =? 0)%nat && is_none (ofirst cs)) eqn:EC; subst nx.
    - rewrite !andb_true_iff, negb_true_iff, Nat.eqb_neq in EC. destruct EC as ((_ & E1) & E2). set (rik := hd 0 ks) in *.
      assert (Hf' : (p < fr s')%nat) by now rewrite C0. assert (A' : isl (nd s' p) = false) by now rewrite C1.
      destruct (gt_int _ _ (gi_t _ _ (proj1 AD)) p Hf' A') as (k0 & tl & K1 & K2 & K3). pose proof (C4 p) as C4p. pose proof (C3 p) as C3p. rewrite Nat.eqb_refl in C4p, C3p.
      rewrite C4p in K1. rewrite K1 in E2. cbn [ofirst is_none] in E2. destruct k0; [discriminate|]. rewrite C3p in K2. destruct ks as [|k ks2]; [now destruct E1|]. cbn [hd] in rik.
      inversion K2 as [|? o ? tl2 (f & Q1 & Q2 & Q3) _ Q5 Q6]; subst o. subst tl. assert (L0 : 0 < l0 g' p).
      { apply (gv_n0 _ _ (gi_v _ _ (proj1 AD)) p (Some f :: tl2) Hf' A'); [|congruence]. now rewrite (proj2 (V p)). }
      destruct (lower_adv s' g' t p f rik (proj1 AD) Hf' A') as (AD2 & RF3); auto; unfold rik; try lia.
      + now rewrite (proj1 (V p)).
      + now rewrite C4p, K1.
      + intros t' N. rewrite Ep, setf_other by assumption. now apply HO.
      + intros a Ha. rewrite P3 in Ha. rewrite C0, C1. now apply ZL.
      + assert (AT : Adv s g s' _ t) by (apply (Adv_trans s g s' g' s' _ t AD AD2); auto).
        apply (Adv_ok s g t L _ _ s' _ E AT Ep HL).
        * apply (LK_plain _ _ s' _ E Ep); try reflexivity; try assumption. now apply P4.
        * cbn [JI]. rewrite !C1, (proj2 (V p)). repeat (split; [assumption || congruence|]). split; [|exact RF3]. cbn [g_one l0]. rewrite setf_same. unfold rik. lia.
    - apply (Adv_ok s g t L _ _ s' _ E AD Ep HL).
      + apply (LK_plain _ _ s' _ E Ep); try reflexivity; try assumption. now apply P4.
      + cbn [JI]. rewrite !C1, (proj2 (V p)). auto.
  Qed.
End Core.
