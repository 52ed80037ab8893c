(* Concurrent layer: locks, unlocks and changes of rows keep the invariant. *)
From Verif Require Import Lib M_Tree M_Stampc P_Stampc1 M_Conc P_Conc1 P_Conc2 P_Conc3 P_Conc4 P_Conc5 P_Conc14.
From Coq Require Import Sorting.Sorted.

Section Core.
  Variables (s : cst) (g : gst) (t : nat).
  Hypothesis G : GI s g.
  Hypothesis L : LI s.
  Hypothesis K : LK s g.
  Let GA := gi_t _ _ G.
  Let GB := gi_l _ _ G.
  Let GC := gi_v _ _ G.

  Lemma no_pd p a : pcs s t = p -> In a (holds p) -> (forall c, pdof p <> Some (a, c)) -> pd g a = None.
  Proof. intros E A B. subst p. destruct (pd g a) as [c|] eqn:Q; [|reflexivity]. destruct (B c (pd_mine s g t a c L K A Q)). Qed.
  Lemma no_us p a : pcs s t = p -> In a (holds p) -> (forall c, usof p <> Some (a, c)) -> us g a = None.
  Proof. intros E A B. subst p. destruct (us g a) as [c|] eqn:Q; [|reflexivity]. destruct (B c (us_mine s g t a c L K A Q)). Qed.
  Lemma no_rp p a : pcs s t = p -> In a (holds p) -> (forall c, rpof p <> Some (a, c)) -> rp g a = None.
  Proof. intros E A B. subst p. destruct (rp g a) as [c|] eqn:Q; [|reflexivity]. destruct (B c (rp_mine s g t a c L K A Q)). Qed.
  Lemma no_ze p a : pcs s t = p -> In a (holds p) -> zeof p <> Some a -> ze g a = false.
  Proof. intros E A B. subst p. destruct (ze g a) eqn:Q; [|reflexivity]. destruct (B (ze_mine s g t a L K A Q)). Qed.
  Lemma to_pd p a m : pcs s t = p -> In a (holds p) -> pd g m = Some a -> pdof p = Some (m, a).
  Proof. intros E A B. subst p. apply (proj1 K) in B. destruct B as (t' & B). pose proof (proj2 (pdof_holds _ _ _ B)) as C. now rewrite (proj2 L t t' a A C). Qed.
  Lemma to_us p a m : pcs s t = p -> In a (holds p) -> us g m = Some a -> usof p = Some (m, a).
  Proof. intros E A B. subst p. apply (proj1 (proj2 K)) in B. destruct B as (t' & B). pose proof (proj2 (usof_holds _ _ _ B)) as C. now rewrite (proj2 L t t' a A C). Qed.
  Lemma have_pd p a c : pcs s t = p -> pdof p = Some (a, c) -> pd g a = Some c.
  Proof. intros E A. subst p. apply (proj1 K). eauto. Qed.
  Lemma have_us p a c : pcs s t = p -> usof p = Some (a, c) -> us g a = Some c.
  Proof. intros E A. subst p. apply (proj1 (proj2 K)). eauto. Qed.
  Lemma have_rp p a c : pcs s t = p -> rpof p = Some (a, c) -> rp g a = Some c.
  Proof. intros E A. subst p. apply (proj1 (proj2 (proj2 K))). eauto. Qed.
  Lemma my_fr p a : pcs s t = p -> In a (holds p) -> (a < fr s)%nat /\ v_lk (ver (nd s a)) = true.
  Proof. intros E A. subst p. exact (proj1 L t a A). Qed.
  Lemma my_own p a : pcs s t = p -> In a (holds p) -> forall t', t' <> t -> ~ In a (holds (pcs s t')).
  Proof. intros E A. subst p. now apply (mine s t L). Qed.

  Lemma lockq p a p' : pcs s t = p -> (a < fr s)%nat -> v_lk (ver (nd s a)) = false -> (forall x, In x (holds p') -> x = a \/ In x (holds p)) ->
    pdof p' = pdof p -> usof p' = usof p -> rpof p' = rpof p -> (zeof p = None \/ zeof p' = zeof p) ->
    JI (go (vput s a (v_lock (ver (nd s a)))) t p') g p' -> OK s g (go (vput s a (v_lock (ver (nd s a)))) t p') t.
  Proof. intros E. subst p. intros. apply (lock_ok s g t G L K a p'); auto. Qed.
  Lemma unlockq p a p' : pcs s t = p -> In a (holds p) -> (forall c, pdof p <> Some (a, c)) -> zeof p <> Some a ->
    (forall x, In x (holds p') -> x <> a /\ In x (holds p)) ->
    pdof p' = pdof p -> usof p' = usof p -> rpof p' = rpof p -> (zeof p = None \/ zeof p' = zeof p) ->
    JI (go (unlock s a) t p') g p' -> OK s g (go (unlock s a) t p') t.
  Proof.
    intros E A B C. pose proof (no_pd p a E A B) as D1. pose proof (no_ze p a E A C) as D2. subst p. intros. apply (unlock_ok s g t G L K a p'); auto.
  Qed.
  Lemma JJ_vput a w p' n v y : vmono (ver (nd s a)) w -> JJ s g n v y -> JJ (go (vput s a w) t p') g n v y.
  Proof.
    intros M ((A & B & C & D) & H). unfold JJ, KK. cbn [go nd fr]. rewrite nd_vput. destruct (Nat.eqb_spec n a) as [->|N]; [|auto].
    cbn [with_ver ver]. destruct (M v B C) as (M1 & _ & M2). split; [split; [exact A|]; split; [exact B|]; split; auto|auto].
  Qed.
  Lemma isl_vput a w p' n : isl (nd (go (vput s a w) t p') n) = isl (nd s n).
  Proof. cbn [go nd]. rewrite nd_vput. now destruct (Nat.eqb_spec n a) as [->|]. Qed.

  Lemma rowsq p n rs zz p' : let s' := go (put s n (with_rows (nd s n) rs zz)) t p' in
    pcs s t = p -> In n (holds p) -> linked s g n -> v_del (ver (nd s n)) = false ->
    pdof p = None -> usof p = None -> rpof p = None -> (zeof p = None \/ zeof p = Some n) ->
    pdof p' = None -> usof p' = None -> rpof p' = None ->
    StronglySorted Z.lt (map fst rs) -> (forall y, row_get y rs <> None -> lo (nd s n) <= y < hh g n) -> (rs = [] -> zz < hh g n) ->
    (forall x, In x (holds p') -> In x (holds p)) -> JI s' (g_rows g n false) p' -> OK s g s' t.
  Proof.
    intros s' E A Hl Hd P1 P2 P3 P4 P5 P6 P7 Hs Hr Hz Hh J. destruct (my_fr p n E A) as (Hf & Hk).
    assert (Un : us g n = None) by (apply (no_us p n E A); congruence).
    assert (U2 : forall m, us g m <> Some n) by (intros m Q; pose proof (to_us p n m E A Q); congruence).
    assert (Pn : pd g n = None) by (apply (no_pd p n E A); congruence).
    assert (Ep : forall t0, pcs s' t0 = setf (pcs s) t p' t0) by reflexivity.
    apply (rows_ok s g t n (ver (nd s n)) rs zz false p' s' G L); auto.
    - now rewrite E.
    - discriminate.
    - apply vmono_refl.
    - apply (gv_root3 _ _ GC n Hf).
    - now rewrite E.
    - apply (LK_step s t p' L g (g_rows g n false) s' K Ep).
      + apply lnk_none; [now rewrite E|assumption|reflexivity].
      + apply lnk_none; [now rewrite E|assumption|]. intros a. cbn. unfold setf. destruct (Nat.eqb_spec a n) as [->|]; congruence.
      + apply lnk_none; [now rewrite E|assumption|reflexivity].
      + intros a. cbn. unfold setf. destruct (Nat.eqb_spec a n) as [->|N]; [discriminate|]. intros Q. left. split; [exact Q|]. rewrite E. destruct P4; congruence.
  Qed.

  (* ---- the lock at the leaf ---- *)
  Lemma wr_lock y o n v r : pcs s t = PRead y o n v r -> JI s g (PRead y o n v r) -> o <> OGet -> v_lk (ver (nd s n)) = false ->
    OK s g (go (vput s n (v_lock (ver (nd s n)))) t (PLocked y o n v)) t.
  Proof.
    intros E J Ho Hk. cbn [JI] in J. destruct J as (Y & A & B & C). eapply lockq; [eassumption|apply A|exact Hk| |reflexivity|reflexivity|reflexivity|now left|].
    - intros x [<-|[]]. now left.
    - cbn [JI]. rewrite isl_vput. split; [exact Y|]. split; [apply JJ_vput; [apply vmono_lock|exact A]|auto].
  Qed.
  Lemma wr_have y o n v : pcs s t = PLocked y o n v -> JI s g (PLocked y o n v) -> same s n v = true -> OK s g (go s t (WHave y o n)) t.
  Proof.
    intros E J Hs. cbn [JI] in J. destruct J as (Y & A & B & C & D). eapply (quiet s g t G L K); [eassumption|auto|reflexivity|reflexivity|reflexivity|now left|].
    cbn [JI]. split; [exact Y|]. split; [exact D|]. destruct A as ((A1 & A2 & A3 & A4) & A5). pose proof (same_del _ _ Hs) as Hd. rewrite C in Hd.
    destruct (gl_leaf _ _ GB n A1 B) as (Q1 & Q2 & Q3 & Q4 & _).
    split; [split; [exact A1|]; split; [exact B|]; destruct (ul g n); [rewrite Q4 in Hd; auto; discriminate|reflexivity]|]. split; [|exact Hd].
    split; [lia|]. pose proof (A5 (same_nosplit _ _ A2 Hs)) as Q. unfold rh in Q. rewrite (no_us _ n E) in Q; [exact Q|now left|discriminate].
  Qed.
  Lemma wr_miss y o n v : pcs s t = PLocked y o n v -> JI s g (PLocked y o n v) -> OK s g (go (unlock s n) t (PAdv y o n v)) t.
  Proof.
    intros E J. cbn [JI] in J. destruct J as (Y & A & B & C & D). eapply unlockq; [eassumption|now left|discriminate|discriminate| |reflexivity|reflexivity|reflexivity|now left|].
    - intros x [].
    - cbn [JI]. unfold unlock. rewrite isl_vput. split; [exact Y|]. split; [apply JJ_vput; [apply vmono_unlock|exact A]|auto].
  Qed.
  Lemma wr_mark y o n : pcs s t = WHave y o n -> JI s g (WHave y o n) -> OK s g (vput s n (v_mins (ver (nd s n)))) t.
  Proof.
    intros E J. cbn [JI] in J. destruct J as (Y & A & B). destruct (my_fr _ n E (or_introl eq_refl)) as (Hf & Hk).
    apply (soft_ok s g t G L K n (v_mins (ver (nd s n))) (WHave y o n)); auto; try (rewrite E; auto).
    - exact (pcs_self s t _ E).
    - left. now left.
    - apply vmono_mins.
    - cbn [JI]. split; [exact Y|]. split; [exact A|]. apply (TG_alike s); [|exact B]. now apply (alike_vput s n (v_mins (ver (nd s n))) t Idle).
  Qed.

  (* ---- rows ---- *)
  Lemma wr_ins y w n : pcs s t = WHave y (OPut w) n -> JI s g (WHave y (OPut w) n) ->
    OK s g (go (put s n (with_rows (nd s n) (row_set y w (rws (nd s n))) (zk (nd s n)))) t (WUnl y (OPut w) n (row_get y (rws (nd s n))))) t.
  Proof.
    intros E J. cbn [JI] in J. destruct J as (Y & _ & (A & B & C)). destruct (gl_rows _ _ GB n (proj1 A) (proj1 (proj2 A))) as (R1 & R2 & R3).
    eapply rowsq; try eassumption; try reflexivity; auto.
    - now left.
    - now apply sorted_set.
    - intros z. rewrite row_get_set. destruct (Z.eqb_spec y z) as [->|N]; [auto|]. intros Q. specialize (R2 z Q). unfold rh in R2.
      rewrite (no_us _ n E) in R2; [exact R2|now left|discriminate].
    - intros Q. destruct (row_set_cons _ _ _ Q).
  Qed.
  Lemma wr_add y w tg : pcs s t = WReady y w tg -> JI s g (WReady y w tg) ->
    OK s g (go (put s tg (with_rows (nd s tg) (row_set y w (rws (nd s tg))) (zk (nd s tg)))) t (WUnl y (OPut w) tg None)) t.
  Proof.
    intros E J. cbn [JI] in J. destruct J as (Y & (A & B & C)). destruct (gl_rows _ _ GB tg (proj1 A) (proj1 (proj2 A))) as (R1 & R2 & R3).
    eapply rowsq; try eassumption; try reflexivity; auto.
    - now left.
    - now apply sorted_set.
    - intros z. rewrite row_get_set. destruct (Z.eqb_spec y z) as [->|N]; [auto|]. intros Q. specialize (R2 z Q). unfold rh in R2.
      rewrite (no_us _ tg E) in R2; [exact R2|now left|discriminate].
    - intros Q. destruct (row_set_cons _ _ _ Q).
  Qed.
  Lemma wr_none y n : pcs s t = WHave y ORem n -> OK s g (go s t (WUnl y ORem n None)) t.
  Proof. intros E. eapply (quiet s g t G L K); [eassumption|auto|reflexivity|reflexivity|reflexivity|now left|exact Logic.I]. Qed.
  Lemma wr_rem y n old : pcs s t = WHave y ORem n -> JI s g (WHave y ORem n) -> row_get y (rws (nd s n)) = Some old ->
    let rs := row_del y (rws (nd s n)) in
    OK s g (go (put s n (with_rows (nd s n) rs (match rs with [] => y | _ => zk (nd s n) end)))
      t (if (length rs =? 0)%nat && negb (is_none (prv (nd s n))) then DMark y (Some old) n else WUnl y ORem n (Some old))) t.
  Proof.
    intros E J Hg rs. cbn [JI] in J. destruct J as (Y & _ & (A & B & C)). destruct (gl_rows _ _ GB n (proj1 A) (proj1 (proj2 A))) as (R1 & R2 & R3).
    assert (F : forall {T} (f : pct -> T) (b : bool) u v x, f u = x -> f v = x -> f (if b then u else v) = x) by (intros T f []; auto).
    eapply rowsq; try eassumption; try (apply F; reflexivity); try reflexivity; auto.
    - now left.
    - now apply sorted_filter.
    - intros z. unfold rs. rewrite row_get_del. destruct (Z.eqb_spec y z) as [->|N]; [congruence|]. intros Q. specialize (R2 z Q). unfold rh in R2.
      rewrite (no_us _ n E) in R2; [exact R2|now left|discriminate].
    - intros ->. lia.
    - intros x. rewrite (F _ holds _ _ _ [n]); auto.
    - destruct (Nat.eqb_spec (length rs) 0) as [Q|Q]; [|exact Logic.I]. destruct (prv (nd s n)) as [b|] eqn:Q2; [|exact Logic.I]. cbn [is_none negb andb JI].
      cbn [go nd put]. rewrite setf_same. cbn [with_rows rws lo ver]. split; [|split; [|split; [|exact C]]].
      + destruct A as (A1 & A2 & A3). split; [exact A1|]. split; [|exact A3]. cbn [go nd put]. now rewrite setf_same.
      + now destruct rs.
      + destruct (gl_link _ _ GB n A) as (_ & _ & _ & _ & Q3 & _). destruct (Q3 b Q2) as (Q4 & Q5). destruct (gl_link _ _ GB b Q4) as (_ & Q6 & Q7 & _).
        rewrite Q5 in Q7. cbn [nlo] in Q7. destruct (gl_leaf _ _ GB b (proj1 Q4) (proj1 (proj2 Q4))) as (Q8 & _). destruct (gt_num _ _ GA b (proj1 Q4)). lia.
  Qed.
  Lemma wr_unl y o n r : pcs s t = WUnl y o n r -> OK s g (go (unlock s n) t (PDone y o r)) t.
  Proof.
    intros E. eapply unlockq; [eassumption|now left|discriminate|discriminate| |reflexivity|reflexivity|reflexivity|now left|exact Logic.I]. intros x [].
  Qed.

  (* ---- around a split ---- *)
  Lemma wr_uplock y w tg n c sk h st q : pcs s t = WUp y w tg n c sk h st -> JI s g (WUp y w tg n c sk h st) -> par (nd s n) = Some q -> v_lk (ver (nd s q)) = false ->
    OK s g (go (vput s q (v_lock (ver (nd s q)))) t (WIn y w tg n c sk h st q)) t.
  Proof.
    intros E J Hp Hk. cbn [JI] in J. destruct J as (Y & A). destruct (my_fr _ n E) as (Hn & Kn); [cbn; tauto|]. destruct (my_fr _ c E) as (Hc & Kc); [cbn; tauto|].
    destruct (gt_par _ _ GA n q Hn Hp) as (Hq & Hi & _).
    eapply lockq; [eassumption|exact Hq|exact Hk| |reflexivity|now destruct h|reflexivity|right; now destruct h|].
    - intros x [<-|[<-|[<-|[<-|[]]]]]; cbn; tauto.
    - cbn [JI]. rewrite isl_vput. split; [exact Y|]. split; [apply (SF_alike s); [now apply alike_vput|exact A]|]. split; [exact Hi|]. split; congruence.
  Qed.
  Lemma wr_unln y w tg n c h st q nc : pcs s t = WUnlN y w tg n c h st q nc -> JI s g (WUnlN y w tg n c h st q nc) ->
    OK s g (go (if (n =? tg)%nat then s else unlock s n) t (WUnlC y w tg c h st q nc)) t.
  Proof.
    intros E J. cbn [JI] in J. destruct J as (Y & A & B & C & D & N). destruct (Nat.eqb_spec n tg) as [->|Nt].
    - eapply (quiet s g t G L K); [eassumption| |reflexivity|reflexivity|reflexivity|now right|cbn [JI]; auto].
      intros x. cbn [holds app In]. tauto.
    - eapply unlockq; [eassumption|cbn; tauto| |cbn; congruence| |reflexivity|reflexivity|reflexivity|now right|].
      + intros d Q. cbn [pdof] in Q. unfold ncof in Q. destruct q as [q|]; [|discriminate]. destruct nc as [[e z]|]; [|discriminate]. injection Q as -> ->.
        exact (C n (or_introl eq_refl) eq_refl).
      + intros x. cbn [holds app In]. intros [<-|[<-|Q]]; [split; [congruence|tauto]|split; [congruence|tauto]|]. split; [now apply C|tauto].
      + cbn [JI]. pose proof (alike_vput s n (v_unlock (ver (nd s n))) t (WUnlC y w tg c h st q nc) (del_unlock _)) as AL.
        split; [exact Y|]. split; [now apply (TG_alike s)|]. split; [now apply (PF_alike s)|exact D].
  Qed.
  Lemma wr_unlc y w tg c h st q nc : pcs s t = WUnlC y w tg c h st q nc -> JI s g (WUnlC y w tg c h st q nc) ->
    OK s g (go (if (c =? tg)%nat then s else unlock s c) t (WNext y w tg h st q nc)) t.
  Proof.
    intros E J. cbn [JI] in J. destruct J as (Y & A & B & D). destruct (Nat.eqb_spec c tg) as [->|Nt].
    - eapply (quiet s g t G L K); [eassumption| |reflexivity|reflexivity|reflexivity|now right|cbn [JI]; auto].
      intros x. cbn [holds app In]. tauto.
    - eapply unlockq; [eassumption|cbn; tauto| |cbn; congruence| |reflexivity|reflexivity|reflexivity|now right|].
      + intros d Q. cbn [pdof] in Q. unfold ncof in Q. destruct q as [q|]; [|discriminate]. destruct nc as [[e z]|]; [|discriminate]. injection Q as -> ->.
        exact (D c (or_introl eq_refl) eq_refl).
      + intros x. cbn [holds app In]. intros [<-|Q]; [split; [congruence|tauto]|]. split; [now apply D|tauto].
      + cbn [JI]. pose proof (alike_vput s c (v_unlock (ver (nd s c))) t (WNext y w tg h st q nc) (del_unlock _)) as AL.
        split; [exact Y|]. split; [now apply (TG_alike s)|now apply (PF_alike s)].
  Qed.
  Lemma wr_next y w tg h st q nc : pcs s t = WNext y w tg h st q nc -> JI s g (WNext y w tg h st q nc) ->
    OK s g (match q, nc with
      | Some p, Some (c, sk) => go s t (WUp y w tg p c sk (S h) st)
      | Some p, None => go (unlock s p) t (WReady y w tg)
      | None, _ => go s t (WReady y w tg) end) t.
  Proof.
    intros E J. cbn [JI] in J. destruct J as (Y & A & B). destruct q as [p|]; [destruct nc as [[c sk]|]|].
    - destruct B as (B1 & B2). eapply (quiet s g t G L K); [eassumption| |reflexivity|reflexivity|reflexivity|now right|split; [exact Y|]; split; [exact B2|]; split; [exact B1|exact A]].
      intros x. cbn [holds app In o2l n2l]. tauto.
    - destruct B as (B1 & _). assert (Np : p <> tg) by (intros ->; destruct A as ((_ & Q & _) & _); congruence).
      eapply unlockq; [eassumption|cbn; tauto|discriminate|cbn; congruence| |reflexivity|reflexivity|reflexivity|now right|].
      + intros x [<-|[]]. split; [congruence|cbn; tauto].
      + cbn [JI]. split; [exact Y|]. apply (TG_alike s); [|exact A]. apply alike_vput, del_unlock.
    - eapply (quiet s g t G L K); [eassumption| |reflexivity|reflexivity|reflexivity|now right|cbn [JI]; auto]. intros x. cbn. tauto.
  Qed.

  (* ---- around a removal ---- *)
  Lemma wr_dup y r n ik rep q : pcs s t = DUp y r n ik rep -> JI s g (DUp y r n ik rep) -> par (nd s n) = Some q -> v_lk (ver (nd s q)) = false ->
    OK s g (go (vput s q (v_lock (ver (nd s q)))) t (DIn y r n ik rep q)) t.
  Proof.
    intros E J Hp Hk. cbn [JI] in J. destruct (my_fr _ n E) as (Hn & Kn); [cbn; tauto|]. destruct (gt_par _ _ GA n q Hn Hp) as (Hq & Hi & _).
    eapply lockq; [eassumption|exact Hq|exact Hk| |reflexivity|reflexivity|reflexivity|now left|].
    - intros x [<-|[<-|[]]]; cbn; tauto.
    - cbn [JI]. rewrite isl_vput. split; [apply (DF_alike s); [now apply alike_vput|exact J]|]. split; [exact Hi|congruence].
  Qed.
  Lemma wr_dred y r n p cur ik rik q : pcs s t = DRed y r n p cur ik rik -> JI s g (DRed y r n p cur ik rik) -> par (nd s cur) = Some q -> v_lk (ver (nd s q)) = false ->
    OK s g (go (vput s q (v_lock (ver (nd s q)))) t (DRedU y r n p cur q ik rik)) t.
  Proof.
    intros E J Hp Hk. cbn [JI] in J. destruct J as (A1 & A2 & A3 & A4 & A5 & A6 & A7).
    destruct (my_fr _ n E) as (Hn & Kn); [cbn; tauto|]. destruct (my_fr _ p E) as (Hpf & Kp); [cbn; tauto|]. destruct (my_fr _ cur E) as (Hc & Kc); [cbn; tauto|].
    destruct (gt_par _ _ GA cur q Hc Hp) as (Hq & Hi & _).
    pose proof (alike_vput s q (v_lock (ver (nd s q))) t (DRedU y r n p cur q ik rik) eq_refl) as AL.
    eapply lockq; [eassumption|exact Hq|exact Hk| |reflexivity|reflexivity|reflexivity|now left|].
    - intros x [<-|[<-|[<-|[<-|[]]]]]; cbn; tauto.
    - cbn [JI]. rewrite !isl_vput, (par_alike s _ AL), (del_alike s _ AL p _ eq_refl). split; [exact A1|]. split; [exact A2|]. split; [exact A6|]. split; [exact Hi|]. split; [exact A4|]. split; [exact A5|].
      split; [congruence|]. split; [congruence|]. split; [congruence|]. split; [exact Hc|]. split; [exact Hp|exact A7].
  Qed.
  Lemma wr_dredu y r n p cur q ik rik : pcs s t = DRedU y r n p cur q ik rik -> JI s g (DRedU y r n p cur q ik rik) ->
    OK s g (go (if (cur =? p)%nat then s else unlock s cur) t (DRedW y r n p cur q ik rik)) t.
  Proof.
    intros E J. cbn [JI] in J. destruct J as (A1 & A2 & A3 & A4 & A5 & A6 & A7 & A8 & A9 & A10 & A11 & A12). destruct (Nat.eqb_spec cur p) as [->|N].
    - eapply (quiet s g t G L K); [eassumption| |reflexivity|reflexivity|reflexivity|now right|cbn [JI]; repeat (split; [assumption|]); assumption]. intros x. cbn. tauto.
    - pose proof (alike_vput s cur (v_unlock (ver (nd s cur))) t (DRedW y r n p cur q ik rik) (del_unlock _)) as AL.
      eapply unlockq; [eassumption|cbn; tauto|discriminate|discriminate| |reflexivity|reflexivity|reflexivity|now right|].
      + intros x [<-|[<-|[<-|[]]]]; (split; [congruence|cbn; tauto]).
      + cbn [JI]. unfold unlock in *. rewrite !isl_vput, (par_alike s _ AL), (del_alike s _ AL p _ eq_refl). repeat (split; [assumption|]). assumption.
  Qed.
  Lemma wr_drede y r n p q rik : pcs s t = DRedE y r n p q rik -> JI s g (DRedE y r n p q rik) -> OK s g (go (unlock s q) t (DUnl y r n p rik)) t.
  Proof.
    intros E J. cbn [JI] in J. destruct J as (A1 & A2 & A3 & A4 & A5).
    pose proof (alike_vput s q (v_unlock (ver (nd s q))) t (DUnl y r n p rik) (del_unlock _)) as AL.
    eapply unlockq; [eassumption|cbn; tauto|discriminate|discriminate| |reflexivity|reflexivity|reflexivity|now right|].
    - intros x [<-|[<-|[]]]; (split; [congruence|cbn; tauto]).
    - cbn [JI]. unfold unlock in *. rewrite !isl_vput, (del_alike s _ AL p _ eq_refl). auto.
  Qed.
  Lemma wr_dunl y r n p ik : pcs s t = DUnl y r n p ik -> JI s g (DUnl y r n p ik) -> OK s g (go (unlock s n) t (DNext y r p ik)) t.
  Proof.
    intros E J. cbn [JI] in J. destruct J as (A1 & A2 & A3).
    pose proof (alike_vput s n (v_unlock (ver (nd s n))) t (DNext y r p ik) (del_unlock _)) as AL.
    eapply unlockq; [eassumption|cbn; tauto|discriminate|discriminate| |reflexivity|reflexivity|reflexivity|now right|].
    - intros x [<-|[]]; (split; [congruence|cbn; tauto]).
    - cbn [JI]. unfold unlock in *. rewrite !isl_vput, (del_alike s _ AL p _ eq_refl). auto.
  Qed.
  Lemma wr_dend y r p ik : pcs s t = DNext y r p ik -> OK s g (go (unlock s p) t (PDone y ORem r)) t.
  Proof.
    intros E. eapply unlockq; [eassumption|now left|discriminate|discriminate| |reflexivity|reflexivity|reflexivity|now left|exact Logic.I]. intros x [].
  Qed.
  Lemma wr_dmark y r n : pcs s t = DMark y r n -> JI s g (DMark y r n) -> OK s g (go (vput s n (v_mdel (ver (nd s n)))) t (DUnlink y r n)) t.
  Proof.
    intros E J. cbn [JI] in J. destruct J as (A1 & A2 & A3 & A4). destruct (my_fr _ n E (or_introl eq_refl)) as (Hf & Hk).
    assert (Un : us g n = None) by (apply (no_us _ n E); [now left|discriminate]).
    destruct (gl_leaf _ _ GB n Hf (proj1 (proj2 A1))) as (Q1 & _).
    apply (vput_ok s g t n (v_mdel (ver (nd s n))) (DUnlink y r n) _ G L K); auto; try (rewrite E; auto).
    - apply (my_own _ n E). now left.
    - apply vmono_mdel.
    - intros _ Q. destruct A1 as (_ & Q2 & _). congruence.
    - cbn. discriminate.
    - intros Q2 Q3 Q4. destruct (gt_root2 _ _ GA n Hf Q2) as [(m & Q5)|(Q5 & _)]; [destruct (Q3 m Q5)|congruence].
    - intros x [<-|[]]. split; [left; now left|]. split; [exact Hf|]. split; [congruence|]. intros _. exact Hk.
    - cbn [JI]. cbn [go nd]. rewrite nd_vput, Nat.eqb_refl. cbn. split; [|auto]. destruct A1 as (B1 & B2 & B3). split; [exact B1|]. split; [|exact B3].
      now rewrite isl_vput.
  Qed.

  (* ---- the rows that moved leave the old leaf ---- *)
  Lemma wr_strip y w tg n c sk st q nc : pcs s t = WStrip y w tg n c sk st q nc -> JI s g (WStrip y w tg n c sk st q nc) ->
    let left := filter (fun r => fst r <? sk) (rws (nd s n)) in
    OK s g (go (put s n (with_ver (with_rows (nd s n) left (match left, rws (nd s n) with [], r :: _ => fst r | _, _ => zk (nd s n) end)) (v_mspl (ver (nd s n)))))
      t (WUnlN y w tg n c 0 st q nc)) t.
  Proof.
    intros E J left. cbn [JI] in J. destruct J as (Y & ((S1 & S2) & (A1 & A2 & A3 & A4 & A5 & A6 & A7 & A8)) & B & C & D & Hpar).
    pose proof (have_us _ n c E eq_refl) as Un. destruct (gl_us _ _ GB _ _ Un) as (_ & _ & U1 & U2 & _ & U3).
    assert (Nnc : n <> c) by congruence. destruct (my_fr _ n E) as (Hf & Hk); [cbn; tauto|].
    destruct (aft_num _ _ sk c GA (proj1 A2) S2) as (S3 & _). destruct (gl_link _ _ GB c A2) as (LC & _).
    destruct (gl_rows _ _ GB n Hf (proj1 (proj2 A1))) as (R1 & R2 & R3).
    match goal with |- context[with_rows _ left ?z] => set (zz := z) end.
    set (s' := go (put s n (with_ver (with_rows (nd s n) left zz) (v_mspl (ver (nd s n))))) t (WUnlN y w tg n c 0 st q nc)).
    assert (Ep : forall t0, pcs s' t0 = setf (pcs s) t (WUnlN y w tg n c 0 st q nc) t0) by reflexivity.
    apply (rows_ok s g t n (v_mspl (ver (nd s n))) left zz (n =? tg)%nat (WUnlN y w tg n c 0 st q nc) s' G L); auto.
    - rewrite E. cbn. tauto.
    - intros m Q. assert (Q2 : usof (WStrip y w tg n c sk st q nc) = Some (m, n)) by (apply (to_us _ n m E); [cbn; tauto|exact Q]). cbn in Q2. congruence.
    - apply (no_pd _ n E); [cbn; tauto|]. intros d Q. cbn [pdof] in Q. unfold ncof in Q. destruct q as [q|]; [|discriminate]. destruct nc as [[e z]|]; [|discriminate].
      injection Q as -> ->. exact (C n (or_introl eq_refl) eq_refl).
    - now apply sorted_filter.
    - intros z. unfold left. rewrite (row_get_filter (fun u => u <? sk)). destruct (Z.ltb_spec z sk) as [Q|Q]; [|congruence]. intros Q2. specialize (R2 z Q2). lia.
    - intros Q1 Q2. exfalso. rewrite A4 in Q1. destruct (Z.ltb_spec y sk) as [Q|Q]; [rewrite Nat.eqb_refl in Q1; discriminate|]. destruct (A8 Q) as (x & X1 & X2).
      assert (X3 : row_get x left <> None) by (unfold left; rewrite (row_get_filter (fun u => u <? sk)); apply Z.ltb_lt in X1; now rewrite X1). rewrite Q2 in X3. now apply X3.
    - apply vmono_mspl.
    - discriminate.
    - intros _. discriminate.
    - intros Q. destruct (Hpar Q).
    - rewrite E. cbn [holds]. auto.
    - apply (LK_step s t _ L g (g_rows g n (n =? tg)%nat) s' K Ep).
      + apply lnk_same; [apply K|now rewrite E].
      + apply (lnk_off s t _ usof _ _ n c); [now rewrite E|reflexivity|reflexivity|exact Un].
      + apply lnk_none; [now rewrite E|reflexivity|reflexivity].
      + intros a. cbn. unfold setf. destruct (Nat.eqb_spec a n) as [->|N].
        * destruct (Nat.eqb_spec n tg) as [->|]; [now right|discriminate].
        * intros Q. left. split; [exact Q|]. now rewrite E.
    - assert (Ei : forall x, isl (nd s' x) = isl (nd s x)) by (intros x; cbn [s' go nd put]; unfold setf; now destruct (Nat.eqb_spec x n) as [->|]).
      assert (El : forall x, lo (nd s' x) = lo (nd s x)) by (intros x; cbn [s' go nd put]; unfold setf; now destruct (Nat.eqb_spec x n) as [->|]).
      assert (Ed : forall x, v_del (ver (nd s' x)) = v_del (ver (nd s x))) by (intros x; cbn [s' go nd put]; unfold setf; now destruct (Nat.eqb_spec x n) as [->|]).
      assert (Lk : forall x, linked s g x -> linked s' (g_rows g n (n =? tg)%nat) x) by (intros x (Q1 & Q2 & Q3); split; [exact Q1|]; split; [now rewrite Ei|exact Q3]).
      cbn [JI]. split; [exact Y|]. split; [|split; [|auto]].
      + unfold TG. rewrite El, Ed. cbn [g_rows hh]. rewrite A4. destruct (Z.ltb_spec y sk) as [Q|Q]; [split; [now apply Lk|]; split; [lia|exact A6]|split; [now apply Lk|]; split; [lia|exact A7]].
      + destruct q as [q|]; [|exact Logic.I]. cbn [PF] in *. now rewrite Ei.
  Qed.
End Core.
