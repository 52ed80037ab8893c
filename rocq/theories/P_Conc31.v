(* Concurrent layer: progress, put together, and a run with threads that wait. *)
From Verif Require Import Lib M_Tree M_Stampc P_Stampc1 M_Conc M_ConcRun Spec_Conc Spec_Conc2 Spec_Live P_Conc1 P_Conc2 P_Conc6 P_Conc18 P_Conc20 P_Conc21 P_Conc22 P_Conc23 P_Conc24 P_Conc27 P_Conc28 P_Conc29 P_Conc30 P_ConcR.

Lemma deadlock_main l s t : steps start l s -> misp s = false -> abnd s = false -> pcs s t <> Idle -> exists t' x s', pcs s t' <> Idle /\ step s t' x = Some s' /\ carries_on x.
Proof. intros H M A N. destruct (Live_steps start l s H g_start Live_start M A) as (g & V). exact (no_deadlock s g V t N). Qed.

Lemma gp_start : gp start.
Proof.
  exists g_start, (fun _ => 0). constructor; [exact Live_start|exact XI_start|intros a; reflexivity| |reflexivity|reflexivity]. intros t. split; intros; discriminate.
Qed.
Lemma gp_step' s t x s' : gp s -> x <> Abandon -> (forall y, x <> Start y ORem) -> step s t x = Some s' -> gp s'.
Proof.
  intros (g & b & P) NA NS ST. pose proof (lv_inv _ _ (gp_live _ _ _ P)) as I. pose proof (abnd_only s t x s' ST NA (gp_a _ _ _ P)) as A. pose proof (misp_ok s g b t x s' I (gp_xi _ _ _ P) (alive_nodel _ (gp_al _ _ _ P)) ST (gp_m _ _ _ P)) as M.
  pose proof (alive_step s t x s' ST (gp_nr _ _ _ P t) (gp_al _ _ _ P)) as L.
  destruct (Live_step s g t x s' (gp_live _ _ _ P) ST M A) as (g' & V). destruct (XI_step s g b t x s' I (gp_xi _ _ _ P) (alive_nodel _ (gp_al _ _ _ P)) (alive_nodel _ L) ST (gp_m _ _ _ P) A) as (b' & X).
  exists g', b'. constructor; auto. exact (norem_step s t x s' ST NS (gp_nr _ _ _ P)).
Qed.
Lemma gp_reach s l s' : steps s l s' -> (forall e y, In e l -> snd (fst e) <> Start y ORem) -> (forall e, In e l -> snd (fst e) <> Abandon) -> gp s -> forall k, quiet s k -> gp s' /\ exists k', quiet s' k'.
Proof.
  induction 1 as [|s t x s1 l s2 E H IH]; intros R G P k K; [split; [exact P|eauto]|].
  apply (IH (fun e y He => R e y (or_intror He)) (fun e He => G e (or_intror He)) (gp_step' s t x s1 P (G _ (or_introl eq_refl)) (fun y => R _ y (or_introl eq_refl)) E) (Nat.max k (S t))).
  intros t0 Ht. rewrite (other _ _ _ _ E t0 ltac:(lia)). apply K. lia.
Qed.
Lemma finish_main l s : steps start l s -> no_removals l -> no_giving_up l -> exists m s', steps s m s' /\ runs_on m /\ all_done s'.
Proof.
  intros H R G. destruct (gp_reach start l s H) with (k := 0%nat) as (P & k & K).
  - intros [[t x] s0] y He Q. cbn in Q. subst x. destruct (ev_in l _ He) as (k & Hk). exact (R k t y Hk).
  - intros [[t x] s0] He Q. cbn in Q. subst x. destruct (ev_in l _ He) as (k & Hk). exact (G k t Hk).
  - exact gp_start.
  - intros t _. reflexivity.
  - destruct (all_idle s k P K) as (s' & (m & H1 & H2) & _ & D). exists m, s'. split; [exact H1|]. split; [|exact D]. intros t x s0 He. exact (H2 _ He).
Qed.

(* ---- example ---- *)
Definition at_win (p : pct) : bool := match p with WIn _ _ _ _ _ _ _ _ _ => true | _ => false end.
Definition runT : trace := puts run0 0 (zs 60 100 100).
Definition runU : trace := drive 100 at_win (begin runT 1 150 (OPut 7)) 1.
Definition runV : trace := drive 100 at_win (begin (drive 100 at_win (begin runU 2 1650 (OPut 8)) 2) 3 850 (OPut 9)) 3.
Lemma ok_runV : tr_ok runV.
Proof. unfold runV, runU, begin. apply ok_drive, ok_act, ok_drive, ok_act, ok_drive, ok_act. unfold runT, puts. apply ok_fold; [intros; now apply ok_whole|constructor]. Qed.
Lemma exV : (no_evb isrem (rev (fst runV)) && no_evb isab (rev (fst runV)) && negb (misp (snd runV)) && negb (abnd (snd runV))) = true.
Proof. vm_compute. reflexivity. Qed.
Lemma stuck_example : exists l s, steps start l s /\ no_removals l /\ no_giving_up l /\ misp s = false /\ abnd s = false /\ stuck s 2 /\ stuck s 3 /\ pcs s 1 <> Idle.
Proof.
  pose proof exV as H. apply andb_prop in H. destruct H as (H & H4). apply andb_prop in H. destruct H as (H & H3). apply andb_prop in H. destruct H as (H1 & H2). apply negb_true_iff in H3. apply negb_true_iff in H4.
  do 2 eexists. split; [exact ok_runV|]. split; [intros k t y Q; discriminate (no_evb_ok _ _ H1 _ _ _ Q)|]. split; [intros k t Q; discriminate (no_evb_ok _ _ H2 _ _ _ Q)|]. split; [exact H3|]. split; [exact H4|].
  split; [split; [vm_compute; discriminate|intros x; destruct x; vm_compute; reflexivity]|]. split; [split; [vm_compute; discriminate|intros x; destruct x; vm_compute; reflexivity]|]. vm_compute. discriminate.
Qed.
