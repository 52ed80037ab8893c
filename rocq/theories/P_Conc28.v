(* Concurrent layer: gets and puts can always finish. Threads that hold locks. *)
From Verif Require Import Lib M_Tree M_Stampc P_Stampc1 M_Conc M_ConcRun Spec_Conc Spec_Conc2 Spec_Live P_Conc1 P_Conc2 P_Conc3 P_Conc4 P_Conc6 P_Conc14 P_Conc15 P_Conc16 P_Conc16b P_Conc18 P_Conc19 P_Conc20 P_Conc21 P_Conc22 P_Conc23 P_Conc24 P_Conc25 P_Conc26 P_Conc27 P_ConcR.

Record GP (s : cst) (g : gst) (b : nat -> Z) : Prop := {
  gp_live : Live s g; gp_xi : XI s b; gp_al : alive s; gp_nr : forall t, norem (pcs s t); gp_m : misp s = false; gp_a : abnd s = false }.
Definition gp (s : cst) : Prop := exists g b, GP s g b.
Notation plain := carries_on.
Definition Q (s s' : cst) : Prop := exists m, steps s m s' /\ forall e, In e m -> plain (snd (fst e)).

Lemma alive_nodel s : alive s -> nodel s. Proof. intros H a _. apply H. Qed.
Lemma gp_step s t x s' : gp s -> plain x -> step s t x = Some s' -> gp s'.
Proof.
  intros (g & b & P) PX ST. assert (NA : x <> Abandon) by (intros ->; exact PX). assert (NS : forall y, x <> Start y ORem) by (intros y ->; exact PX).
  pose proof (lv_inv _ _ (gp_live _ _ _ P)) as I. pose proof (abnd_only s t x s' ST NA (gp_a _ _ _ P)) as A. pose proof (misp_ok s g b t x s' I (gp_xi _ _ _ P) (alive_nodel _ (gp_al _ _ _ P)) ST (gp_m _ _ _ P)) as M.
  pose proof (alive_step s t x s' ST (gp_nr _ _ _ P t) (gp_al _ _ _ P)) as L.
  destruct (Live_step s g t x s' (gp_live _ _ _ P) ST M A) as (g' & V). destruct (XI_step s g b t x s' I (gp_xi _ _ _ P) (alive_nodel _ (gp_al _ _ _ P)) (alive_nodel _ L) ST (gp_m _ _ _ P) A) as (b' & X).
  exists g', b'. constructor; auto. exact (norem_step s t x s' ST NS (gp_nr _ _ _ P)).
Qed.
Lemma Q_refl s : Q s s. Proof. exists []. split; [constructor|intros e []]. Qed.
Lemma Q_cons s t x s1 s2 : step s t x = Some s1 -> plain x -> Q s1 s2 -> Q s s2.
Proof. intros E P (m & H & F). exists (((t, x), s1) :: m). split; [econstructor; eauto|]. intros e [<-|He]; [exact P|now apply F]. Qed.
Lemma Q_trans s s1 s2 : Q s s1 -> Q s1 s2 -> Q s s2.
Proof. intros (m & H & F) K. induction H as [|s t x s1 l s3 E H IH]; [exact K|]. apply (Q_cons s t x s1 s2 E); [exact (F _ (or_introl eq_refl))|]. apply IH; auto. intros e He. apply F. now right. Qed.
Lemma Q_idle s s' : Q s s' -> forall t, pcs s t = Idle -> pcs s' t = Idle.
Proof.
  intros (m & H & F) t0 Ht. induction H as [|s t x s1 l s3 E H IH]; [exact Ht|]. apply IH; [intros e He; apply F; now right|]. destruct (step_pcs _ _ _ _ E) as (p & ->). destruct (Nat.eqb_spec t0 t) as [->|]; [|exact Ht].
  pose proof (F _ (or_introl eq_refl)) as PX. cbn [fst snd] in PX. unfold step in E. rewrite Ht in E. destruct x; try discriminate E; destruct PX.
Qed.

Definition top (s : cst) (m : nat) : Prop := forall a, (a < fr s)%nat -> (ht (nd s a) <= m)%nat.
Definition free (p : pct) : Prop := holds p = [].
(* t alone runs from s to s' and then holds no lock. *)
Definition Done (s : cst) (t : nat) : Prop := exists s', Q s s' /\ gp s' /\ (forall t0, t0 <> t -> pcs s' t0 = pcs s t0) /\ free (pcs s' t).
(* ... or goes up to the next level, h at least. *)
Definition Up (s : cst) (t m h : nat) : Prop := exists s', Q s s' /\ gp s' /\ (forall t0, t0 <> t -> pcs s' t0 = pcs s t0) /\ top s' m /\
  exists y w tg n c sk h' st, pcs s' t = WUp y w tg n c sk h' st /\ (h <= h')%nat.
Lemma other s t x s' : step s t x = Some s' -> forall t0, t0 <> t -> pcs s' t0 = pcs s t0.
Proof. intros ST t0 N. destruct (step_pcs _ _ _ _ ST) as (p & ->). destruct (Nat.eqb_spec t0 t); [contradiction|reflexivity]. Qed.
Lemma Done_step s t x s1 : step s t x = Some s1 -> plain x -> Done s1 t -> Done s t.
Proof. intros E P (s2 & A & B & C & D). exists s2. split; [exact (Q_cons _ _ _ _ _ E P A)|]. split; [exact B|]. split; [|exact D]. intros t0 N. rewrite (C t0 N). exact (other _ _ _ _ E t0 N). Qed.
Lemma Up_step s t x s1 m h : step s t x = Some s1 -> plain x -> Up s1 t m h -> Up s t m h.
Proof. intros E P (s2 & A & B & C & D). exists s2. split; [exact (Q_cons _ _ _ _ _ E P A)|]. split; [exact B|]. split; [|exact D]. intros t0 N. rewrite (C t0 N). exact (other _ _ _ _ E t0 N). Qed.
Lemma Done_now s t : gp s -> free (pcs s t) -> Done s t.
Proof. intros G F. exists s. split; [apply Q_refl|]. auto. Qed.

Lemma d_unl s t y o n r : gp s -> pcs s t = WUnl y o n r -> Done s t.
Proof.
  intros G E. assert (ST : step s t Go = Some (go (unlock s n) t (PDone y o r))) by (unfold step; now rewrite E).
  apply (Done_step _ _ _ _ ST Logic.I). apply Done_now; [exact (gp_step _ _ _ _ G (Logic.I : plain Go) ST)|]. rewrite gone. reflexivity.
Qed.
Lemma d_ready s t y w tg : gp s -> pcs s t = WReady y w tg -> Done s t.
Proof.
  intros G E. eassert (ST : step s t Go = Some _) by (unfold step; rewrite E; reflexivity). apply (Done_step _ _ _ _ ST Logic.I). eapply d_unl; [exact (gp_step _ _ _ _ G (Logic.I : plain Go) ST)|]. rewrite gone. reflexivity.
Qed.
Lemma d_next s t y w tg h st q : gp s -> pcs s t = WNext y w tg h st q None -> Done s t.
Proof.
  intros G E. destruct q as [q|]; (eassert (ST : step s t Go = Some _) by (unfold step; rewrite E; reflexivity)); apply (Done_step _ _ _ _ ST Logic.I); (eapply d_ready; [exact (gp_step _ _ _ _ G (Logic.I : plain Go) ST)|]; rewrite gone; reflexivity).
Qed.
Lemma d_unlc s t y w tg c h st q : gp s -> pcs s t = WUnlC y w tg c h st q None -> Done s t.
Proof.
  intros G E. eassert (ST : step s t Go = Some _) by (unfold step; rewrite E; reflexivity). apply (Done_step _ _ _ _ ST Logic.I). eapply d_next; [exact (gp_step _ _ _ _ G (Logic.I : plain Go) ST)|]. rewrite gone. reflexivity.
Qed.
Lemma d_unln s t y w tg n c h st q : gp s -> pcs s t = WUnlN y w tg n c h st q None -> Done s t.
Proof.
  intros G E. eassert (ST : step s t Go = Some _) by (unfold step; rewrite E; reflexivity). apply (Done_step _ _ _ _ ST Logic.I). eapply d_unlc; [exact (gp_step _ _ _ _ G (Logic.I : plain Go) ST)|]. rewrite gone. reflexivity.
Qed.
Lemma d_after s t y w tg n c sk h st q : gp s -> pcs s t = after_in y w tg n c sk h st q None -> Done s t.
Proof.
  intros G E. unfold after_in in E. destruct h; [|exact (d_unln _ _ _ _ _ _ _ _ _ _ G E)]. eassert (ST : step s t Go = Some _) by (unfold step; rewrite E; reflexivity). apply (Done_step _ _ _ _ ST Logic.I).
  eapply d_unln; [exact (gp_step _ _ _ _ G (Logic.I : plain Go) ST)|]. rewrite gone. reflexivity.
Qed.

Lemma top_flat s s' m : flat3 s s' -> top s m -> top s' m.
Proof. intros (F & H) T a Ha. destruct (H a) as (_ & -> & _). apply T. lia. Qed.
Lemma u_next s t y w tg h st q c sk m : gp s -> top s m -> pcs s t = WNext y w tg h st (Some q) (Some (c, sk)) -> Up s t m (S h).
Proof.
  intros G T E. eassert (ST : step s t Go = Some _) by (unfold step; rewrite E; reflexivity). apply (Up_step _ _ _ _ _ _ ST Logic.I). eexists. split; [apply Q_refl|]. split; [exact (gp_step _ _ _ _ G (Logic.I : plain Go) ST)|]. split; [auto|].
  split; [exact T|]. do 8 eexists. split; [rewrite gone; reflexivity|lia].
Qed.
Lemma u_unlc s t y w tg c0 h st q c sk m : gp s -> top s m -> pcs s t = WUnlC y w tg c0 h st (Some q) (Some (c, sk)) -> Up s t m (S h).
Proof.
  intros G T E. eassert (ST : step s t Go = Some _) by (unfold step; rewrite E; reflexivity). apply (Up_step _ _ _ _ _ _ ST Logic.I). eapply u_next; [exact (gp_step _ _ _ _ G (Logic.I : plain Go) ST)| |rewrite gone; reflexivity].
  revert T. apply top_flat. destruct (c0 =? tg)%nat; apply (flat3_go s); [apply flat3_refl|]. apply flat3_put; try reflexivity. apply flat3_refl.
Qed.
Lemma u_unln s t y w tg n c0 h st q c sk m : gp s -> top s m -> pcs s t = WUnlN y w tg n c0 h st (Some q) (Some (c, sk)) -> Up s t m (S h).
Proof.
  intros G T E. eassert (ST : step s t Go = Some _) by (unfold step; rewrite E; reflexivity). apply (Up_step _ _ _ _ _ _ ST Logic.I). eapply u_unlc; [exact (gp_step _ _ _ _ G (Logic.I : plain Go) ST)| |rewrite gone; reflexivity].
  revert T. apply top_flat. destruct (n =? tg)%nat; apply (flat3_go s); [apply flat3_refl|]. apply flat3_put; try reflexivity. apply flat3_refl.
Qed.
Lemma u_after s t y w tg n c0 sk0 h st q c sk m : gp s -> top s m -> pcs s t = after_in y w tg n c0 sk0 h st (Some q) (Some (c, sk)) -> Up s t m (S h).
Proof.
  intros G T E. unfold after_in in E. destruct h; [|exact (u_unln _ _ _ _ _ _ _ _ _ _ _ _ _ G T E)]. eassert (ST : step s t Go = Some _) by (unfold step; rewrite E; reflexivity). apply (Up_step _ _ _ _ _ _ ST Logic.I).
  eapply u_unln; [exact (gp_step _ _ _ _ G (Logic.I : plain Go) ST)| |rewrite gone; reflexivity]. revert T. apply top_flat. apply (flat3_go s). apply flat3_put; try reflexivity. apply flat3_refl.
Qed.
