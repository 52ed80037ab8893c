(* What one sees when following the pointers of the list of leaves. *)
From Verif Require Import Lib M_Link Spec_Link P_Link1 P_Link2 P_Link3 P_Link4 P_Link5.

Lemma after_app P x Q : NoDup (P ++ x :: Q) -> after (P ++ x :: Q) x = hd_error Q.
Proof.
  induction P as [|y P IH]; cbn.
  - now rewrite Nat.eqb_refl.
  - intros N. inversion N; subst. destruct (Nat.eqb_spec y x) as [->|]; auto. exfalso. apply H1. apply in_or_app. right. now left.
Qed.
Lemma fwd_chain nx Q : NoDup Q -> (forall a, In a Q -> fst (nx a) = after Q a) -> forward nx (hd_error Q) Q.
Proof.
  intros N H. assert (X : forall Q' P, Q = P ++ Q' -> forward nx (hd_error Q') Q').
  { induction Q' as [|x Q' IH]; intros P E; [constructor|]. cbn. constructor. rewrite H by (rewrite E; apply in_or_app; right; now left). rewrite E, after_app by (now rewrite <- E). apply (IH (P ++ [x])). rewrite E, <- app_assoc. reflexivity. }
  now apply (X Q []).
Qed.
Lemma bwd_chain pv Q f : NoDup Q -> hd_error Q = Some f -> pv f = None -> (forall a b, after Q a = Some b -> pv b = Some a) -> backward pv (Some (last Q f)) (rev Q).
Proof.
  intros N Hd F H. assert (X : forall P x Q', Q = P ++ x :: Q' -> backward pv (Some x) (x :: rev P)).
  { intros P. induction P as [|y P IH] using rev_ind; intros x Q' E; constructor.
    - cbn in E. rewrite E in Hd. cbn in Hd. injection Hd as ->. rewrite F. constructor.
    - rewrite (H y x); [rewrite rev_app_distr; cbn; apply (IH y (x :: Q')); rewrite E, <- app_assoc; reflexivity|]. rewrite E, <- app_assoc in *. cbn in *. now rewrite after_app. }
  destruct Q as [|q Q0] eqn:EQ; [discriminate|]. rewrite <- EQ in *. assert (Q <> []) as NN by (rewrite EQ; discriminate).
  rewrite (app_removelast_last f NN) at 2. rewrite rev_app_distr. cbn. apply (X _ _ []). rewrite <- app_removelast_last; auto.
Qed.
Lemma drops_all A Q S : (forall x, ~ A x) -> drops A Q S -> Q = S.
Proof. intros N D. induction D; auto; [congruence|]. now destruct (N x). Qed.
Lemma idle_chain s Q R S : Inv s Q R S -> idle s -> forward (l_nx s) (Some first) S /\ (forall x, In x S -> snd (l_nx s x) = false) /\ backward (l_pv s) (Some (last S first)) (rev S).
Proof.
  intros V I. assert (E : Q = S).
  { apply (drops_all (fun x => exists i, newly (l_pc s i) x)); [|exact (iDrops _ _ _ _ V)]. intros x (i & J). rewrite (I i) in J. exact J. }
  subst S.
  assert (N : forall a, In a Q -> fst (l_nx s a) = after Q a /\ snd (l_nx s a) = false).
  { intros a A. destruct (iNext _ _ _ _ V a A) as [(B & C & _)|(i & J)]; [|rewrite (I i) in J; destruct J; contradiction]. split; auto. destruct (snd (l_nx s a)); auto. destruct (C eq_refl) as (i & J). rewrite (I i) in J. destruct J; contradiction. }
  split; [rewrite <- (iHd _ _ _ _ V); apply fwd_chain; [exact (iNd _ _ _ _ V)|]; intros a A; now apply N|]. split; [intros x X; now apply N|].
  apply bwd_chain; [exact (iNd _ _ _ _ V)|exact (iHd _ _ _ _ V)|exact (iFirst _ _ _ _ V)|]. intros a b A. destruct (iPrev _ _ _ _ V a b A) as [(B & _)|(i & J)]; auto. rewrite (I i) in J. destruct J; contradiction.
Qed.
Lemma leads_forward nx R o t P : leads nx R o t -> forward nx t P -> exists X, forward nx o (X ++ P) /\ forall x, In x X -> In x R.
Proof.
  induction 1 as [t|x t I L IH]; intros F; [exists []; split; auto; intros x []|]. destruct (IH F) as (X & A & B). exists (x :: X). split; [constructor; auto|]. intros y [<-|Y]; auto.
Qed.
Lemma sublist_app {A} (X l P : list A) : sublist l P -> sublist l (X ++ P).
Proof. intros H. induction X; cbn; auto. now constructor. Qed.
Lemma path s Q R S : Inv s Q R S -> exists P, forward (l_nx s) (Some first) P /\ sublist S P /\ (forall x, In x P -> In x S \/ In x R) /\ (~ splitting s -> P = S).
Proof.
  intros V. pose proof (iNd _ _ _ _ V) as Nd. set (pend := fun x => exists i, newly (l_pc s i) x).
  assert (NP : forall i n, link_on (l_pc s i) n -> splitting s) by (intros i n L; destruct (l_pc s i) eqn:E; try contradiction; exists i, n0, nr; rewrite E; auto).
  assert (PP : forall i x, newly (l_pc s i) x -> exists n, after Q n = Some x /\ link_on (l_pc s i) n).
  { intros i x L. pose proof (iFact _ _ _ _ V i) as F. destruct (l_pc s i); try contradiction; cbn in L, F; subst; exists n; cbn; tauto. }
  assert (X : forall k Q' S' P', (length Q' < k)%nat -> Q = P' ++ Q' -> drops pend Q' S' -> (forall x, hd_error Q' = Some x -> ~ pend x) ->
    exists P, forward (l_nx s) (hd_error Q') P /\ sublist S' P /\ (forall x, In x P -> In x S' \/ In x R) /\ (~ splitting s -> P = S')).
  { induction k as [|k IH]; intros Q' S' P' Lk E D Hh; [lia|]. inversion D as [|x Q1 S1 K D1|x Q1 S1 K D1]; subst Q' S'.
    - exists []. repeat split; auto; constructor.
    - assert (EA : after Q x = hd_error Q1) by (rewrite E; apply after_app; now rewrite <- E).
      assert (IQ : In x Q) by (rewrite E; apply in_or_app; right; now left).
      destruct (iNext _ _ _ _ V x IQ) as [(B & C & D2 & D3)|(i & [J|J])].
      + destruct (IH Q1 S1 (P' ++ [x])) as (P & P1 & P2 & P3 & P4); auto.
        * cbn in Lk. lia.
        * rewrite E, <- app_assoc. reflexivity.
        * intros y Y (i & N). destruct (PP _ _ N) as (n & A1 & A2). assert (n = x) by (apply (after_uniq Q _ _ y Nd); congruence). subst. exact (D2 _ A2).
        * exists (x :: P). split; [constructor; now rewrite B, EA|]. split; [now constructor|]. split; [intros y [<-|Y]; [left; now left|destruct (P3 y Y); [left; now right|now right]]|]. intros NS. now rewrite P4.
      + destruct (fact_link V _ _ J) as (nr & A1 & A2 & _). rewrite EA in A1. destruct Q1 as [|y Q2]; [discriminate|]. cbn in A1. injection A1 as ->.
        assert (Nr : newly (l_pc s i) nr).
        { pose proof (iFact _ _ _ _ V i) as F. destruct (l_pc s i); try contradiction; cbn in J, F |- *; subst; cbn in EA; destruct F as (_ & _ & F & _); congruence. }
        inversion D1 as [|x' Q1' S1' K2 D3|x' Q1' S1' K2 D3]; subst; [destruct K2; exists i; auto|]. clear K2.
        assert (EN : after (P' ++ x :: nr :: Q2) nr = hd_error Q2).
        { replace (P' ++ x :: nr :: Q2) with ((P' ++ [x]) ++ nr :: Q2) by (rewrite <- app_assoc; reflexivity). apply after_app. rewrite <- app_assoc. exact Nd. }
        assert (LE : leads (l_nx s) R (fst (l_nx s x)) (hd_error Q2)).
        { pose proof (iFact _ _ _ _ V i) as F. destruct (l_pc s i); try contradiction; cbn in J, F, Nr; subst.
          - destruct F as (_ & _ & _ & F1 & F2 & _). rewrite F2, <- F1, EN. constructor.
          - destruct F as (_ & _ & _ & F1 & F2 & _). rewrite F2, <- F1, EN. constructor.
          - destruct F as (_ & _ & _ & _ & _ & F). now rewrite EN in F. }
        destruct (IH Q2 S1 (P' ++ [x; nr])) as (P & P1 & P2 & P3 & P4); auto.
        * cbn in Lk. lia.
        * rewrite <- app_assoc. reflexivity.
        * intros y Y (j & N). destruct (PP _ _ N) as (n & B1 & B2). assert (n = nr) by (apply (after_uniq _ _ _ y Nd); congruence). subst.
          assert (j = i) by exact (held_uniq V _ _ _ (link_held _ _ B2) (newly_held _ _ Nr)). subst.
          destruct (l_pc s i); cbn in J, B2; try contradiction; subst; inversion Nd as [|? ? Z1 Z2]; apply NoDup_remove_2 in Nd; apply Nd; apply in_or_app; right; now left.
        * destruct (leads_forward _ _ _ _ _ LE P1) as (X & X1 & X2). exists (x :: X ++ P). split; [now constructor|]. split; [constructor; now apply sublist_app|].
          split; [|intros NS; destruct NS; exact (NP _ _ J)]. intros y [<-|Y]; [left; now left|]. apply in_app_or in Y as [Y|Y]; auto. destruct (P3 y Y); [left; now right|now right].
      + destruct K. exists i. now apply early_newly, raw_early.
    - exfalso. exact (Hh x eq_refl K). }
  destruct (X (Datatypes.S (length Q)) Q S []) as (P & A); auto; [exact (iDrops _ _ _ _ V)| |exists P; now rewrite (iHd _ _ _ _ V) in A].
  intros x E (i & N). destruct (PP _ _ N) as (n & B1 & B2). exact (after_first _ _ _ Nd E B1).
Qed.
Lemma in_removed x ds : forall R, In x (removed R ds) <-> In x R \/ In (DUnlink x) ds.
Proof.
  unfold removed. induction ds as [|d ds IH]; intros R; cbn [fold_left In]; [tauto|]. rewrite IH. destruct d; cbn [In]; intuition congruence.
Qed.

(* The theorems. *)
Lemma run_inv g p l s ds : lexec (l_init g p) l = Some (s, ds) -> exists Q, Inv s Q (removed [] ds) (live ds).
Proof. intros H. destruct (exec_inv _ _ _ _ _ _ _ (init_inv g p) H) as (Q & V). exists Q. exact V. Qed.
Theorem quiet g p l s ds : lexec (l_init g p) l = Some (s, ds) -> idle s ->
  forward (l_nx s) (Some first) (live ds) /\ (forall x, In x (live ds) -> snd (l_nx s x) = false) /\ backward (l_pv s) (Some (last (live ds) first)) (rev (live ds)).
Proof. intros H I. destruct (run_inv _ _ _ _ _ H) as (Q & V). exact (idle_chain _ _ _ _ V I). Qed.
Theorem always g p l s ds : lexec (l_init g p) l = Some (s, ds) ->
  l_bad s = false /\ exists P, forward (l_nx s) (Some first) P /\ sublist (live ds) P /\ (forall x, In x P -> In x (live ds) \/ In (DUnlink x) ds) /\ (~ splitting s -> P = live ds).
Proof.
  intros H. destruct (run_inv _ _ _ _ _ H) as (Q & V). split; [exact (iBad _ _ _ _ V)|]. destruct (path _ _ _ _ V) as (P & A & B & C & D). exists P. split; [exact A|]. split; [exact B|]. split; [|exact D].
  intros x X. destruct (C x X) as [Y|Y]; auto. apply in_removed in Y as [[]|Y]. auto.
Qed.
Definition stale_run : list llabel :=
  [BeginLink 0 0 1] ++ repeat (Access 0) 5 ++ [BeginLink 0 0 2] ++ repeat (Access 0) 5 ++ [BeginUnlink 1 1] ++ repeat (Access 1) 5.
Lemma stale g p : exists s ds, lexec (l_init g p) stale_run = Some (s, ds) /\ forward (l_nx s) (Some first) [0%nat; 1%nat] /\ live ds = [0%nat] /\ In (DUnlink 1) ds.
Proof.
  destruct (lexec (l_init g p) stale_run) as [[s ds]|] eqn:E; [|vm_compute in E; discriminate]. exists s, ds. split; [reflexivity|]. vm_compute in E. injection E as <- <-.
  split; [constructor; cbn; constructor; cbn; constructor|]. split; [reflexivity|]. cbn. tauto.
Qed.
Theorem exact_refuted : exists g p l s ds P, lexec (l_init g p) l = Some (s, ds) /\ forward (l_nx s) (Some first) P /\ P <> live ds.
Proof.
  exists (fun _ => (None, false)), (fun _ => None), stale_run. destruct (stale (fun _ => (None, false)) (fun _ => None)) as (s & ds & A & B & C & D). exists s, ds, [0%nat; 1%nat]. split; auto. split; auto. rewrite C. discriminate.
Qed.
