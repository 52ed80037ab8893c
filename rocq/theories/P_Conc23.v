(* Concurrent layer: runs without deleted leaves, and runs of gets and puts only. *)
From Verif Require Import Lib M_Tree M_Stampc P_Stampc1 M_Conc M_ConcRun Spec_Conc Spec_Conc2 P_Conc1 P_Conc2 P_Conc3 P_Conc4 P_Conc6 P_Conc14 P_Conc15 P_Conc16 P_Conc16b P_Conc18 P_Conc19 P_Conc20 P_Conc21 P_Conc22 P_ConcR.

Lemma XI_start : XI start (fun _ => 0).
Proof. constructor; cbn; intros; try discriminate; auto; try exact Logic.I. Qed.
Lemma abnd_only s t x s' : step s t x = Some s' -> x <> Abandon -> abnd s = false -> abnd s' = false.
Proof.
  intros ST N A. revert ST. unfold step. destruct (pcs s t) eqn:E; intros ST; destruct x; try discriminate ST; try (destruct o; discriminate ST); try (destruct (N eq_refl)); cases ST; try exact A;
    try (repeat match goal with |- context[if ?b then _ else _] => destruct b | |- context[match ?b with Some _ => _ | None => _ end] => destruct b end; exact A).
  all: try (rewrite in_abnd; exact A).
  all: try (rewrite (proj2 (out_misp _ _ _ _ _ _ _ _)); exact A).
  all: try (unfold leaf_split; destruct (nxt (nd s n)); exact A).
Qed.

Lemma undel_all s l s' : steps s l s' -> forall g b, Inv s g -> XI s b -> misp s = false -> abnd s' = false -> nodel s -> (forall e, In e l -> nodel (snd e)) -> misp s' = false.
Proof.
  induction 1 as [|s t x s1 l s2 E H IH]; intros g b Ig X M A N H1; [exact M|]. destruct (steps_marks _ _ _ H) as (_ & A1). pose proof (misp_ok s g b t x s1 Ig X N E M) as M1.
  destruct (Inv_step _ _ _ _ _ Ig E M1 (A1 A)) as (g1 & I1 & _). pose proof (H1 _ (or_introl eq_refl)) as N1. cbn [snd] in N1. destruct (XI_step s g b t x s1 Ig X N N1 E M (A1 A)) as (b1 & X1).
  apply (IH g1 b1); auto. intros e He. apply H1. now right.
Qed.
Lemma undel_misp l s : steps start l s -> undeleted l -> abnd s = false -> misp s = false.
Proof.
  intros H U A. apply (undel_all start l s H g_start (fun _ => 0) Inv_start XI_start); auto.
  - intros a. exact (U 0%nat a ltac:(lia)).
  - intros e He. destruct (In_nth_error _ _ He) as (k & Hk). assert (V : (S k <= length l)%nat -> nodel (st l (S k))) by (intros V a; exact (U (S k) a V)). clear U; rename V into U. unfold st in U. cbn [nth] in U. assert (Hl : (k < length l)%nat) by (apply nth_error_Some; congruence). specialize (U ltac:(lia)).
    assert (Q : nth k (map snd l) start = snd e) by (apply nth_error_nth; now apply map_nth_error). now rewrite Q in U.
Qed.

(* ---- no removals ---- *)
Definition alive (s : cst) : Prop := forall a, v_del (ver (nd s a)) = false.
Definition norem (p : pct) : Prop := (forall y, pre p <> Some (y, ORem)) /\ (forall y r, post p <> Some (y, ORem, r)).
Lemma alive_put s a x : alive s -> v_del (ver x) = false -> alive (put s a x).
Proof. intros H Q z. cbn [put nd]. unfold setf. destruct (z =? a)%nat; auto. Qed.
Lemma alive_vput s a v : alive s -> v_del v = false -> alive (vput s a v). Proof. intros H Q. now apply alive_put. Qed.
Lemma alive_par s a o : alive s -> alive (setpar s a o). Proof. intros H. apply alive_put; [exact H|apply H]. Qed.
Lemma alive_pars q : forall l s, alive s -> alive (setpars s l q). Proof. induction l as [|[c|] l IH]; intros s H; cbn [setpars]; auto using alive_par. Qed.
Lemma alive_unlock s a : alive s -> alive (unlock s a).
Proof. intros H. apply alive_vput; [exact H|]. unfold v_unlock. destruct (v_spl _); apply H. Qed.
Lemma alive_in s t y w tg n c sk h st q : alive s -> alive (in_parent s t y w tg n c sk h st q).
Proof.
  intros H. unfold in_parent. cbv zeta. assert (C0 : forall z, alive (misplace (vput s q (v_mins (ver (nd s q)))) z)) by (intros z; apply (alive_vput s q); [exact H|apply H]).
  destruct (S h <? ht (nd s q))%nat; [|destruct (length (keys (nd s q)) <? W)%nat].
  - apply alive_par, alive_par. apply alive_put; [|cbn [with_kk ver]]; [apply alive_put; [apply C0|reflexivity]|]. apply (alive_put (grow _) (fr s)); [apply C0|reflexivity].
  - apply alive_par. apply alive_put; [apply C0|]. apply C0.
  - apply alive_pars. apply alive_put; [|apply H]. apply (alive_put (setpar _ c (Some q)) q); [apply alive_par, C0|]. cbn [with_kk with_ver ver v_mspl v_del]. now apply alive_par.
Qed.
Lemma alive_root s t y w tg n c sk h st : alive s -> alive (new_root s t y w tg n c sk h st).
Proof. intros H. unfold new_root. cbv zeta. apply alive_par, alive_par, alive_put; [exact H|reflexivity]. Qed.
Lemma alive_split s t y w n : alive s -> alive (leaf_split s t y w n).
Proof.
  intros H. unfold leaf_split. cbv zeta. set (s1 := put (grow s) _ _). assert (H1 : alive s1) by (apply alive_put; [exact H|apply H]). destruct (nxt (nd s n)) as [z|].
  - assert (H2 : alive (put s1 z (with_prv (nd s1 z) (Some (fr s))))) by (apply alive_put; [exact H1|apply H1]). apply alive_put; [exact H2|apply H2].
  - apply alive_put; [exact H1|apply H1].
Qed.
Lemma alive_step s t x s' : step s t x = Some s' -> norem (pcs s t) -> alive s -> alive s'.
Proof.
  intros ST (N1 & N2) H. revert ST N1 N2. unfold step. destruct (pcs s t) eqn:E; intros ST N1 N2; destruct x; try discriminate ST; try (destruct o; discriminate ST); try (destruct (N2 _ _ eq_refl); fail); cases ST; try exact H;
    try (destruct (N1 _ eq_refl); fail); try (apply alive_vput; [exact H|apply H]); auto using alive_in, alive_root, alive_split.
  all: try (apply (alive_put s); [exact H|apply H]).
  all: try (apply (alive_unlock s); exact H).
  - destruct (par (nd s (rootp s))); exact H.
  - destruct (same s n v); [exact H|]. now apply (alive_unlock s).
  - destruct (n =? tg)%nat; [exact H|]. now apply (alive_unlock s).
  - destruct (c =? tg)%nat; [exact H|]. now apply (alive_unlock s).
Qed.

Lemma norem_in s t y w tg n c sk h st q : norem (pcs (in_parent s t y w tg n c sk h st q) t).
Proof. destruct (pcs_in s t y w tg n c sk h st q) as (q' & nc & ->). unfold after_in. repeat match goal with |- context[if ?b then _ else _] => destruct b | |- context[match ?b with Some _ => _ | None => _ end] => destruct b end; split; discriminate. Qed.
Lemma norem_step s t x s' : step s t x = Some s' -> (forall y, x <> Start y ORem) -> (forall t0, norem (pcs s t0)) -> forall t0, norem (pcs s' t0).
Proof.
  intros ST NX N t0. destruct (Nat.eq_dec t0 t) as [->|D].
  2: { destruct (step_pcs _ _ _ _ ST) as (p & Hp). rewrite Hp. destruct (Nat.eqb_spec t0 t); [contradiction|apply N]. }
  pose proof (N t) as (N1 & N2). revert ST N1 N2. unfold step. destruct (pcs s t) eqn:E; intros ST N1 N2; destruct x; try discriminate ST; try (destruct (N2 _ _ eq_refl); fail);
    try (destruct o as [|w'|]; try discriminate ST; try (destruct (NX _ eq_refl); fail); try (destruct (N1 _ eq_refl); fail); try (destruct (N2 _ _ eq_refl); fail)); cases ST; rewrite ?gone; try (split; discriminate).
  all: try apply norem_in.
  all: try (rewrite pcs_root; unfold after_in; repeat match goal with |- context[if ?b then _ else _] => destruct b | |- context[match ?b with Some _ => _ | None => _ end] => destruct b end; split; discriminate).
  all: try (match goal with |- context[leaf_split ?s ?t ?y ?w ?n] => destruct (pcs_split s t y w n) as (a1 & a2 & a3 & a4 & ->) end; split; discriminate).
  all: unfold enter; repeat match goal with |- context[if ?b then _ else _] => destruct b | |- context[match ?b with Some _ => _ | None => _ end] => destruct b end; rewrite ?gone; try (split; discriminate).
  all: exact (N t).
Qed.

Lemma gp_all s l s' : steps s l s' -> (forall e y, In e l -> snd (fst e) <> Start y ORem) -> (forall e, In e l -> snd (fst e) <> Abandon) ->
  alive s -> (forall t, norem (pcs s t)) -> abnd s = false -> abnd s' = false /\ (forall e, In e l -> alive (snd e)).
Proof.
  induction 1 as [|s t x s1 l s2 E H IH]; intros R G L N A; [split; [exact A|intros e []]|].
  assert (L1 : alive s1) by exact (alive_step s t x s1 E (N t) L).
  assert (N1 : forall t0, norem (pcs s1 t0)) by (apply (norem_step s t x s1 E); [intros y; exact (R _ y (or_introl eq_refl))|exact N]).
  assert (A1 : abnd s1 = false) by exact (abnd_only s t x s1 E (G _ (or_introl eq_refl)) A).
  destruct (IH (fun e y He => R e y (or_intror He)) (fun e He => G e (or_intror He)) L1 N1 A1) as (H1 & H2). split; [exact H1|]. intros e [<-|He]; [exact L1|now apply H2].
Qed.
Lemma up_all s l s' : steps s l s' -> (forall e, In e l -> snd (fst e) <> Abandon) -> abnd s = false -> abnd s' = false.
Proof.
  induction 1 as [|s t x s1 l s2 E H IH]; intros G A; [exact A|]. apply IH; [intros e He; apply G; now right|]. exact (abnd_only s t x s1 E (G _ (or_introl eq_refl)) A).
Qed.
Lemma ev_in (l : list (cevent * cst)) e : In e l -> exists k, ev l k (fst e).
Proof. intros H. destruct (In_nth_error _ _ H) as (k & Hk). exists k, (snd e). now destruct e. Qed.
Lemma noab l s : steps start l s -> no_giving_up l -> abnd s = false.
Proof. intros H G. apply (up_all start l s H); [|reflexivity]. intros [[t x] s0] He Q. cbn in Q. subst x. destruct (ev_in l _ He) as (k & Hk). exact (G k t Hk). Qed.
Lemma undel_main l s : steps start l s -> undeleted l -> no_giving_up l -> atomic l s.
Proof. intros H U G. pose proof (noab l s H G) as A. exact (conc_main l s H (undel_misp l s H U A) A). Qed.
Lemma gp_undel l s : steps start l s -> no_removals l -> no_giving_up l -> undeleted l.
Proof.
  intros H R G. assert (L0 : alive start) by (intros a; reflexivity). destruct (gp_all start l s H) as (_ & L); auto.
  - intros [[t x] s0] y He Q. cbn in Q. subst x. destruct (ev_in l _ He) as (k & Hk). exact (R k t y Hk).
  - intros [[t x] s0] He Q. cbn in Q. subst x. destruct (ev_in l _ He) as (k & Hk). exact (G k t Hk).
  - intros t. split; discriminate.
  - intros k a Hk _. unfold st. destruct k as [|k]; [apply L0|]. cbn [nth]. destruct (nth_error l k) as [e|] eqn:E; [|apply nth_error_None in E; lia].
    rewrite (nth_error_nth (map snd l) k start (map_nth_error snd k l E)). apply L. exact (nth_error_In _ _ E).
Qed.
Lemma gp_main l s : steps start l s -> no_removals l -> no_giving_up l -> atomic l s.
Proof. intros H R G. exact (undel_main l s H (gp_undel l s H R G) G). Qed.

(* ---- examples ---- *)
Definition runP : trace := drive 100 at_done (puts (drive 20 at_leaf (begin run0 1 2050 (OPut 7)) 1) 0 (zs 300 100 100)) 1.
Definition runQ : trace := drive 100 at_done (begin runP 2 2050 OGet) 2.
Lemma ok_runQ : tr_ok runQ.
Proof. unfold runQ, begin. apply ok_drive, ok_act. unfold runP. apply ok_drive. unfold puts. apply ok_fold; [intros; now apply ok_whole|]. apply ok_drive, ok_act. constructor. Qed.
Definition no_evb (f : choice -> bool) (l : list (cevent * cst)) : bool := forallb (fun e => negb (f (snd (fst e)))) l.
Definition isrem (x : choice) : bool := match x with Start _ ORem => true | _ => false end.
Definition isab (x : choice) : bool := match x with Abandon => true | _ => false end.
Lemma no_evb_ok f l : no_evb f l = true -> forall k t x, ev l k (t, x) -> f x = false.
Proof. unfold no_evb. rewrite forallb_forall. intros H k t x (s0 & Q). specialize (H _ (nth_error_In _ _ Q)). cbn in H. now apply negb_true_iff in H. Qed.
(* Some internode has internodes below it. *)
Definition tall (s : cst) : bool := existsb (fun a => (2 <=? ht (nd s a))%nat) (seq 0 (fr s)).
Lemma exQ : let l := rev (fst runQ) in let s := snd runQ in let k := length (fst runP) in
  no_evb isrem l && no_evb isab l && tall s && finb l 0 (k - 1) 1 2050 (OPut 7) None && finb l k (length l - 1) 2 2050 OGet (Some 7) = true.
Proof. vm_compute. reflexivity. Qed.
Lemma gp_example : exists l s i j k, steps start l s /\ no_removals l /\ no_giving_up l /\ tall s = true /\ finished l 0 i 1 2050 (OPut 7) None /\ finished l k j 2 2050 OGet (Some 7).
Proof.
  pose proof exQ as H. cbv zeta in H. apply andb_prop in H. destruct H as (H & H5). apply andb_prop in H. destruct H as (H & H4). apply andb_prop in H. destruct H as (H & H3). apply andb_prop in H. destruct H as (H1 & H2).
  do 5 eexists. split; [exact ok_runQ|]. split; [intros k t y Q; discriminate (no_evb_ok _ _ H1 _ _ _ Q)|]. split; [intros k t Q; discriminate (no_evb_ok _ _ H2 _ _ _ Q)|].
  split; [exact H3|]. split; [exact (finb_ok _ _ _ _ _ _ _ H4)|exact (finb_ok _ _ _ _ _ _ _ H5)].
Qed.

Definition runS : trace := drive 100 at_done (puts (drive 20 at_leaf (begin run0 1 2050 (OPut 7)) 1) 0 (zs 20 100 100)) 1.
Definition runR : trace := drive 100 at_done (begin (whole runS 3 2050 ORem) 2 2050 OGet) 2.
Lemma ok_runR : tr_ok runR.
Proof. unfold runR, begin. apply ok_drive, ok_act, ok_whole. unfold runS. apply ok_drive. unfold puts. apply ok_fold; [intros; now apply ok_whole|]. apply ok_drive, ok_act. constructor. Qed.
Definition undelb (l : list (cevent * cst)) : bool := forallb (fun e => forallb (fun a => negb (v_del (ver (nd (snd e) a)))) (seq 0 (fr (snd e)))) l.
Lemma undelb_ok l : undelb l = true -> undeleted l.
Proof.
  unfold undelb. rewrite forallb_forall. intros H k a Hk. unfold st. destruct k as [|k]; [reflexivity|]. cbn [nth]. destruct (nth_error l k) as [e|] eqn:E; [|apply nth_error_None in E; lia].
  rewrite (nth_error_nth (map snd l) k start (map_nth_error snd k l E)). intros Ha. specialize (H _ (nth_error_In _ _ E)). rewrite forallb_forall in H. specialize (H a). rewrite in_seq in H. apply negb_true_iff, H. lia.
Qed.
Lemma exR : let l := rev (fst runR) in let k := length (fst runS) in let m := length (fst (whole runS 3 2050 ORem)) in
  undelb l && no_evb isab l && (3 <=? fr (snd runR))%nat && finb l k (m - 2) 3 2050 ORem (Some 7) && finb l m (length l - 1) 2 2050 OGet None = true.
Proof. vm_compute. reflexivity. Qed.
Lemma undel_example : exists l s i j k m, steps start l s /\ undeleted l /\ no_giving_up l /\ (3 <= fr s)%nat /\ finished l i j 3 2050 ORem (Some 7) /\ finished l k m 2 2050 OGet None.
Proof.
  pose proof exR as H. cbv zeta in H. apply andb_prop in H. destruct H as (H & H5). apply andb_prop in H. destruct H as (H & H4). apply andb_prop in H. destruct H as (H & H3). apply andb_prop in H. destruct H as (H1 & H2). apply Nat.leb_le in H3.
  do 6 eexists. split; [exact ok_runR|]. split; [exact (undelb_ok _ H1)|]. split; [intros k t Q; discriminate (no_evb_ok _ _ H2 _ _ _ Q)|].
  split; [exact H3|]. split; [exact (finb_ok _ _ _ _ _ _ _ H4)|exact (finb_ok _ _ _ _ _ _ _ H5)].
Qed.
