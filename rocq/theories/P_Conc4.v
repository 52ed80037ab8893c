(* Concurrent layer: steps that change versions or rows only. *)
From Verif Require Import Lib M_Tree M_Stampc P_Stampc1 M_Conc P_Conc1 P_Conc2 P_Conc3.
From Coq Require Import Sorting.Sorted.

(* The tree does not depend on versions and rows. *)
Lemma GT_same s s' g : fr s' = fr s -> rootp s' = rootp s -> (forall a, isl (nd s' a) = isl (nd s a)) -> (forall a, par (nd s' a) = par (nd s a)) ->
  (forall a, keys (nd s' a) = keys (nd s a)) -> (forall a, kids (nd s' a) = kids (nd s a)) -> GT s g -> GT s' g.
Proof.
  intros E1 E2 E3 E4 E5 E6 [H1 H2 H3 H4 H5 H6 H7 H8 H9 H10 H11]. constructor.
  - intros a p. rewrite E1, E4, E3. apply H1.
  - intros p c. rewrite E1, E3, E6, E4. apply H2.
  - intros p. rewrite E1, E3, E6. apply H3.
  - intros p. rewrite E1, E3, E6, E5. apply H4.
  - intros p. rewrite E1, E3, E6. apply H5.
  - intros p f. rewrite E1, E3, E6. apply H6.
  - intros p r. rewrite E1, E3, E6, E4. apply H7.
  - intros n c. rewrite E1, E4, !E3. apply H8.
  - intros a. rewrite E1, E4. apply H9.
  - rewrite E1, E2. exact H10.
  - intros a. rewrite E1. apply H11.
Qed.

Lemma linked_iff s s' g g' a : fr s' = fr s -> isl (nd s' a) = isl (nd s a) -> ul g' a = ul g a -> (linked s' g' a <-> linked s g a).
Proof. intros E1 E2 E3. unfold linked. rewrite E1, E2, E3. tauto. Qed.

(* The list of leaves when only versions change. *)
Lemma GL_ver s s' g : fr s' = fr s -> (forall a, isl (nd s' a) = isl (nd s a)) -> (forall a, lo (nd s' a) = lo (nd s a)) -> (forall a, rws (nd s' a) = rws (nd s a)) ->
  (forall a, zk (nd s' a) = zk (nd s a)) -> (forall a, nxt (nd s' a) = nxt (nd s a)) -> (forall a, prv (nd s' a) = prv (nd s a)) ->
  (forall a, (a < fr s)%nat -> us g a <> None -> v_del (ver (nd s' a)) = false) ->
  (forall a, (a < fr s)%nat -> isl (nd s a) = true -> v_del (ver (nd s' a)) = true -> rws (nd s a) = []) ->
  (forall a, v_del (ver (nd s a)) = true -> v_del (ver (nd s' a)) = true) ->
  (forall a, ze g a = true -> v_spl (ver (nd s' a)) = true) -> GL s g -> GL s' g.
Proof.
  intros E1 E2 E3 E4 E5 E6 E7 V1 V2 V3 V4 [H1 H2 H3 H4 H5 H6].
  assert (LE : forall a, linked s' g a <-> linked s g a) by (intros a; now apply linked_iff).
  assert (NE : forall o, nlo s' o = nlo s o) by (intros [b|]; cbn; auto).
  constructor.
  - intros n c Hu. destruct (H1 n c Hu) as (A & B & C & D & E & F). rewrite !LE, !E4. split; [exact A|]. split; [exact B|]. split; [exact C|]. split; [exact D|]. split; [|exact F].
    apply V1; [apply A|congruence].
  - intros a A B. rewrite E1 in A. rewrite E2 in B. destruct (H2 a A B) as (C1 & C2 & C3 & C4 & C5 & C6). rewrite E3, E4, E6.
    split; [exact C1|]. split; [exact C2|]. split; [exact C3|]. split; [auto|]. split; [now apply V2|]. intros b Hb. rewrite E1, E2. now apply C6.
  - intros a A. apply LE in A. destruct (H3 a A) as (C1 & C2 & C3 & C4 & C5 & C6). rewrite E3, E6, E7, NE. split; [exact C1|]. split; [exact C2|]. split; [exact C3|]. split.
    + intros b Hb. rewrite LE, E7. now apply C4.
    + split; [|exact C6]. intros b Hb. rewrite LE, E6. now apply C5.
  - intros a A B. rewrite E1 in A. rewrite E2 in B. rewrite E3, E4, E5. now apply H4.
  - exact V4.
  - intros a b A B. apply LE in A. apply LE in B. rewrite !E3. now apply H6.
Qed.

Lemma bd_same s s' g g' x : (forall a, linked s g a -> linked s' g' a /\ lo (nd s' a) = lo (nd s a)) -> bd s g x -> bd s' g' x.
Proof. intros H [->|(a & A & B)]; [now left|]. right. exists a. destruct (H a A). split; [assumption|congruence]. Qed.

(* ---- one version ---- *)
Section Vput.
  Variables (s : cst) (g : gst) (t a : nat) (v : cver) (p' : pct) (s' : cst).
  Hypothesis G : GI s g.
  Hypothesis L : LI s.
  Hypothesis K : LK s g.
  Hypothesis En : forall x, nd s' x = if (x =? a)%nat then with_ver (nd s a) v else nd s x.
  Hypothesis Ef : fr s' = fr s.
  Hypothesis Er : rootp s' = rootp s.
  Hypothesis Ep : forall t0, pcs s' t0 = setf (pcs s) t p' t0.
  Hypothesis Ha : (a < fr s)%nat.
  Hypothesis Hmine : forall t', t' <> t -> ~ In a (holds (pcs s t')).
  Hypothesis Vm : vmono (ver (nd s a)) v.
  Hypothesis Vd : v_dirty v = true -> v_lk v = true.
  Hypothesis Vdel : v_del (ver (nd s a)) = true -> v_del v = true.
  Hypothesis Vdi : v_del v = true -> isl (nd s a) = false -> v_del (ver (nd s a)) = true.
  Hypothesis Vrow : v_del v = true -> isl (nd s a) = true -> rws (nd s a) = [] /\ us g a = None.
  Hypothesis Vpd : pd g a <> None -> isl (nd s a) = false -> v_spl v = true.
  Hypothesis Vze : ze g a = true -> v_spl v = true.
  Hypothesis Vr1 : v_rt v = true -> v_spl v = false -> v_rt (ver (nd s a)) = true /\ v_spl (ver (nd s a)) = false.
  Hypothesis Vr3 : par (nd s a) = None -> (forall m, pd g m <> Some a) -> pd g a = None -> v_rt v = true /\ v_spl v = false.

  Lemma vp_f (f : cnode -> Z) : (forall n w, f (with_ver n w) = f n) -> forall x, f (nd s' x) = f (nd s x).
  Proof. intros H x. rewrite En. destruct (Nat.eqb_spec x a) as [->|N]; auto. Qed.
  Ltac vf := intros x; rewrite En; destruct (Nat.eqb_spec x a) as [->|N]; reflexivity.
  Lemma vp_isl x : isl (nd s' x) = isl (nd s x). Proof. revert x. vf. Qed.
  Lemma vp_par x : par (nd s' x) = par (nd s x). Proof. revert x. vf. Qed.
  Lemma vp_lo x : lo (nd s' x) = lo (nd s x). Proof. revert x. vf. Qed.
  Lemma vp_rws x : rws (nd s' x) = rws (nd s x). Proof. revert x. vf. Qed.
  Lemma vp_zk x : zk (nd s' x) = zk (nd s x). Proof. revert x. vf. Qed.
  Lemma vp_nxt x : nxt (nd s' x) = nxt (nd s x). Proof. revert x. vf. Qed.
  Lemma vp_prv x : prv (nd s' x) = prv (nd s x). Proof. revert x. vf. Qed.
  Lemma vp_keys x : keys (nd s' x) = keys (nd s x). Proof. revert x. vf. Qed.
  Lemma vp_kids x : kids (nd s' x) = kids (nd s x). Proof. revert x. vf. Qed.
  Lemma vp_ver x : ver (nd s' x) = if (x =? a)%nat then v else ver (nd s x). Proof. revert x. vf. Qed.

  Lemma vp_GI : GI s' g.
  Proof.
    destruct G as [GA GB GC]. constructor.
    - apply (GT_same s); auto using vp_isl, vp_par, vp_keys, vp_kids.
    - apply (GL_ver s); auto using vp_isl, vp_lo, vp_rws, vp_zk, vp_nxt, vp_prv.
      + intros x Hx Hu. rewrite vp_ver. destruct (us g x) as [c|] eqn:E; [|congruence]. destruct (gl_us _ _ GB _ _ E) as (A & _ & _ & _ & B & _).
        destruct (Nat.eqb_spec x a) as [->|N]; [|exact B]. destruct (v_del v) eqn:Ev; [|reflexivity]. destruct (Vrow eq_refl (proj1 (proj2 A))). congruence.
      + intros x Hx Hi. rewrite vp_ver. destruct (Nat.eqb_spec x a) as [->|N]; [intros Q; now apply Vrow|]. intros Q. now apply (gl_leaf _ _ GB x Hx Hi).
      + intros x Hx. rewrite vp_ver. destruct (Nat.eqb_spec x a) as [->|N]; auto.
      + intros x Hx. rewrite vp_ver. destruct (Nat.eqb_spec x a) as [->|N]; auto. now apply (gl_ze _ _ GB).
    - destruct GC as [H1 H2 H3 H4 H5 H6 H7]. constructor.
      + intros n c E. rewrite vp_isl, vp_ver. destruct (H1 n c E) as (A & B). split; [exact A|]. intros C.
        destruct (Nat.eqb_spec n a) as [->|N]; [apply Vpd; [congruence|exact C]|auto].
      + intros x. rewrite Ef. intros Hx. destruct (H2 x Hx) as (A & B).
        assert (Q : forall b, linked s g b -> linked s' g b /\ lo (nd s' b) = lo (nd s b)).
        { intros b Hb. split; [|apply vp_lo]. apply (linked_iff s s' g g b Ef (vp_isl b) eq_refl). exact Hb. }
        split; eapply bd_same; eauto.
      + intros x. rewrite Ef, vp_ver. destruct (Nat.eqb_spec x a) as [->|N]; auto.
      + intros x. rewrite Ef, vp_ver. destruct (Nat.eqb_spec x a) as [->|N]; auto. intros Hx Q1 Q2 Q3. destruct (Vr1 Q1 Q3). now apply H4.
      + intros x. rewrite Ef, vp_ver, vp_par. destruct (Nat.eqb_spec x a) as [->|N]; auto.
      + intros p tl. rewrite Ef, vp_isl, vp_ver, vp_kids. intros A B C D. apply (H6 p tl A B); [|exact D].
        destruct (Nat.eqb_spec p a) as [->|N]; [|exact C]. destruct (v_del (ver (nd s a))) eqn:Q; [|reflexivity]. rewrite (Vdel eq_refl) in C. discriminate.
      + intros p. rewrite Ef, vp_isl, vp_ver, vp_kids. intros A B C. apply (H7 p A B). destruct (Nat.eqb_spec p a) as [->|N]; auto.
  Qed.
  Lemma vp_Rel : Rel s g s' g.
  Proof.
    constructor; intros; rewrite ?Ef, ?vp_isl, ?vp_par, ?vp_keys, ?vp_kids; auto; try lia.
    - rewrite vp_ver. destruct (Nat.eqb_spec a0 a) as [->|N]; [exact Vm|apply vmono_refl].
    - repeat split; auto. intros. lia.
  Qed.
  Lemma vp_Frame : Frame s g s' g t.
  Proof.
    constructor; intros; rewrite ?vp_rws, ?vp_keys, ?vp_kids, ?vp_par, ?vp_lo; auto.
    - rewrite vp_ver. destruct (Nat.eqb_spec a0 a) as [->|N]; [destruct (Hmine t' H H0)|]. repeat split; auto; lia.
    - repeat split; auto; lia.
    - rewrite Ep. now apply setf_other.
  Qed.
  Lemma vput_ok : (forall x, In x (holds p') -> (In x (holds (pcs s t)) \/ v_lk (ver (nd s x)) = false) /\ (x < fr s)%nat /\ (x <> a -> In x (holds (pcs s t))) /\ (x = a -> v_lk v = true)) ->
    pdof p' = pdof (pcs s t) -> usof p' = usof (pcs s t) -> rpof p' = rpof (pcs s t) ->
    (zeof (pcs s t) = None \/ zeof p' = zeof (pcs s t)) -> JI s' g p' -> OK s g s' t.
  Proof.
    intros Hh K1 K2 K3 K4 J. exists g. split; [apply vp_GI|]. split; [apply vp_Rel|]. split; [apply vp_Frame|]. split; [|split].
    - apply (LI_step s g s' g t p' L vp_Frame Ep); [lia|]. intros x Hx. destruct (Hh x Hx) as (A & B & C & D). split; [tauto|]. rewrite Ef. split; [exact B|].
      rewrite vp_ver. destruct (Nat.eqb_spec x a) as [->|N]; [auto|]. exact (proj2 (proj1 L t x (C N))).
    - now apply (link_same s t p' L g s').
    - now rewrite (Ep t), setf_same.
  Qed.
End Vput.

Lemma nd_vput s a v x : nd (vput s a v) x = if (x =? a)%nat then with_ver (nd s a) v else nd s x.
Proof. reflexivity. Qed.

Section Vsteps.
  Variables (s : cst) (g : gst) (t : nat).
  Hypothesis G : GI s g.
  Hypothesis L : LI s.
  Hypothesis K : LK s g.
  Let GA := gi_t _ _ G.
  Let GB := gi_l _ _ G.
  Let GC := gi_v _ _ G.

  Lemma del_rows a : (a < fr s)%nat -> v_del (ver (nd s a)) = true -> isl (nd s a) = true -> rws (nd s a) = [] /\ us g a = None.
  Proof.
    intros A B C. split; [now apply (gl_leaf _ _ GB a A C)|]. destruct (us g a) as [c|] eqn:E; [|reflexivity].
    destruct (gl_us _ _ GB _ _ E) as (_ & _ & _ & _ & D & _). congruence.
  Qed.
  Lemma mine a : In a (holds (pcs s t)) -> forall t', t' <> t -> ~ In a (holds (pcs s t')).
  Proof. intros A t' N B. apply N. exact (proj2 L _ _ _ B A). Qed.
  Lemma unlocked_mine a : v_lk (ver (nd s a)) = false -> forall t', t' <> t -> ~ In a (holds (pcs s t')).
  Proof. intros A t' N. now apply held_locked. Qed.

  (* The lock and mark_insert: no other bit changes. *)
  Lemma soft_ok a v p' s' : (forall x, nd s' x = if (x =? a)%nat then with_ver (nd s a) v else nd s x) -> fr s' = fr s -> rootp s' = rootp s ->
    (forall t0, pcs s' t0 = setf (pcs s) t p' t0) -> (a < fr s)%nat -> (In a (holds (pcs s t)) \/ v_lk (ver (nd s a)) = false) ->
    vmono (ver (nd s a)) v -> v_lk v = true -> v_del v = v_del (ver (nd s a)) -> v_spl v = v_spl (ver (nd s a)) -> v_rt v = v_rt (ver (nd s a)) ->
    (forall x, In x (holds p') -> x = a \/ In x (holds (pcs s t))) ->
    pdof p' = pdof (pcs s t) -> usof p' = usof (pcs s t) -> rpof p' = rpof (pcs s t) ->
    (zeof (pcs s t) = None \/ zeof p' = zeof (pcs s t)) -> JI s' g p' -> OK s g s' t.
  Proof.
    intros E1 E2 E3 E4 Ha Hl Vm V1 V2 V3 V4 Hh K1 K2 K3 K4 J.
    apply (vput_ok s g t a v p' s' G L K E1 E2 E3 E4 Ha); auto.
    - destruct Hl as [Hl|Hl]; [now apply mine|now apply unlocked_mine].
    - congruence.
    - congruence.
    - rewrite V2. now apply del_rows.
    - rewrite V3. intros A B. destruct (pd g a) as [c|] eqn:Q; [|congruence]. now apply (gv_pd _ _ GC _ _ Q).
    - rewrite V3. apply (gl_ze _ _ GB).
    - rewrite V3, V4. auto.
    - rewrite V3, V4. now apply (gv_root3 _ _ GC).
    - intros x Hx. destruct (Hh x Hx) as [->|A].
      + split; [exact Hl|]. split; [exact Ha|]. split; [congruence|auto].
      + split; [now left|]. split; [exact (proj1 (proj1 L _ _ A))|]. split; [auto|]. intros _. exact V1.
  Qed.
  Lemma lock_ok a p' : (a < fr s)%nat -> v_lk (ver (nd s a)) = false -> let s' := go (vput s a (v_lock (ver (nd s a)))) t p' in
    (forall x, In x (holds p') -> x = a \/ In x (holds (pcs s t))) ->
    pdof p' = pdof (pcs s t) -> usof p' = usof (pcs s t) -> rpof p' = rpof (pcs s t) ->
    (zeof (pcs s t) = None \/ zeof p' = zeof (pcs s t)) -> JI s' g p' -> OK s g s' t.
  Proof.
    intros Ha Hl s' Hh K1 K2 K3 K4 J. apply (soft_ok a (v_lock (ver (nd s a))) p'); auto.
    apply vmono_lock.
  Qed.
  Lemma unlock_ok a p' : In a (holds (pcs s t)) -> let s' := go (unlock s a) t p' in
    (isl (nd s a) = false -> pd g a = None) -> ze g a = false ->
    (forall x, In x (holds p') -> x <> a /\ In x (holds (pcs s t))) ->
    pdof p' = pdof (pcs s t) -> usof p' = usof (pcs s t) -> rpof p' = rpof (pcs s t) ->
    (zeof (pcs s t) = None \/ zeof p' = zeof (pcs s t)) -> JI s' g p' -> OK s g s' t.
  Proof.
    intros Ha s' Hp Hz Hh K1 K2 K3 K4 J. pose proof (proj1 (proj1 L _ _ Ha)) as Hf.
    apply (vput_ok s g t a (v_unlock (ver (nd s a))) p' s' G L K); auto.
    - now apply mine.
    - apply vmono_unlock.
    - unfold v_unlock. destruct (v_spl (ver (nd s a))); discriminate.
    - unfold v_unlock. destruct (v_spl (ver (nd s a))); auto.
    - intros A _. revert A. unfold v_unlock. destruct (v_spl (ver (nd s a))); auto.
    - intros A. apply del_rows; [exact Hf|]. revert A. unfold v_unlock. destruct (v_spl (ver (nd s a))); auto.
    - congruence.
    - unfold v_unlock. destruct (v_spl (ver (nd s a))); cbn; [discriminate|auto].
    - intros A B C. destruct (gv_root3 _ _ GC a Hf A B C) as (D & E). unfold v_unlock. rewrite E. cbn. auto.
    - intros x Hx. destruct (Hh x Hx) as (A & B). split; [now left|]. split; [exact (proj1 (proj1 L _ _ B))|]. split; [auto|congruence].
  Qed.
End Vsteps.
