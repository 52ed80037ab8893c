(* Layers: every step keeps the invariant. *)
From Verif Require Import Lib M_Layers P_Layers1 P_Layers2.

Lemma setf_same {A} (f : nat -> A) a x : setf f a x a = x. Proof. unfold setf. now rewrite Nat.eqb_refl. Qed.
Lemma setf_other {A} (f : nat -> A) a x b : b <> a -> setf f a x b = f b. Proof. intros N. unfold setf. destruct (Nat.eqb_spec b a); [contradiction|reflexivity]. Qed.

Lemma LI_go s g t p : LI s g -> thr s g p -> (forall L q, p <> LKill L q) -> LI (go s t p) g.
Proof.
  intros HI H N. pose proof (i_thr _ _ HI) as J1. pose proof (i_own _ _ HI) as J2. destruct HI. constructor; auto.
  - intros t0. cbn [go pcs]. destruct (Nat.eq_dec t0 t) as [->|M]; [rewrite setf_same; exact H|rewrite setf_other by exact M; exact (J1 t0)].
  - intros t1 t2 L q. cbn [go pcs]. unfold setf. destruct (t1 =? t)%nat; [intros E; destruct (N _ _ E)|]. destruct (t2 =? t)%nat; [intros _ E; destruct (N _ _ E)|]. apply J2.
Qed.

Definition rowok (q : lkey) (x : option lrow) : Prop :=
  match x with None => True | Some (RVal _) => snd q = false | Some (RSuf x _) => snd q = true /\ x <> [] /\ length (fst q) = 8%nat | Some (RLay _) => False end.
Section Row.
  Variables (s : lst) (g : nat -> list Z) (L : nat) (q : lkey) (l : list (lkey * lrow)) (x : option lrow).
  Hypothesis HI : LI s g.
  Hypothesis HL : (L < fl s)%nat.
  Hypothesis HD : dead s L = false.
  Hypothesis Old : forall L', lget q (rws s L) <> Some (RLay L').
  Hypothesis Hl : forall p, lget p l = if kqb q p then x else lget p (rws s L).
  Hypothesis Hx : rowok q x.
  Let s' := wr s L l.
  Lemma row_get M p : lget p (rws s' M) = if (M =? L)%nat && kqb q p then x else lget p (rws s M).
  Proof. unfold s'. cbn [wr rws]. unfold setf. destruct (Nat.eqb_spec M L) as [->|N]; [apply Hl|reflexivity]. Qed.
  Lemma row_lay M p L' : lget p (rws s' M) = Some (RLay L') <-> lget p (rws s M) = Some (RLay L').
  Proof.
    rewrite row_get. destruct ((M =? L)%nat && kqb q p) eqn:E; [|reflexivity]. apply andb_prop in E. destruct E as (E1 & E2). apply Nat.eqb_eq in E1. apply kqb_ok in E2. subst.
    split; intros E; [rewrite E in Hx; destruct Hx|destruct (Old _ E)].
  Qed.
  Lemma LI_row : LI s' g.
  Proof.
    constructor.
    - exact (i_z _ _ HI).
    - intros M p L' H. apply row_lay in H. exact (i_lay _ _ HI _ _ _ H).
    - intros L' A B C. destruct (i_par _ _ HI L' A B C) as (M & p & H). exists M, p. now apply row_lay.
    - intros M D. change (dead s M = true) in D. unfold s'. cbn [wr rws]. rewrite setf_other; [exact (i_dead _ _ HI M D)|congruence].
    - intros M F. change (fl s <= M)%nat in F. unfold s'. cbn [wr rws dead]. rewrite setf_other by lia. exact (i_new _ _ HI M F).
    - intros M p y v H. rewrite row_get in H. destruct ((M =? L)%nat && kqb q p) eqn:E; [|exact (i_suf _ _ HI _ _ _ _ H)]. apply andb_prop in E. destruct E as (_ & E). apply kqb_ok in E. subst p. rewrite H in Hx. exact Hx.
    - intros M p v H. rewrite row_get in H. destruct ((M =? L)%nat && kqb q p) eqn:E; [|exact (i_val _ _ HI _ _ _ H)]. apply andb_prop in E. destruct E as (_ & E). apply kqb_ok in E. subst p. rewrite H in Hx. exact Hx.
    - intros M p H. change (lkb s M p = true) in H. destruct (i_lk _ _ HI M p H) as (L' & H1 & H2). exists L'. split; [now apply row_lay|exact H2].
    - exact (i_thr _ _ HI).
    - exact (i_own _ _ HI).
  Qed.
  (* what the table shows afterwards *)
  Lemma row_frame (okk : list Z -> Prop) : (forall r v, slice r = q -> okk (g L ++ r) -> (has_in s L r v <-> has_in s' L r v)) -> forall k v, okk k -> (has s' k v <-> has s k v).
  Proof.
    intros H k v Hk. assert (G : forall M p, (M < fl s)%nat -> ~ (M = L /\ p = q) -> lget p (rws s' M) = lget p (rws s M)).
    { intros M p _ N. rewrite row_get. destruct ((M =? L)%nat && kqb q p) eqn:E; [|reflexivity]. apply andb_prop in E. destruct E as (E1 & E2). apply Nat.eqb_eq in E1. apply kqb_ok in E2. subst. tauto. }
    assert (F : forall M p L', lget p (rws s M) = Some (RLay L') -> (L' < fl s)%nat /\ g L' = g M ++ fst p /\ snd p = true) by (intros M p L' E; destruct (i_lay _ _ HI _ _ _ E) as (E1 & E2 & E3 & E4 & _); auto).
    destruct (i_z _ _ HI) as (Z0 & _ & Z1). split; intros Q.
    - apply (frame s' s g (fl s) L q okk) with (M := O); [intros M p A B; symmetry; now apply G|intros M p L' A B C; apply F; now apply row_lay in C|intros r v0 A B C; now apply H|exact Q|exact Z1|rewrite Z0; exact Hk].
    - apply (frame s s' g (fl s) L q okk) with (M := O); [exact G|intros M p L' A B C; now apply F|intros r v0 A B C; now apply H|exact Q|exact Z1|rewrite Z0; exact Hk].
  Qed.
End Row.

Lemma lkb_ok s L q : lkb s L q = true <-> In (L, q) (lks s).
Proof.
  unfold lkb. rewrite existsb_exists. split.
  - intros ([M p] & H1 & H2). cbn [fst snd] in H2. apply andb_prop in H2. destruct H2 as (A & B). apply Nat.eqb_eq in A. apply kqb_ok in B. now subst.
  - intros H. exists (L, q). split; [exact H|]. cbn [fst snd]. now rewrite Nat.eqb_refl, kqb_rf.
Qed.
Lemma lkb_add s L q M p : lkb (lk_add s L q) M p = true <-> (M = L /\ p = q) \/ lkb s M p = true.
Proof. rewrite !lkb_ok. cbn [lk_add lks In]. split; (intros [H|H]; [left|now right]); [injection H as <- <-; auto|destruct H as (-> & ->); reflexivity]. Qed.
Lemma lkb_del s L q M p : lkb (lk_del s L q) M p = true <-> ~ (M = L /\ p = q) /\ lkb s M p = true.
Proof.
  rewrite !lkb_ok. cbn [lk_del lks]. rewrite filter_In. cbn [fst snd]. rewrite negb_true_iff, andb_false_iff. split.
  - intros (H & [N|N]); (split; [|exact H]); intros (-> & ->); [now rewrite Nat.eqb_refl in N|now rewrite kqb_rf in N].
  - intros (N & H). split; [exact H|]. destruct (Nat.eqb_spec M L) as [->|]; [right; apply kqb_no; tauto|now left].
Qed.

(* gc_layer marks an empty layer. *)
Section Kill.
  Variables (s : lst) (g : nat -> list Z) (L : nat) (q : lkey) (L' t : nat).
  Hypothesis HI : LI s g.
  Hypothesis R : lget q (rws s L) = Some (RLay L').
  Hypothesis E : rws s L' = [].
  Hypothesis NL : lkb s L q = false.
  Let s' := go (kill (lk_add s L q) L') t (LKill L q).
  Lemma kill_lk M p : lkb s' M p = true <-> (M = L /\ p = q) \/ lkb s M p = true.
  Proof. exact (lkb_add s L q M p). Qed.
  Lemma LI_kill : LI s' g.
  Proof.
    pose proof (g_nz _ _ HI _ _ _ R) as (_ & NZ). destruct (i_lay _ _ HI _ _ _ R) as (LT & _). assert (DD : forall M, dead s' M = true <-> M = L' \/ dead s M = true).
    { intros M. unfold s'. cbn [go kill dead]. unfold setf. destruct (Nat.eqb_spec M L') as [->|N]; [tauto|]. cbn [lk_add dead]. intuition. }
    assert (DF : forall M, dead s' M = false <-> M <> L' /\ dead s M = false).
    { intros M. specialize (DD M). destruct (dead s' M), (dead s M); intuition congruence. }
    constructor.
    - destruct (i_z _ _ HI) as (A & B & C). split; [exact A|]. split; [|exact C]. apply DF. auto.
    - intros M p L1 H. change (lget p (rws s M) = Some (RLay L1)) in H. destruct (i_lay _ _ HI _ _ _ H) as (A & B & C & D & F). split; [exact A|]. split; [exact B|]. split; [exact C|]. split; [exact D|].
      intros G. apply kill_lk. apply DD in G. destruct G as [->|G]; [left; destruct (one_parent _ _ HI _ _ _ _ _ H R); auto|right; auto].
    - intros L1 A B C. apply DF in C. destruct (i_par _ _ HI L1 A B (proj2 C)) as (M & p & H). now exists M, p.
    - intros M D. apply DD in D. destruct D as [->|D]; [exact E|exact (i_dead _ _ HI M D)].
    - intros M F. change (fl s <= M)%nat in F. destruct (i_new _ _ HI M F) as (A & B). split; [exact A|]. apply DF. split; [lia|exact B].
    - exact (i_suf _ _ HI).
    - exact (i_val _ _ HI).
    - intros M p H. apply kill_lk in H. destruct H as [(-> & ->)|H]; [exists L'; split; [exact R|apply DD; auto]|]. destruct (i_lk _ _ HI M p H) as (L1 & H1 & H2). exists L1. split; [exact H1|apply DD; auto].
    - intros t0. unfold s' at 2. cbn [go pcs]. destruct (Nat.eq_dec t0 t) as [->|N]; [rewrite setf_same; cbn [thr]; apply kill_lk; auto|rewrite setf_other by exact N].
      pose proof (i_thr _ _ HI t0) as H. change (pcs (kill (lk_add s L q) L') t0) with (pcs s t0). destruct (pcs s t0); cbn [thr] in *; try exact H. apply kill_lk; auto.
    - assert (X : forall t0, pcs s t0 <> LKill L q) by (intros t0 F; pose proof (i_thr _ _ HI t0) as H; rewrite F in H; cbn [thr] in H; congruence).
      intros t1 t2 M p. unfold s'. cbn [go pcs kill lk_add]. unfold setf. destruct (Nat.eqb_spec t1 t) as [->|N1]; destruct (Nat.eqb_spec t2 t) as [->|N2]; try congruence.
      apply (i_own _ _ HI).
  Qed.
End Kill.

(* The row of the marked layer goes away. *)
Section Unlink.
  Variables (s : lst) (g : nat -> list Z) (L : nat) (q : lkey) (t : nat).
  Hypothesis HI : LI s g.
  Hypothesis P : pcs s t = LKill L q.
  Let s' := go (lk_del (wr s L (ldel q (rws s L))) L q) t LIdle.
  Lemma un_get M p : lget p (rws s' M) = if (M =? L)%nat && kqb q p then None else lget p (rws s M).
  Proof. unfold s'. cbn [go lk_del wr rws]. unfold setf. destruct (Nat.eqb_spec M L) as [->|N]; [apply lget_del|reflexivity]. Qed.
  Lemma un_at M p : (M =? L)%nat && kqb q p = true <-> M = L /\ p = q.
  Proof. rewrite andb_true_iff, Nat.eqb_eq, kqb_ok. intuition. Qed.
  Lemma un_row : exists L', lget q (rws s L) = Some (RLay L') /\ dead s L' = true.
  Proof. apply (i_lk _ _ HI). pose proof (i_thr _ _ HI t) as H. now rewrite P in H. Qed.
  Lemma un_some M p x : lget p (rws s' M) = Some x <-> ~ (M = L /\ p = q) /\ lget p (rws s M) = Some x.
  Proof. rewrite un_get, <- un_at. destruct ((M =? L)%nat && kqb q p); intuition congruence. Qed.
  Lemma un_lk M p : lkb s' M p = true <-> ~ (M = L /\ p = q) /\ lkb s M p = true.
  Proof. exact (lkb_del (wr s L (ldel q (rws s L))) L q M p). Qed.
  Lemma un_other t0 : t0 <> t -> pcs s' t0 = pcs s t0. Proof. intros N. unfold s'. cbn [go lk_del wr pcs]. now rewrite setf_other by exact N. Qed.
  Lemma LI_unlink : LI s' g.
  Proof.
    destruct un_row as (L' & R & D). constructor.
    - exact (i_z _ _ HI).
    - intros M p L1 H. apply un_some in H. destruct H as (N & H). destruct (i_lay _ _ HI _ _ _ H) as (A & B & C & D1 & F). repeat (split; [assumption|]). intros G. apply un_lk. auto.
    - intros L1 A B C. destruct (i_par _ _ HI L1 A B C) as (M & p & H). exists M, p. apply un_some. split; [|exact H]. intros (-> & ->). change (dead s L1 = false) in C. congruence.
    - intros M DM. change (dead s M = true) in DM. unfold s'. cbn [go lk_del wr rws]. rewrite setf_other; [exact (i_dead _ _ HI M DM)|]. intros ->. rewrite (row_live _ _ HI _ _ _ R) in DM. discriminate.
    - intros M F. change (fl s <= M)%nat in F. pose proof (row_lt _ _ HI _ _ _ R). unfold s'. cbn [go lk_del wr rws dead]. rewrite setf_other by lia. exact (i_new _ _ HI M F).
    - intros M p y v H. apply un_some in H. exact (i_suf _ _ HI _ _ _ _ (proj2 H)).
    - intros M p v H. apply un_some in H. exact (i_val _ _ HI _ _ _ (proj2 H)).
    - intros M p H. apply un_lk in H. destruct H as (N & H). destruct (i_lk _ _ HI M p H) as (L1 & H1 & H2). exists L1. split; [now apply un_some|exact H2].
    - intros t0. destruct (Nat.eq_dec t0 t) as [->|N]; [unfold s' at 2; cbn [go pcs]; rewrite setf_same; exact Logic.I|]. rewrite un_other by exact N.
      pose proof (i_thr _ _ HI t0) as H. destruct (pcs s t0) eqn:Q; cbn [thr] in *; try exact H. apply un_lk. split; [|exact H]. intros (-> & ->). exact (N (i_own _ _ HI _ _ _ _ Q P)).
    - intros t1 t2 M p. destruct (Nat.eq_dec t1 t) as [->|N1]; [unfold s' at 1; cbn [go pcs]; rewrite setf_same; discriminate|]. rewrite (un_other t1) by exact N1.
      destruct (Nat.eq_dec t2 t) as [->|N2]; [unfold s' at 1; cbn [go pcs]; rewrite setf_same; discriminate|]. rewrite (un_other t2) by exact N2. apply (i_own _ _ HI).
  Qed.
  Lemma unlink_keeps k v : has s' k v <-> has s k v.
  Proof.
    destruct un_row as (L' & R & D). destruct (i_z _ _ HI) as (Z0 & _ & Z1).
    assert (F : forall M p L', lget p (rws s M) = Some (RLay L') -> (L' < fl s)%nat /\ g L' = g M ++ fst p /\ snd p = true) by (intros M p L1 E; destruct (i_lay _ _ HI _ _ _ E) as (E1 & E2 & E3 & E4 & _); auto).
    assert (G : forall M p, (M < fl s)%nat -> ~ (M = L /\ p = q) -> lget p (rws s' M) = lget p (rws s M)) by (intros M p _ N; rewrite un_get; rewrite <- un_at in N; now destruct ((M =? L)%nat && kqb q p)).
    split; intros Q.
    - apply (frame s' s g (fl s) L q (fun _ => True)) with (M := O); auto; [intros M p A B; symmetry; now apply G|intros M p L1 A B C; apply un_some in C; now apply F|].
      intros r v0 A _ C. exfalso. revert C. apply has_none. rewrite un_get, A. now rewrite Nat.eqb_refl, kqb_rf.
    - apply (frame s s' g (fl s) L q (fun _ => True)) with (M := O); auto.
      intros r v0 A _ C. exfalso. exact (enter_dead s g HI L q L' r v0 R A D C).
  Qed.
End Unlink.

(* make_new_layer *)
Section Grow.
  Variables (s : lst) (g : nat -> list Z) (L t : nat) (k r x : list Z) (w v : Z).
  Hypothesis HI : LI s g.
  Hypothesis TH : thr s g (LAt k (LPut w) L r).
  Hypothesis R : lget (slice r) (rws s L) = Some (RSuf x v).
  Hypothesis NX : x <> skipn 8 r.
  Let q := slice r.
  Let F := fl s.
  Let s' := new_layer s t k w L r x v.
  Let g' := setf g F (g L ++ fst q).
  Lemma gr_lt : (L < F)%nat. Proof. exact (row_lt _ _ HI _ _ _ R). Qed.
  Lemma gr_get M p : lget p (rws s' M) = if (M =? F)%nat then lget p [(slice x, new_row x v)] else if (M =? L)%nat && kqb q p then Some (RLay F) else lget p (rws s M).
  Proof.
    pose proof gr_lt as H. unfold s', new_layer. cbn [go wr grow rws]. unfold setf. fold F. destruct (Nat.eqb_spec M L) as [->|N].
    - destruct (Nat.eqb_spec L F); [lia|]. cbn [andb]. apply lget_put.
    - destruct (Nat.eqb_spec M F) as [->|]; reflexivity.
  Qed.
  Lemma gr_q : snd q = true /\ x <> [] /\ length (fst q) = 8%nat. Proof. exact (i_suf _ _ HI _ _ _ _ R). Qed.
  Lemma gr_old M p y : lget p (rws s M) = Some y -> ~ (M = L /\ p = q) -> lget p (rws s' M) = Some y.
  Proof.
    intros H N. rewrite gr_get. pose proof (row_lt _ _ HI _ _ _ H) as A. fold F in A. destruct (Nat.eqb_spec M F); [lia|]. rewrite <- un_at in N. destruct ((M =? L)%nat && kqb q p); [tauto|exact H].
  Qed.
  Lemma gr_new M p y : lget p (rws s' M) = Some y -> (M = F /\ p = slice x /\ y = new_row x v) \/ (M = L /\ p = q /\ y = RLay F) \/ lget p (rws s M) = Some y /\ ~ (M = L /\ p = q) /\ (M < F)%nat.
  Proof.
    rewrite gr_get. destruct (Nat.eqb_spec M F) as [->|N].
    - cbn [lget]. destruct (kqb (slice x) p) eqn:E; [|discriminate]. apply kqb_ok in E. intros [= <-]. auto.
    - destruct ((M =? L)%nat && kqb q p) eqn:E.
      + apply un_at in E. intros [= <-]. tauto.
      + intros H. right. right. split; [exact H|]. split; [rewrite <- un_at; congruence|exact (row_lt _ _ HI _ _ _ H)].
  Qed.
  Lemma gr_g M : (M < F)%nat -> g' M = g M. Proof. intros H. unfold g'. apply setf_other. lia. Qed.
  Lemma gr_dead M : dead s' M = dead s M.
  Proof. unfold s', new_layer. cbn [go wr grow dead]. unfold setf. destruct (Nat.eqb_spec M (fl s)) as [->|]; [|reflexivity]. symmetry. apply (i_new _ _ HI). lia. Qed.
  Lemma gr_nr : match new_row x v with RVal _ => snd (slice x) = false | RSuf y _ => snd (slice x) = true /\ y <> [] /\ length (fst (slice x)) = 8%nat | RLay _ => False end.
  Proof. unfold new_row. destruct (8 <? length x)%nat eqn:E; [|exact E]. destruct (slice_long x (slice x) eq_refl E) as (_ & A & B). auto. Qed.
  Lemma gr_thr0 : thr s' g' (LAt k (LPut w) F (skipn 8 r)).
  Proof.
    destruct TH as (A & B & C). destruct gr_q as (Q1 & Q2 & Q3). destruct (slice_long r q eq_refl Q1) as (S1 & S2 & _). split; [exact (Nat.lt_succ_diag_r F)|]. split; [|now right].
    unfold g'. rewrite setf_same, <- app_assoc, <- S1. exact B.
  Qed.
  Lemma LI_grow : LI s' g'.
  Proof.
    pose proof gr_lt as LT. destruct gr_q as (Q1 & Q2 & Q3). destruct (i_z _ _ HI) as (Z1 & Z2 & Z3). constructor.
    - rewrite gr_g, gr_dead by exact Z3. split; [exact Z1|]. split; [exact Z2|]. apply Nat.lt_0_succ.
    - intros M p L1 H. apply gr_new in H. destruct H as [(-> & -> & H)|[(-> & -> & [= ->])|(H & N & HM)]].
      + pose proof gr_nr as G. rewrite <- H in G. destruct G.
      + split; [exact (Nat.lt_succ_diag_r F)|]. rewrite (gr_g L LT). split; [apply setf_same|]. split; [exact Q3|]. split; [exact Q1|]. rewrite gr_dead. intros D. rewrite (proj2 (i_new _ _ HI F (le_n _))) in D. discriminate.
      + destruct (i_lay _ _ HI _ _ _ H) as (A & B & C & D & E). rewrite !gr_g, gr_dead by assumption. split; [exact (Nat.lt_lt_succ_r _ _ A)|]. auto.
    - intros L1 A B C. rewrite gr_dead in C. change (L1 < S F)%nat in A. destruct (Nat.eq_dec L1 F) as [->|N].
      + exists L, q. rewrite gr_get, Nat.eqb_refl, kqb_rf. destruct (Nat.eqb_spec L F); [lia|reflexivity].
      + assert (A' : (L1 < fl s)%nat) by (fold F; lia). destruct (i_par _ _ HI L1 A' B C) as (M & p & H). exists M, p. apply gr_old; [exact H|]. intros (-> & ->). unfold q in H. congruence.
    - intros M D. rewrite gr_dead in D. unfold s', new_layer. cbn [go wr grow rws]. assert (M <> L) by (intros ->; rewrite (row_live _ _ HI _ _ _ R) in D; discriminate).
      assert (M <> F) by (intros ->; rewrite (proj2 (i_new _ _ HI F (le_n _))) in D; discriminate). rewrite !setf_other by assumption. exact (i_dead _ _ HI M D).
    - intros M A. change (S F <= M)%nat in A. rewrite gr_dead. assert (A' : (fl s <= M)%nat) by (fold F; lia). destruct (i_new _ _ HI M A') as (B & C). split; [|exact C]. unfold s', new_layer. cbn [go wr grow rws]. rewrite !setf_other; [exact B|fold F; lia|lia].
    - intros M p y v0 H. apply gr_new in H. destruct H as [(-> & -> & H)|[(-> & -> & [= ])|(H & N)]]; [pose proof gr_nr as G; rewrite <- H in G; exact G|exact (i_suf _ _ HI _ _ _ _ H)].
    - intros M p v0 H. apply gr_new in H. destruct H as [(-> & -> & H)|[(-> & -> & [= ])|(H & N)]]; [pose proof gr_nr as G; rewrite <- H in G; exact G|exact (i_val _ _ HI _ _ _ H)].
    - intros M p H. change (lkb s M p = true) in H. destruct (i_lk _ _ HI M p H) as (L1 & H1 & H2). exists L1. rewrite gr_dead. split; [|exact H2]. apply gr_old; [exact H1|]. intros (-> & ->). unfold q in H1. congruence.
    - intros t0. unfold s' at 2. unfold new_layer. cbn [go pcs]. destruct (Nat.eq_dec t0 t) as [->|N]; [rewrite setf_same; exact gr_thr0|rewrite setf_other by exact N]. pose proof (i_thr _ _ HI t0) as H.
      change (pcs (wr (grow s [(slice x, new_row x v)]) L (lput (slice r) (RLay (fl s)) (rws s L))) t0) with (pcs s t0). destruct (pcs s t0); cbn [thr] in *; try exact H.
      destruct H as (A & B & C). rewrite (gr_g _ A). split; [exact (Nat.lt_lt_succ_r _ _ A)|auto].
    - intros t1 t2 M p. unfold s', new_layer. cbn [go pcs wr grow]. unfold setf. destruct (t1 =? t)%nat; [discriminate|]. destruct (t2 =? t)%nat; [discriminate|]. apply (i_own _ _ HI).
  Qed.
  Lemma grow_keeps y u : has s' y u <-> has s y u.
  Proof.
    pose proof gr_lt as LT. destruct gr_q as (Q1 & Q2 & Q3). destruct (i_z _ _ HI) as (Z1 & Z2 & Z3).
    assert (FF : forall M p L', lget p (rws s M) = Some (RLay L') -> (L' < F)%nat /\ g L' = g M ++ fst p /\ snd p = true) by (intros M p L1 E; destruct (i_lay _ _ HI _ _ _ E) as (E1 & E2 & E3 & E4 & _); auto).
    assert (G : forall M p, (M < F)%nat -> ~ (M = L /\ p = q) -> lget p (rws s' M) = lget p (rws s M)).
    { intros M p HM N. rewrite gr_get. destruct (Nat.eqb_spec M F); [lia|]. rewrite <- un_at in N. now destruct ((M =? L)%nat && kqb q p). }
    assert (RN : lget q (rws s' L) = Some (RLay F)) by (rewrite gr_get, Nat.eqb_refl, kqb_rf; destruct (Nat.eqb_spec L F); [lia|reflexivity]).
    assert (LOC : forall r0 v0, slice r0 = q -> (has_in s L r0 v0 <-> has_in s' L r0 v0)).
    { intros r0 v0 S0. rewrite (has_suf s L r0 x v v0) by (rewrite S0; exact R). rewrite (has_lay s' L r0 F v0) by (rewrite S0; exact RN). split.
      - intros (A & B). apply (has_new_row s' F x v v0 (skipn 8 r0)); [|now rewrite A|auto]. rewrite <- A, gr_get, Nat.eqb_refl. cbn [lget]. now rewrite kqb_rf.
      - intros H. destruct (kq_dec (slice (skipn 8 r0)) (slice x)) as [E|N].
        + apply (has_new_row s' F x v v0 (skipn 8 r0)) in H; [intuition congruence| |exact E]. rewrite gr_get, Nat.eqb_refl. cbn [lget]. now rewrite E, kqb_rf.
        + exfalso. revert H. apply has_none. rewrite gr_get, Nat.eqb_refl. cbn [lget]. now rewrite kqb_sy. }
    split; intros Q.
    - apply (frame s' s g F L q (fun _ => True)) with (M := O); auto; [intros M p A B; symmetry; now apply G|intros M p L1 A B C; rewrite G in C by assumption; now apply FF|intros r0 v0 A _ C; now apply LOC].
    - apply (frame s s' g F L q (fun _ => True)) with (M := O); auto; intros r0 v0 A _ C; now apply LOC.
  Qed.
End Grow.
