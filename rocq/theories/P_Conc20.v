(* Concurrent layer: operations take effect one at a time while they run. *)
From Verif Require Import Lib M_Tree M_Stampc P_Stampc1 M_Conc M_ConcRun Spec_Conc P_Conc1 P_Conc2 P_Conc3 P_Conc4 P_Conc14 P_Conc15 P_Conc18 P_Conc19 P_ConcR.

(* ---- longer runs ---- *)
Section Snoc.
  Variables (l : list (cevent * cst)) (e : cevent) (s' : cst).
  Lemma st_old k : (k <= length l)%nat -> st (l ++ [(e, s')]) k = st l k.
  Proof.
    intros H. unfold st. rewrite map_app. change (start :: map snd l ++ map snd [(e, s')]) with ((start :: map snd l) ++ [s']). apply app_nth1. cbn. rewrite map_length. lia.
  Qed.
  Lemma st_last : st (l ++ [(e, s')]) (S (length l)) = s'.
  Proof.
    unfold st. rewrite map_app. change (start :: map snd l ++ map snd [(e, s')]) with ((start :: map snd l) ++ [s']). rewrite app_nth2; cbn; rewrite map_length; [|lia]. now rewrite Nat.sub_diag.
  Qed.
  Lemma ev_old k d : (k < length l)%nat -> (ev (l ++ [(e, s')]) k d <-> ev l k d).
  Proof. intros H. unfold ev. now rewrite nth_error_app1. Qed.
  Lemma ev_last d : ev (l ++ [(e, s')]) (length l) d <-> d = e.
  Proof.
    unfold ev. rewrite nth_error_app2, Nat.sub_diag by lia. cbn. split; [now intros (x & [= <- <-])|intros ->; eauto].
  Qed.
  Lemma ev_lt m k d : ev m k d -> (k < length m)%nat.
  Proof. intros (x & H). apply nth_error_Some. congruence. Qed.
  Lemma ev_fun m k d d' : ev m k d -> ev m k d' -> d = d'. Proof. intros (x & H) (x' & H'). congruence. Qed.
  Lemma ev_split k d : ev (l ++ [(e, s')]) k d -> (k < length l)%nat /\ ev l k d \/ k = length l /\ d = e.
  Proof.
    intros H. pose proof (ev_lt _ _ _ H) as F. rewrite app_length in F. cbn in F. destruct (Nat.eq_dec k (length l)) as [->|N].
    - right. split; [reflexivity|now apply ev_last].
    - left. split; [lia|]. apply ev_old in H; [exact H|lia].
  Qed.
  Lemma keeps_old k : (k < length l)%nat -> (keeps (l ++ [(e, s')]) k <-> keeps l k).
  Proof. intros H. unfold keeps. now rewrite !st_old by lia. Qed.
  Lemma sets_old k y r : (k < length l)%nat -> (sets (l ++ [(e, s')]) k y r <-> sets l k y r).
  Proof. intros H. unfold sets. now rewrite !st_old by lia. Qed.
  Lemma effect_old k y o : (k < length l)%nat -> (effect_of (l ++ [(e, s')]) k y o <-> effect_of l k y o).
  Proof. intros H. destruct o; cbn [effect_of]; [reflexivity|now apply sets_old|now apply sets_old]. Qed.
End Snoc.

Definition since (l : list (cevent * cst)) (i t : nat) (y : Z) (o : op) : Prop := ev l i (t, Start y o) /\ forall k y' o', (i < k)%nat -> ~ ev l k (t, Start y' o').
Definition seen (l : list (cevent * cst)) (s : cst) (i : nat) (p : pct) : Prop :=
  match p with
  | PRead y OGet n v r => same s n v = true -> exists k, (i < k <= length l)%nat /\ entry (st l k) y r
  | PDone y OGet r => exists k, (i < k < length l)%nat /\ entry (st l k) y r
  | _ => True
  end.
Definition HP (l : list (cevent * cst)) (s : cst) (t : nat) (p : pct) : Prop := forall y o, pre p = Some (y, o) ->
  exists i, since l i t y o /\ (forall k x, (i < k)%nat -> ev l k (t, x) -> keeps l k) /\ seen l s i p.
Definition HQ (l : list (cevent * cst)) (t : nat) (p : pct) : Prop := forall y o r, post p = Some (y, o, r) ->
  exists i k, since l i t y o /\ (i < k)%nat /\ (exists x, ev l k (t, x)) /\ entry (st l k) y r /\ effect_of l k y o /\
    (forall k' x', (i < k')%nat -> ev l k' (t, x') -> k' <> k -> keeps l k').
Definition HI (l : list (cevent * cst)) (s : cst) (t : nat) : Prop := HP l s t (pcs s t) /\ HQ l t (pcs s t).

Section Ext.
  Variables (l : list (cevent * cst)) (t : nat) (x : choice) (s s' : cst).
  Let l' := l ++ [((t, x), s')].
  Hypothesis Es : st l (length l) = s.
  Lemma len' : length l' = S (length l). Proof. unfold l'. rewrite app_length. cbn. lia. Qed.
  Lemma since_keep i t0 y o : since l i t0 y o -> (t0 = t -> nostart x) -> since l' i t0 y o.
  Proof.
    intros (A & B) H. pose proof (ev_lt _ _ _ A) as F. split; [now apply ev_old|]. intros k y' o' Hk Q. apply ev_split in Q. destruct Q as [(Q1 & Q2)|(Q1 & Q2)]; [now apply (B k y' o')|].
    injection Q2 as -> Q2. exact (H eq_refl y' o' (eq_sym Q2)).
  Qed.
  Lemma since_new y o : x = Start y o -> since l' (length l) t y o.
  Proof.
    intros ->. split; [now apply ev_last|]. intros k y' o' Hk Q. apply ev_lt in Q. unfold l' in Q. rewrite app_length in Q. cbn in Q. lia.
  Qed.
  Lemma keeps_last : (forall y w, has s' y w <-> has s y w) -> keeps l' (length l).
  Proof. intros H y w. unfold l'. rewrite st_last, st_old, Es by lia. apply H. Qed.
  Lemma keeps_ext i t0 (P : nat -> Prop) : (forall k x0, (i < k)%nat -> ev l k (t0, x0) -> P k -> keeps l k) -> (t0 = t -> P (length l) -> forall y w, has s' y w <-> has s y w) ->
    forall k x0, (i < k)%nat -> ev l' k (t0, x0) -> P k -> keeps l' k.
  Proof.
    intros A B k x0 Hk Q HP. apply ev_split in Q. destruct Q as [(Q1 & Q2)|(-> & Q2)]; [apply keeps_old; eauto|]. injection Q2 as Q2 _. apply keeps_last. now apply B.
  Qed.
  Lemma seen_other i p : seen l s i p -> (forall y n v r, p = PRead y OGet n v r -> same s' n v = true -> same s n v = true) -> seen l' s' i p.
  Proof.
    intros H Q. unfold seen in *. destruct p; auto; destruct o; auto; rewrite len'.
    - intros Hs. destruct (H (Q _ _ _ _ eq_refl Hs)) as (k & Hk & He). exists k. split; [lia|]. unfold l'. now rewrite st_old by lia.
    - destruct H as (k & Hk & He). exists k. split; [lia|]. unfold l'. now rewrite st_old by lia.
  Qed.
  Lemma HQ_keep t0 p p' : HQ l t0 p -> (forall q, post p' = Some q -> post p = Some q) -> (t0 = t -> (exists q, post p' = Some q) -> nostart x /\ forall y w, has s' y w <-> has s y w) -> HQ l' t0 p'.
  Proof.
    intros H Hp Hx y o r Q. destruct (H y o r (Hp _ Q)) as (i & k & H1 & H2 & (z & H3) & H4 & H5 & H6). exists i, k. pose proof (ev_lt _ _ _ H3) as F.
    split; [apply since_keep; [exact H1|intros E; exact (proj1 (Hx E (ex_intro _ _ Q)))]|]. split; [exact H2|]. split; [exists z; now apply ev_old|]. split; [unfold l'; now rewrite st_old by lia|].
    split; [now apply effect_old|]. intros k' x'. apply (keeps_ext i t0 (fun k' => k' <> k)); [exact H6|]. intros E _. exact (proj2 (Hx E (ex_intro _ _ Q))).
  Qed.
End Ext.

Lemma HQ_noget l t p : HQ l t p -> forall y r, post p <> Some (y, OGet, r).
Proof. intros H y r Q. destruct (H y OGet r Q) as (i & k & _ & _ & _ & _ & F & _). exact F. Qed.
Lemma tg_held p y tg : tgof p = Some (y, tg) -> In tg (holds p).
Proof. destruct p; cbn [tgof]; try discriminate; intros [= -> ->]; now left. Qed.
Lemma pre_idle : pre Idle = None /\ post Idle = None. Proof. auto. Qed.
Lemma pre_or_post p : pre p = None \/ post p = None. Proof. destruct p; auto; destruct o; auto. Qed.

(* A lookup reads its leaf at a moment the leaf speaks for the key. *)
Lemma read_entry s g y n v : Inv s g -> JI s g (PLeaf y OGet n v) -> v_del v = false -> same s n v = true -> entry s y (row_get y (rws (nd s n))).
Proof.
  intros (G & _) J D Q. cbn [JI] in J. destruct J as (Y & (A1 & A2 & A3 & A4) & Hi & B). pose proof (same_stbl _ _ A2 Q) as SB.
  destruct (gl_leaf _ _ (gi_l _ _ G) n A1 Hi) as (L0 & _ & _ & U & _). apply (entry_rh s g G).
  - split; [exact A1|]. split; [exact Hi|]. destruct (ul g n) eqn:E; [|reflexivity]. specialize (U eq_refl). unfold same in Q. rewrite (same_del _ _ Q) in U. congruence.
  - split; [lia|]. apply B; [exact D|]. apply same_nosplit; assumption.
Qed.

Record ALL (l : list (cevent * cst)) (s : cst) : Prop := {
  al_inv : exists g, Inv s g;
  al_ab : forall t, AB s (pcs s t);
  al_st : st l (length l) = s;
  al_hi : forall t, HI l s t;
  al_ex : explained l;
  al_fin : forall i j t y o r, finished l i j t y o r -> linearized l i j t y o r
}.
Section Main.
  Variables (l : list (cevent * cst)) (t : nat) (x : choice) (s s' : cst).
  Let l' := l ++ [((t, x), s')].
  Hypothesis A : ALL l s.
  Hypothesis ST : step s t x = Some s'.
  Hypothesis M : misp s' = false.
  Hypothesis B : abnd s' = false.
  Let Es := al_st _ _ A.

  Lemma other_pc t0 : t0 <> t -> pcs s' t0 = pcs s t0.
  Proof. intros N. destruct (step_pcs _ _ _ _ ST) as (p & Hp). rewrite Hp. destruct (Nat.eqb_spec t0 t); [contradiction|reflexivity]. Qed.
  Lemma other_HI t0 : t0 <> t -> HI l' s' t0.
  Proof.
    intros N. destruct (al_inv _ _ A) as (g & Ig). destruct (Inv_step _ _ _ _ _ Ig ST M B) as (g' & _ & R & F). destruct (al_hi _ _ A t0) as (H1 & H2). split; rewrite (other_pc t0 N).
    - intros y o Q. destruct (H1 y o Q) as (i & K1 & K2 & K3). exists i. split; [apply since_keep; [exact K1|contradiction]|]. split.
      + intros k x0 Hk He. refine (keeps_ext l t x s s' Es i t0 (fun _ => True) _ _ k x0 Hk He Logic.I); [intros k1 x1 G1 G2 _; eauto|contradiction].
      + apply (seen_other l t x s s' i); [exact K3|]. intros y1 n v r Ep Hs. pose proof (proj2 (proj2 (proj2 Ig)) t0) as J. rewrite Ep in J. destruct o; cbn [JI] in J.
        all: destruct J as (_ & ((J1 & J2 & J3 & _) & _) & _); exact (same_back s g s' g' R n v J1 J2 J3 Hs).
    - apply (HQ_keep l t x s s' Es t0 (pcs s t0)); [exact H2|auto|contradiction].
  Qed.
  Lemma own_HI : HI l' s' t /\ (keeps l' (length l) \/ exists i y o, running l' i (length l) t y o /\ effect_of l' (length l) y o /\ forall k' x', (i < k' < length l)%nat -> ev l' k' (t, x') -> keeps l' k').
  Proof.
    destruct (al_inv _ _ A) as (g & Ig). destruct (al_hi _ _ A t) as (H1 & H2). pose proof (HQ_noget _ _ _ H2) as HO.
    pose proof (step_trans s t x s' ST B HO) as T. unfold trans_of in T. pose proof (step_table s g t Ig (al_ab _ _ A t) x s' ST B) as TB.
    destruct (commit (pcs s t) x) as [[y o]|] eqn:C.
    - (* the step by which the operation takes effect *)
      destruct TB as (r & E1 & E2 & E3 & E4 & E5 & E6). rewrite E6 in T. destruct T as (T & _). destruct (H1 y o E6) as (i & K1 & K2 & _).
      assert (Ef : effect_of l' (length l) y o).
      { assert (Q : sets l' (length l) y (eff o)) by (unfold sets, l'; rewrite st_last, st_old, Es by lia; auto). destruct o; [congruence|exact Q|exact Q]. }
      pose proof (ev_lt _ _ _ (proj1 K1)) as Hi. split.
      + split; [intros y0 o0 Q; destruct (pre_or_post (pcs s' t)); congruence|]. intros y0 o0 r0 Q. rewrite E4 in Q. injection Q as <- <- <-. exists i, (length l). split; [now apply since_keep|]. split; [exact Hi|].
        split; [exists x; now apply ev_last|]. split; [unfold l'; rewrite st_old, Es by lia; exact E1|]. split; [exact Ef|]. intros k' x' Hk He N.
        apply ev_split in He. destruct He as [(He1 & He2)|(He1 & _)]; [|congruence]. apply keeps_old; eauto.
      + right. exists i, y, o. split; [split; [apply ev_old; [exact Hi|apply K1]|]; split; [exact Hi|]|].
        * intros k' y' o' Hk He. now apply (proj2 (since_keep l t x s' i t y o K1 (fun _ => T)) k' y' o').
        * split; [exact Ef|]. intros k' x' Hk He. apply ev_split in He. destruct He as [(_ & He)|(He & _)]; [|lia]. apply keeps_old; [lia|]. apply (K2 k' x'); [lia|exact He].
    - split; [|left; now apply (keeps_last l t x s s' Es)]. split.
      + intros y o Q. destruct (pre (pcs s t)) as [[y1 o1]|] eqn:P.
        * destruct T as (T1 & T2). destruct (T2 eq_refl) as [T|T]; [|rewrite T in Q; discriminate Q]. rewrite T in Q. injection Q as -> ->. destruct (H1 y o P) as (i & K1 & K2 & K3).
          exists i. split; [now apply since_keep|]. pose proof (ev_lt _ _ _ (proj1 K1)) as Hi. split.
          -- intros k x0 Hk He. refine (keeps_ext l t x s s' Es i t (fun _ => True) _ _ k x0 Hk He Logic.I); [intros k1 x1 G1 G2 _; eauto|auto].
          -- unfold seen. destruct (pcs s' t) eqn:E; auto; destruct o0; auto; unfold l'; rewrite len'.
             ++ destruct (step_read _ _ _ _ _ _ _ _ ST E) as (R1 & R2 & R3 & R4 & R5). intros Hs. assert (Hs' : same s n v = true) by (unfold same in *; now rewrite R1 in Hs).
                exists (length l). split; [lia|]. rewrite st_old, Es, (R5 Hs') by lia. pose proof (proj2 (proj2 (proj2 Ig)) t) as J. rewrite R3 in J. now apply (read_entry s g y0 n v).
             ++ destruct (step_done _ _ _ _ _ _ ST E HO) as (n & v & D1 & D2). rewrite D1 in K3. destruct (K3 D2) as (k & Hk & He). exists k. split; [lia|]. now rewrite st_old by lia.
        * destruct (post (pcs s t)) as [q|] eqn:PQ.
          -- destruct T as (T1 & _ & [T|[T|T]]); [|rewrite T in Q; discriminate Q|rewrite T in Q; discriminate Q]. destruct (pre_or_post (pcs s' t)); congruence.
          -- destruct T as (_ & [(y1 & o1 & n & -> & T)|(_ & T)]); [|rewrite T in Q; discriminate Q]. rewrite T in *. injection Q as -> ->. exists (length l). split; [now apply since_new|]. split; [|exact Logic.I].
             intros k x0 Hk He. apply ev_lt in He. unfold l' in He. rewrite app_length in He. cbn in He. lia.
      + apply (HQ_keep l t x s s' Es t (pcs s t)); [exact H2| |].
        * intros q Q. destruct (pre (pcs s t)) as [[y1 o1]|] eqn:P.
          -- destruct T as (T1 & T2). destruct (T2 eq_refl) as [T|T]; [|rewrite T in Q; discriminate Q]. destruct (pre_or_post (pcs s' t)); congruence.
          -- destruct (post (pcs s t)) as [q1|] eqn:PQ.
             ++ destruct T as (T1 & _ & [T|[T|T]]); [congruence|rewrite T in Q; discriminate Q|rewrite T in Q; discriminate Q].
             ++ destruct T as (_ & [(y1 & o1 & n & -> & T)|(_ & T)]); rewrite T in Q; discriminate Q.
        * intros _ (q & Q). split; [|exact TB]. destruct (pre (pcs s t)) as [[y1 o1]|] eqn:P; [apply T|]. destruct (post (pcs s t)) as [q1|] eqn:PQ; [apply T|].
          destruct T as (_ & [(y1 & o1 & n & -> & T)|(T & _)]); [rewrite T in Q; discriminate Q|exact T].
  Qed.
  Lemma all_HI t0 : HI l' s' t0. Proof. destruct (Nat.eq_dec t0 t) as [->|N]; [apply own_HI|now apply other_HI]. Qed.
  Lemma lin_old i j t0 y o r : (j < length l)%nat -> linearized l i j t0 y o r -> linearized l' i j t0 y o r.
  Proof.
    intros Hj (k & H1 & H2 & H3 & H4). exists k. split; [exact H1|]. split; [unfold l'; now rewrite st_old by lia|]. split.
    - intros N. destruct (H3 N) as ((z & Hz) & He). split; [exists z; apply ev_old; [lia|exact Hz]|apply effect_old; [lia|exact He]].
    - intros k' x' Hk He Q. apply ev_split in He. destruct He as [(_ & He)|(He & _)]; [|lia]. apply keeps_old; [lia|]. now apply (H4 k' x').
  Qed.
  Lemma fin_old i j t0 y o r : (j < length l)%nat -> finished l' i j t0 y o r -> finished l i j t0 y o r.
  Proof.
    intros Hj (H1 & H2 & H3 & H4 & H5). split; [apply ev_split in H1; destruct H1 as [(_ & H1)|(H1 & _)]; [exact H1|lia]|]. split; [exact H2|]. split; [exact Hj|].
    split; [unfold l' in H4; rewrite st_old in H4 by lia; exact H4|]. intros k y' o' Hk He. apply (H5 k y' o' Hk). apply ev_old; [lia|exact He].
  Qed.
  Lemma same_start i i0 t0 y o y' o' : ev l' i (t0, Start y o) -> (forall k y' o', (i < k <= length l)%nat -> ~ ev l' k (t0, Start y' o')) -> since l' i0 t0 y' o' -> i0 = i.
  Proof.
    intros H1 H2 (H3 & H4). pose proof (ev_lt _ _ _ H3) as F. unfold l' in F. rewrite app_length in F. cbn in F. destruct (Nat.lt_trichotomy i i0) as [Q|[Q|Q]]; [|congruence|].
    - destruct (H2 i0 y' o' ltac:(lia) H3).
    - destruct (H4 i y o Q H1).
  Qed.
  Lemma fin_new i t0 y o r : finished l' i (length l) t0 y o r -> linearized l' i (length l) t0 y o r.
  Proof.
    intros (H1 & H2 & _ & H4 & H5). unfold l' in H4. rewrite st_last in H4. destruct (all_HI t0) as (P & Q). rewrite H4 in P, Q. destruct o.
    - destruct (P y OGet eq_refl) as (i0 & K1 & K2 & (k & Hk & He)). pose proof (same_start i i0 t0 y OGet y OGet H1 H5 K1). subst i0. unfold l' in Hk. rewrite app_length in Hk. cbn in Hk. exists k. split; [lia|]. split; [exact He|].
      split; [congruence|]. intros k' x' G1 G2 _. apply (K2 k' x'); [lia|exact G2].
    - destruct (Q y (OPut w) r eq_refl) as (i0 & k & K1 & K2 & (z & K3) & K4 & K5 & K6). pose proof (same_start i i0 t0 _ _ _ _ H1 H5 K1). subst i0. pose proof (ev_lt _ _ _ K3) as F. unfold l' in F. rewrite app_length in F. cbn in F.
      exists k. split; [lia|]. split; [exact K4|]. split; [eauto|]. intros k' x' G1 G2 [G3|G3]; [discriminate|]. apply (K6 k' x'); [lia|exact G2|exact G3].
    - destruct (Q y ORem r eq_refl) as (i0 & k & K1 & K2 & (z & K3) & K4 & K5 & K6). pose proof (same_start i i0 t0 _ _ _ _ H1 H5 K1). subst i0. pose proof (ev_lt _ _ _ K3) as F. unfold l' in F. rewrite app_length in F. cbn in F.
      exists k. split; [lia|]. split; [exact K4|]. split; [eauto|]. intros k' x' G1 G2 [G3|G3]; [discriminate|]. apply (K6 k' x'); [lia|exact G2|exact G3].
  Qed.
  Lemma all_step : ALL l' s'.
  Proof.
    destruct (al_inv _ _ A) as (g & Ig). destruct (Inv_step _ _ _ _ _ Ig ST M B) as (g' & Ig' & R & F). constructor.
    - eauto.
    - intros t0. destruct (Nat.eq_dec t0 t) as [->|N]; [exact (step_AB s g t x s' Ig (al_ab _ _ A t) ST)|]. rewrite (other_pc t0 N). pose proof (al_ab _ _ A t0) as H. unfold AB in *. destruct (tgof (pcs s t0)) as [[y tg]|] eqn:E; [|exact H].
      destruct (fm_node _ _ _ _ _ F t0 tg N (tg_held _ _ _ E)) as (_ & -> & _). exact H.
    - unfold l'. rewrite app_length. cbn [length]. rewrite Nat.add_1_r. apply st_last.
    - exact all_HI.
    - intros k t0 x0 He. apply ev_split in He. destruct He as [(Hk & He)|(-> & [= -> ->])]; [|apply own_HI].
      destruct (al_ex _ _ A k t0 x0 He) as [H|(i & y & o & (H1 & H2 & H3) & H4 & H5)]; [left; now apply keeps_old|]. right. exists i, y, o. split; [|split; [now apply effect_old|]].
      + split; [apply ev_old; [lia|exact H1]|]. split; [exact H2|]. intros k' y' o' Hk' He'. apply (H3 k' y' o' Hk'). apply ev_split in He'. destruct He' as [(_ & He')|(He' & _)]; [exact He'|lia].
      + intros k' x' Hk' He'. apply keeps_old; [lia|]. apply (H5 k' x' Hk'). apply ev_split in He'. destruct He' as [(_ & He')|(He' & _)]; [exact He'|lia].
    - intros i j t0 y o r Hf. destruct (Nat.lt_ge_cases j (length l)) as [Hj|Hj]; [apply lin_old; [exact Hj|]; apply (al_fin _ _ A); now apply fin_old|].
      assert (Q : j = length l) by (destruct Hf as (_ & _ & Hf & _); unfold l' in Hf; rewrite app_length in Hf; cbn in Hf; lia). subst j. now apply fin_new.
  Qed.
End Main.

Lemma all_start : ALL [] start.
Proof.
  constructor; try (intros t; exact Logic.I).
  - exists g_start. exact Inv_start.
  - reflexivity.
  - intros t. split; [intros y o Q|intros y o r Q]; discriminate Q.
  - intros k t x H. apply ev_lt in H. cbn in H. lia.
  - intros i j t y o r (_ & _ & H & _). cbn in H. lia.
Qed.
Lemma steps_marks s l s' : steps s l s' -> (misp s' = false -> misp s = false) /\ (abnd s' = false -> abnd s = false).
Proof. induction 1 as [|s0 t x s1 l0 s2 E H0 IH]; [auto|]. destruct (step_marks _ _ _ _ E). tauto. Qed.
Lemma all_steps s l s' : steps s l s' -> forall l0, ALL l0 s -> misp s' = false -> abnd s' = false -> ALL (l0 ++ l) s'.
Proof.
  induction 1 as [s|s t x s1 l s2 E H IH]; intros l0 A M B; [now rewrite app_nil_r|]. replace (l0 ++ (t, x, s1) :: l) with ((l0 ++ [((t, x), s1)]) ++ l) by (rewrite <- app_assoc; reflexivity).
  destruct (steps_marks _ _ _ H) as (Q1 & Q2). apply IH; auto. apply (all_step l0 t x s s1 A E); auto.
Qed.

(* Every key has one entry. *)
Lemma entry_total s g y : Inv s g -> exists r, entry s y r.
Proof.
  intros (G & _). assert (D : forall n, (exists a w, (a < n)%nat /\ isl (nd s a) = true /\ row_get y (rws (nd s a)) = Some w) \/ forall a w, (a < n)%nat -> isl (nd s a) = true -> row_get y (rws (nd s a)) <> Some w).
  { induction n as [|n [(a & w & H1 & H2)|IH]]; [right; lia|left; exists a, w; split; [lia|exact H2]|]. destruct (isl (nd s n)) eqn:Q1; [destruct (row_get y (rws (nd s n))) as [w|] eqn:Q2|].
    - left. exists n, w. split; [lia|auto].
    - right. intros a w Ha. destruct (Nat.eq_dec a n) as [->|N]; [congruence|apply IH; lia].
    - right. intros a w Ha. destruct (Nat.eq_dec a n) as [->|N]; [congruence|apply IH; lia]. }
  destruct (D (fr s)) as [(a & w & H1 & H2 & H3)|H].
  - exists (Some w). intros w'. destruct (home s g G a y w H1 H2 H3) as (b & B1 & B2 & B3 & _). pose proof (entry_hh s g G b y B1 B2 w') as Q. rewrite B3 in Q. exact Q.
  - exists None. intros w. split; [|discriminate]. intros (a & H1 & H2 & H3). destruct (H a w H1 H2 H3).
Qed.

Lemma conc_main l s : steps start l s -> misp s = false -> abnd s = false ->
  (forall i j t y o r, finished l i j t y o r -> linearized l i j t y o r) /\ explained l /\ (forall y, exists r, entry s y r) /\ (forall t, pcs s t <> PCrash).
Proof.
  intros H M B. pose proof (all_steps start l s H [] all_start M B) as A. cbn [app] in A. split; [exact (al_fin _ _ A)|]. split; [exact (al_ex _ _ A)|]. destruct (al_inv _ _ A) as (g & Ig).
  split; [intros y; now apply (entry_total s g)|]. intros t Q. pose proof (proj2 (proj2 (proj2 Ig)) t) as J. now rewrite Q in J.
Qed.

(* ---- an example: a put reaches the only leaf, the tree grows and a leaf is deleted, the put finishes ---- *)
Definition opb (a b : op) : bool := match a, b with OGet, OGet | ORem, ORem => true | OPut v, OPut w => v =? w | _, _ => false end.
Definition orb2 (a b : option Z) : bool := match a, b with None, None => true | Some v, Some w => v =? w | _, _ => false end.
Definition finb (l : list (cevent * cst)) (i j t : nat) (y : Z) (o : op) (r : option Z) : bool :=
  match nth_error l i with Some ((t', Start y' o'), _) => (t' =? t)%nat && (y' =? y) && opb o' o | _ => false end && (i <? j)%nat && (j <? length l)%nat &&
  match pcs (st l (S j)) t with PDone y' o' r' => (y' =? y) && opb o' o && orb2 r' r | _ => false end &&
  forallb (fun k => match nth_error l k with Some ((t', Start _ _), _) => negb (t' =? t)%nat | _ => true end) (seq (S i) (j - i)).
Lemma opb_ok a b : opb a b = true -> a = b. Proof. destruct a, b; cbn; try discriminate; auto. intros H. apply Z.eqb_eq in H. congruence. Qed.
Lemma orb2_ok a b : orb2 a b = true -> a = b. Proof. destruct a, b; cbn; try discriminate; auto. intros H. apply Z.eqb_eq in H. congruence. Qed.
Lemma finb_ok l i j t y o r : finb l i j t y o r = true -> finished l i j t y o r.
Proof.
  unfold finb. rewrite !andb_true_iff. intros ((((H1 & H2) & H3) & H4) & H5). apply Nat.ltb_lt in H2, H3. split.
  - destruct (nth_error l i) as [[[t' x] s0]|] eqn:E; [|discriminate]. destruct x; try discriminate. rewrite !andb_true_iff in H1. destruct H1 as ((A & B) & C). apply Nat.eqb_eq in A. apply Z.eqb_eq in B. apply opb_ok in C. subst. now exists s0.
  - split; [exact H2|]. split; [exact H3|]. split.
    + destruct (pcs (st l (S j)) t); try discriminate. rewrite !andb_true_iff in H4. destruct H4 as ((A & B) & C). apply Z.eqb_eq in A. apply opb_ok in B. apply orb2_ok in C. congruence.
    + intros k y' o' Hk (s0 & Q). rewrite forallb_forall in H5. specialize (H5 k). rewrite Q in H5. rewrite negb_true_iff in H5. apply Nat.eqb_neq in H5; [congruence|]. apply in_seq. lia.
Qed.
Definition runX : trace := drive 100 at_done (rems (puts (drive 20 at_leaf (begin run0 1 2050 (OPut 7)) 1) 0 (zs 40 100 100)) 0 (zs 15 1600 100)) 1.
Definition runY : trace := drive 100 at_done (begin runX 2 2050 OGet) 2.
Lemma ok_runY : tr_ok runY.
Proof.
  unfold runY, begin. apply ok_drive, ok_act. unfold runX. apply ok_drive. unfold rems. apply ok_fold; [intros; now apply ok_whole|]. unfold puts. apply ok_fold; [intros; now apply ok_whole|]. apply ok_drive, ok_act. constructor.
Qed.
Definition dels (s : cst) : bool := existsb (fun a => isl (nd s a) && v_del (ver (nd s a))) (seq 0 (fr s)).
Lemma exY : let l := rev (fst runY) in let s := snd runY in let k := length (fst runX) in
  negb (misp s) && negb (abnd s) && dels s && finb l 0 (k - 1) 1 2050 (OPut 7) None && finb l k (length l - 1) 2 2050 OGet (Some 7) = true.
Proof. vm_compute. reflexivity. Qed.
Lemma conc_example : exists l s i j k, steps start l s /\ misp s = false /\ abnd s = false /\ dels s = true /\ finished l 0 i 1 2050 (OPut 7) None /\ finished l k j 2 2050 OGet (Some 7).
Proof.
  pose proof exY as H. cbv zeta in H. rewrite !andb_true_iff, !negb_true_iff in H. destruct H as ((((H1 & H2) & H3) & H4) & H5).
  do 5 eexists. split; [exact ok_runY|]. split; [exact H1|]. split; [exact H2|]. split; [exact H3|]. split; [exact (finb_ok _ _ _ _ _ _ _ H4)|exact (finb_ok _ _ _ _ _ _ _ H5)].
Qed.
