(* Layers: operations take effect one at a time while they run. *)
From Verif Require Import Lib M_Layers Spec_Layers P_Layers1 P_Layers2 P_Layers3 P_Layers4.

Definition TT (l : list (levent * lst)) : nat -> table := fun k => tab (st l k).
Section Snoc.
  Variables (l : list (levent * lst)) (e : levent) (s' : lst).
  Lemma st_old k : (k <= length l)%nat -> st (l ++ [(e, s')]) k = st l k.
  Proof.
    intros H. unfold st. rewrite map_app. change (lstart :: map snd l ++ map snd [(e, s')]) with ((lstart :: map snd l) ++ [s']). apply app_nth1. cbn. rewrite map_length. lia.
  Qed.
  Lemma st_last : st (l ++ [(e, s')]) (S (length l)) = s'.
  Proof.
    unfold st. rewrite map_app. change (lstart :: map snd l ++ map snd [(e, s')]) with ((lstart :: map snd l) ++ [s']). rewrite app_nth2; cbn; rewrite map_length; [|lia]. now rewrite Nat.sub_diag.
  Qed.
  Lemma TT_old k : (k <= length l)%nat -> TT (l ++ [(e, s')]) k = TT l k. Proof. intros H. unfold TT. now rewrite st_old. Qed.
  Lemma TT_last : TT (l ++ [(e, s')]) (S (length l)) = tab s'. Proof. unfold TT. now rewrite st_last. Qed.
  Lemma ev_old k d : (k < length l)%nat -> (ev (l ++ [(e, s')]) k d <-> ev l k d).
  Proof. intros H. unfold ev. now rewrite nth_error_app1. Qed.
  Lemma ev_last d : ev (l ++ [(e, s')]) (length l) d <-> d = e.
  Proof.
    unfold ev. rewrite nth_error_app2, Nat.sub_diag by lia. cbn. split; [now intros (x & [= <- <-])|intros ->; eauto].
  Qed.
  Lemma ev_lt m k d : ev m k d -> (k < length m)%nat.
  Proof. intros (x & H). apply nth_error_Some. congruence. Qed.
  Lemma ev_split k d : ev (l ++ [(e, s')]) k d -> (k < length l)%nat /\ ev l k d \/ k = length l /\ d = e.
  Proof.
    intros H. pose proof (ev_lt _ _ _ H) as F. rewrite app_length in F. cbn in F. destruct (Nat.eq_dec k (length l)) as [->|N].
    - right. split; [reflexivity|now apply ev_last].
    - left. split; [lia|]. apply ev_old in H; [exact H|lia].
  Qed.
  Lemma keeps_old k : (k < length l)%nat -> (keeps (TT (l ++ [(e, s')])) k <-> keeps (TT l) k).
  Proof. intros H. unfold keeps. now rewrite !TT_old by lia. Qed.
  Lemma effect_old k y o : (k < length l)%nat -> (effect_of (TT (l ++ [(e, s')])) k y o <-> effect_of (TT l) k y o).
  Proof. intros H. destruct o; cbn [effect_of]; unfold sets; rewrite ?TT_old by lia; reflexivity. Qed.
End Snoc.

Definition since (l : list (levent * lst)) (i t : nat) (y : list Z) (o : lop) : Prop := ev l i (t, LStart y o) /\ forall k y' o', (i < k)%nat -> ~ ev l k (t, LStart y' o').
Definition quiet (l : list (levent * lst)) (i t : nat) (P : nat -> Prop) : Prop := forall k x, (i < k)%nat -> ev l k (t, x) -> P k -> keeps (TT l) k.
(* what is known of a thread from the run so far *)
Definition HT (l : list (levent * lst)) (s : lst) (t : nat) (p : lpc) : Prop :=
  match p with
  | LAt y o L r => exists i, since l i t y o /\ quiet l i t (fun _ => True) /\
      (o = LGet -> dead s L = true -> exists k, (i < k <= length l)%nat /\ TT l k y = None)
  | LDone y o r => (o = LGet /\ exists i k, since l i t y o /\ quiet l i t (fun _ => True) /\ (i < k < length l)%nat /\ TT l k y = r) \/
      (writes o /\ exists i k x, since l i t y o /\ quiet l i t (fun j => j <> k) /\ (i < k)%nat /\ ev l k (t, x) /\ TT l k y = r /\ effect_of (TT l) k y o)
  | _ => True
  end.

Record ALL (l : list (levent * lst)) (s : lst) : Prop := {
  al_inv : exists g, LI s g;
  al_st : st l (length l) = s;
  al_ht : forall t, HT l s t (pcs s t);
  al_ex : explained l (TT l);
  al_fin : forall i j t y o r, finished l i j t y o r -> linearized l (TT l) i j t y o r
}.
Lemma same_tab s g s' g' : LI s g -> LI s' g' -> same s s' -> forall y, tab s' y = tab s y.
Proof. intros A B H y. apply (entry_fun s y); [|now apply (tab_ok s g)]. intros v. rewrite <- (H y v). now apply (tab_ok s' g'). Qed.
Lemma entry_tab s g y r : LI s g -> entry s y r -> tab s y = r. Proof. intros A H. apply (entry_fun s y); [now apply (tab_ok s g)|exact H]. Qed.

Section Main.
  Variables (l : list (levent * lst)) (t : nat) (x : lchoice) (s s' : lst).
  Let l' := l ++ [((t, x), s')].
  Hypothesis A : ALL l s.
  Hypothesis ST : lstep s t x = Some s'.
  Let Es := al_st _ _ A.
  Lemma len' : length l' = S (length l). Proof. unfold l'. rewrite app_length. cbn. lia. Qed.
  Lemma tab_now : TT l' (length l) = tab s. Proof. unfold l'. rewrite TT_old by lia. unfold TT. now rewrite Es. Qed.
  Lemma since_keep i t0 y o : since l i t0 y o -> (t0 = t -> nostart x) -> since l' i t0 y o.
  Proof.
    intros (B & C) H. pose proof (ev_lt _ _ _ B) as F. split; [now apply ev_old|]. intros k y' o' Hk Q. apply ev_split in Q. destruct Q as [(Q1 & Q2)|(Q1 & Q2)]; [now apply (C k y' o')|].
    injection Q2 as -> Q2. exact (H eq_refl y' o' (eq_sym Q2)).
  Qed.
  Lemma since_new y o : x = LStart y o -> since l' (length l) t y o.
  Proof.
    intros E. split; [apply ev_last; now rewrite E|]. intros k y' o' Hk Q. apply ev_lt in Q. unfold l' in Q. rewrite app_length in Q. cbn in Q. lia.
  Qed.
  Lemma since_lt i t0 y o : since l i t0 y o -> (i < length l)%nat. Proof. intros (B & _). exact (ev_lt _ _ _ B). Qed.
  Lemma quiet_ext i t0 P : quiet l i t0 P -> (t0 = t -> P (length l) -> keeps (TT l') (length l)) -> quiet l' i t0 P.
  Proof.
    intros B C k x0 Hk Q HP. apply ev_split in Q. destruct Q as [(Q1 & Q2)|(-> & Q2)]; [apply keeps_old; eauto|]. injection Q2 as Q2 _. auto.
  Qed.
  Lemma same_keeps : same s s' -> keeps (TT l') (length l).
  Proof.
    intros H y. destruct (al_inv _ _ A) as (g & Ig). destruct (gd_inv _ _ _ _ _ (step_good s g t Ig x s' ST)) as (g' & Ig'). rewrite tab_now. unfold l'. rewrite TT_last. exact (same_tab s g s' g' Ig Ig' H y).
  Qed.
  Lemma other_HT t0 : t0 <> t -> HT l' s' t0 (pcs s' t0).
  Proof.
    intros N. destruct (al_inv _ _ A) as (g & Ig). destruct (step_good s g t Ig x s' ST) as [_ GD GP _]. rewrite (GP t0 N). pose proof (al_ht _ _ A t0) as H. pose proof (i_thr _ _ Ig t0) as T.
    destruct (pcs s t0) as [|y o L r|y o r|L q]; cbn [HT] in *; auto.
    - destruct H as (i & H1 & H2 & H3). exists i. split; [now apply since_keep|]. split; [now apply quiet_ext|]. intros Eo D. rewrite len'. pose proof (since_lt _ _ _ _ H1). destruct (GD L D) as [D'|D'].
      + destruct (H3 Eo D') as (k & Hk & E). exists k. split; [lia|]. unfold l'. rewrite TT_old by lia. exact E.
      + destruct (dead s L) eqn:DL; [destruct (H3 Eo eq_refl) as (k & Hk & E); exists k; split; [lia|]; unfold l'; rewrite TT_old by lia; exact E|].
        exists (length l). split; [lia|]. rewrite tab_now. apply (entry_tab s g); [exact Ig|]. intros v. rewrite (path' s g Ig y o L r v T DL). split; [|discriminate].
        intros Q. exfalso. revert Q. apply has_none. now rewrite D'.
    - destruct H as [(Eo & i & k & H1 & H2 & H3 & H4)|(W & i & k & x0 & H1 & H2 & H3 & H4 & H5 & H6)].
      + left. split; [exact Eo|]. exists i, k. split; [now apply since_keep|]. split; [now apply quiet_ext|]. rewrite len'. split; [lia|]. unfold l'. rewrite TT_old by lia. exact H4.
      + right. split; [exact W|]. pose proof (ev_lt _ _ _ H4). exists i, k, x0. split; [now apply since_keep|]. split; [now apply quiet_ext|]. split; [exact H3|]. split; [now apply ev_old|].
        unfold l'. rewrite TT_old by lia. split; [exact H5|now apply effect_old].
  Qed.
  Definition justified : Prop := keeps (TT l') (length l) \/ exists i y o, running l' i (length l) t y o /\ effect_of (TT l') (length l) y o /\ forall k' x', (i < k' < length l)%nat -> ev l' k' (t, x') -> keeps (TT l') k'.
  Lemma own_HT : HT l' s' t (pcs s' t) /\ justified.
  Proof.
    destruct (al_inv _ _ A) as (g & Ig). destruct (step_good s g t Ig x s' ST) as [(g' & Ig') GD GP K]. pose proof (al_ht _ _ A t) as H. unfold kind in K.
    destruct K as [(k & o & P & X & P' & SM)|[(k & o & L & r & L' & r' & P & NS & P' & SM & DE)|[(k & L & r & res & P & NS & P' & SM & DE)|[(k & o & L & r & res & P & W & NS & P' & E1 & E2 & E3)|(NS & SM & P')]]]].
    - split; [|left; now apply same_keeps]. rewrite P'. cbn [HT]. exists (length l). split; [now apply since_new|]. split.
      + intros k0 x0 Hk He _. apply ev_lt in He. rewrite len' in He. lia.
      + intros _ D. rewrite (proj1 (proj2 (i_z _ _ Ig'))) in D. discriminate.
    - split; [|left; now apply same_keeps]. rewrite P'. rewrite P in H. cbn [HT] in *. destruct H as (i & H1 & H2 & H3). exists i. split; [now apply since_keep|]. split; [apply quiet_ext; [exact H2|intros _ _; now apply same_keeps]|].
      intros Eo D. exists (length l). pose proof (since_lt _ _ _ _ H1). rewrite len'. split; [lia|]. rewrite tab_now. apply (entry_tab s g); [exact Ig|auto].
    - split; [|left; now apply same_keeps]. rewrite P'. rewrite P in H. cbn [HT] in *. destruct H as (i & H1 & H2 & H3). left. split; [reflexivity|]. pose proof (since_lt _ _ _ _ H1). rewrite len'. destruct DE as [(D & ->)|DE].
      + destruct (H3 eq_refl D) as (k0 & Hk & E). exists i, k0. split; [now apply since_keep|]. split; [apply quiet_ext; [exact H2|intros _ _; now apply same_keeps]|]. split; [lia|]. unfold l'. rewrite TT_old by lia. exact E.
      + exists i, (length l). split; [now apply since_keep|]. split; [apply quiet_ext; [exact H2|intros _ _; now apply same_keeps]|]. split; [lia|]. rewrite tab_now. now apply (entry_tab s g).
    - rewrite P'. rewrite P in H. cbn [HT] in *. destruct H as (i & H1 & H2 & H3). pose proof (since_lt _ _ _ _ H1) as Hi.
      assert (Ef : effect_of (TT l') (length l) k o).
      { assert (Q : sets (TT l') (length l) k (eff o)).
        { unfold sets. rewrite tab_now. unfold l'. rewrite TT_last. split; [now apply (entry_tab s' g')|]. intros y' N. apply (entry_fun s y'); [|now apply (tab_ok s g)]. intros v. rewrite <- (E3 y' v N). now apply (tab_ok s' g'). }
        destruct o; [destruct W|exact Q|exact Q|destruct W]. }
      split.
      + right. split; [exact W|]. exists i, (length l), x. split; [now apply since_keep|]. split; [|split; [exact Hi|split; [now apply ev_last|split; [rewrite tab_now; now apply (entry_tab s g)|exact Ef]]]].
        apply quiet_ext; [intros k0 x0 Hk He _; now apply (H2 k0 x0)|intros _ F; congruence].
      + right. exists i, k, o. split; [|split; [exact Ef|]].
        * destruct (since_keep i t k o H1 (fun _ => NS)) as (S1 & S2). split; [exact S1|]. split; [exact Hi|]. intros k' y' o' Hk He. exact (S2 k' y' o' (proj1 Hk) He).
        * intros k' x' Hk He. apply ev_split in He. destruct He as [(_ & He)|(He & _)]; [|lia]. apply keeps_old; [lia|]. apply (H2 k' x'); [lia|exact He|exact Logic.I].
    - split; [|left; now apply same_keeps]. destruct P' as [->|(L & q & ->)]; exact Logic.I.
  Qed.
  Lemma all_HT t0 : HT l' s' t0 (pcs s' t0). Proof. destruct (Nat.eq_dec t0 t) as [->|N]; [apply own_HT|now apply other_HT]. Qed.
  Lemma lin_old i j t0 y o r : (j < length l)%nat -> linearized l (TT l) i j t0 y o r -> linearized l' (TT l') i j t0 y o r.
  Proof.
    intros Hj (k & H1 & H2 & H3 & H4). exists k. split; [exact H1|]. split; [unfold l'; rewrite TT_old by lia; exact H2|]. split.
    - intros W. destruct (H3 W) as ((z & Hz) & He). split; [exists z; apply ev_old; [lia|exact Hz]|apply effect_old; [lia|exact He]].
    - intros k' x' Hk He Q. apply ev_split in He. destruct He as [(_ & He)|(He & _)]; [|lia]. apply keeps_old; [lia|]. now apply (H4 k' x').
  Qed.
  Lemma fin_old i j t0 y o r : (j < length l)%nat -> finished l' i j t0 y o r -> finished l i j t0 y o r.
  Proof.
    intros Hj (H1 & H2 & H3 & H4 & H5). split; [apply ev_split in H1; destruct H1 as [(_ & H1)|(H1 & _)]; [exact H1|lia]|]. split; [exact H2|]. split; [exact Hj|].
    split; [unfold l' in H4; rewrite st_old in H4 by lia; exact H4|]. intros k y' o' Hk He. apply (H5 k y' o' Hk). apply ev_old; [lia|exact He].
  Qed.
  Lemma same_start i i0 t0 y o y' o' : ev l' i (t0, LStart y o) -> (forall k y' o', (i < k <= length l)%nat -> ~ ev l' k (t0, LStart y' o')) -> since l' i0 t0 y' o' -> i0 = i.
  Proof.
    intros H1 H2 (H3 & H4). pose proof (ev_lt _ _ _ H3) as F. rewrite len' in F. destruct (Nat.lt_trichotomy i i0) as [Q|[Q|Q]]; [|congruence|].
    - destruct (H2 i0 y' o' ltac:(lia) H3).
    - destruct (H4 i y o Q H1).
  Qed.
  Lemma fin_new i t0 y o r : finished l' i (length l) t0 y o r -> linearized l' (TT l') i (length l) t0 y o r.
  Proof.
    intros (H1 & H2 & _ & H4 & H5). unfold l' in H4. rewrite st_last in H4. pose proof (all_HT t0) as P. rewrite H4 in P. cbn [HT] in P.
    destruct P as [(-> & i0 & k & K1 & K2 & K3 & K4)|(W & i0 & k & x0 & K1 & K2 & K3 & K4 & K5 & K6)]; pose proof (same_start i i0 t0 _ _ _ _ H1 H5 K1); subst i0.
    - rewrite len' in K3. exists k. split; [lia|]. split; [exact K4|]. split; [intros []|]. intros k' x' G1 G2 _. apply (K2 k' x'); [lia|exact G2|exact Logic.I].
    - pose proof (ev_lt _ _ _ K4) as F. rewrite len' in F. exists k. split; [lia|]. split; [exact K5|]. split; [eauto|]. intros k' x' G1 G2 [G3|G3]; [contradiction|]. apply (K2 k' x'); [lia|exact G2|exact G3].
  Qed.
  Lemma all_step : ALL l' s'.
  Proof.
    destruct (al_inv _ _ A) as (g & Ig). constructor.
    - exact (gd_inv _ _ _ _ _ (step_good s g t Ig x s' ST)).
    - rewrite len'. apply st_last.
    - exact all_HT.
    - intros k t0 x0 He. apply ev_split in He. destruct He as [(Hk & He)|(-> & [= -> ->])]; [|apply own_HT].
      destruct (al_ex _ _ A k t0 x0 He) as [H|(i & y & o & (H1 & H2 & H3) & H4 & H5)]; [left; now apply keeps_old|]. right. exists i, y, o. split; [|split; [now apply effect_old|]].
      + split; [apply ev_old; [lia|exact H1]|]. split; [exact H2|]. intros k' y' o' Hk' He'. apply (H3 k' y' o' Hk'). apply ev_split in He'. destruct He' as [(_ & He')|(He' & _)]; [exact He'|lia].
      + intros k' x' Hk' He'. apply keeps_old; [lia|]. apply (H5 k' x' Hk'). apply ev_split in He'. destruct He' as [(_ & He')|(He' & _)]; [exact He'|lia].
    - intros i j t0 y o r Hf. destruct (Nat.lt_ge_cases j (length l)) as [Hj|Hj]; [apply lin_old; [exact Hj|]; apply (al_fin _ _ A); now apply fin_old|].
      assert (Q : j = length l) by (destruct Hf as (_ & _ & Hf & _); rewrite len' in Hf; lia). subst j. now apply fin_new.
  Qed.
End Main.

Lemma LI_start : LI lstart (fun _ => []).
Proof. constructor; try (intros; discriminate); auto; [intros L' A B; cbn in A; lia|intros t; exact Logic.I]. Qed.
Lemma all_start : ALL [] lstart.
Proof.
  constructor.
  - exists (fun _ => []). exact LI_start.
  - reflexivity.
  - intros t. exact Logic.I.
  - intros k t x H. apply ev_lt in H. cbn in H. lia.
  - intros i j t y o r (_ & _ & H & _). cbn in H. lia.
Qed.
Lemma all_steps s l s' : lsteps s l s' -> forall l0, ALL l0 s -> ALL (l0 ++ l) s'.
Proof.
  induction 1 as [s|s t x s1 l s2 E H IH]; intros l0 A; [now rewrite app_nil_r|]. replace (l0 ++ (t, x, s1) :: l) with ((l0 ++ [((t, x), s1)]) ++ l) by (rewrite <- app_assoc; reflexivity).
  apply IH; auto. apply (all_step l0 t x s s1 A E); auto.
Qed.
Lemma layers_main l s : lsteps lstart l s -> exists T, atomic l T.
Proof.
  intros H. pose proof (all_steps lstart l s H [] all_start) as A. cbn [app] in A. exists (TT l). split; [|split; [exact (al_ex _ _ A)|exact (al_fin _ _ A)]].
  intros y. change (tab lstart y = None). reflexivity.
Qed.
