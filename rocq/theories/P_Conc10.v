(* Concurrent layer: redirect, and the internode that has become empty. *)
From Verif Require Import Lib M_Tree M_Stampc P_Stampc1 M_Conc P_Conc1 P_Conc2 P_Conc3 P_Conc4 P_Conc5 P_Conc6 P_Conc7 P_Conc8 P_Conc9.

(* Only the ghost changes: the keys above p may become as small as rik. *)
Section Lower.
  Variables (s : cst) (g : gst) (t p f : nat) (rik : Z).
  Hypothesis G : GI s g.
  Hypothesis Hp : (p < fr s)%nat.
  Hypothesis Hpi : isl (nd s p) = false.
  Hypothesis Hlk : v_lk (ver (nd s p)) = true.
  Hypothesis Hf : first_kid (kids (nd s p)) = Some f.
  Hypothesis Ha : aft g rik f.
  Hypothesis Hl : l0 g f <= rik.
  Hypothesis Hr : 0 < rik.
  Hypothesis Hm : forall t', t' <> t -> ~ In p (holds (pcs s t')).
  Hypothesis Hze : forall a, ze g a = true -> (a < fr s)%nat /\ isl (nd s a) = true.
  Let g' := g_one g p p (Z.min (l0 g p) rik) (Z.max (sp g p) rik) (ll g p) (pd g) (rp g).
  Lemma lw_l0 x : l0 g' x <= l0 g x /\ (0 < l0 g x -> 0 < l0 g' x) /\ (x <> p -> l0 g' x = l0 g x).
  Proof. cbn. unfold setf. destruct (Nat.eqb_spec x p) as [->|]; lia. Qed.
  Lemma lw_ll x : ll g' x = ll g x. Proof. cbn. unfold setf. destruct (Nat.eqb_spec x p) as [->|]; reflexivity. Qed.
  Lemma lw_sp x : sp g x <= sp g' x. Proof. cbn. unfold setf. destruct (Nat.eqb_spec x p) as [->|]; lia. Qed.
  Lemma lower_adv : Adv s g s g' t /\ RF g' p rik.
  Proof.
    pose proof G as [GA GB GC]. destruct (gt_int _ _ GA p Hp Hpi) as (k0 & tl & C1 & C2 & C3).
    pose proof (first_in _ _ Hf) as Hin. pose proof (kid_del _ _ _ _ G Hp Hpi Hin) as Hdel. destruct (gt_kid _ _ GA _ _ Hp Hpi Hin) as (Hff & Hfp).
    pose proof (first_chain _ _ _ _ GA Hp Hpi Hf) as Hfc. destruct (aft_num _ _ _ _ GA Hff Ha) as (A1 & A2). destruct (kid_range _ _ _ _ GA Hp Hpi Hin) as (A3 & A4).
    pose proof (ehi_ge _ _ _ GA Hff) as A5. pose proof (gt_num _ _ GA p Hp) as (N1 & N2 & N3 & N4). pose proof (rp_some _ _ _ _ GA Hin) as Hrp.
    assert (Ao : forall k x, aft g k x -> aft g' k x) by (intros k x; unfold aft; rewrite lw_ll; pose proof (lw_sp x); lia).
    assert (Ko : forall k o, kok g k o -> kok g' k o) by (intros k o (x & E & A & B); exists x; pose proof (lw_l0 x); split; [exact E|]; split; [lia|auto]).
    assert (P9 : exists k1 tl1, kids (nd s p) = k1 :: tl1 /\ Forall2 (kok g') (keys (nd s p)) tl1 /\ (forall x, k1 = Some x -> l0 g' x <= l0 g' p)).
    { exists k0, tl. split; [exact C1|]. split; [revert C2; apply F2_impl; intros k o _; apply Ko|]. intros x E. pose proof (C3 x E). rewrite C1, E in Hf. cbn in Hf. injection Hf as ->.
      pose proof (lw_l0 f). change (l0 g' p) with (setf (l0 g) p (Z.min (l0 g p) rik) p). rewrite setf_same. lia. }
    assert (P10 : chain g' (ll g p) (subs g' (rp g p) ++ lkids g' (kids (nd s p))) (hh g p)).
    { pose proof (gt_chain _ _ GA p Hp Hpi) as C. revert C. apply chain_ext. intros c _. split; [apply lw_ll|reflexivity]. }
    assert (P11 : forall x, first_kid (kids (nd s p)) = Some x -> aft g' (Z.max (sp g p) rik) x).
    { intros x E. assert (x = f) by congruence. subst x. pose proof (gt_fst _ _ GA p f Hp Hpi Hf) as Q. apply Ao. unfold aft in *. lia. }
    assert (P12 : forall tl, v_del (ver (nd s p)) = false -> kids (nd s p) = None :: tl -> 0 < Z.min (l0 g p) rik).
    { intros tl' V E. pose proof (gv_n0 _ _ GC p tl' Hp Hpi V E). lia. }
    assert (P13 : forall a, ze g a = true -> a <> p) by (intros a Q ->; destruct (Hze p Q); congruence).
    assert (P14 : forall r0, rp g p = Some r0 -> kids (nd s p) = [None] /\ (r0 < fr s)%nat /\ par (nd s r0) = Some p /\ l0 g' r0 <= l0 g' p /\ aft g' (sp g' p) r0) by (intros r0; congruence).
    assert (Ev : forall x, ver (nd s x) = if (x =? p)%nat then ver (nd s p) else ver (nd s x)) by (intros x; destruct (Nat.eqb_spec x p) as [->|]; reflexivity).
    assert (Ek : forall x, keys (nd s x) = if (x =? p)%nat then keys (nd s p) else keys (nd s x)) by (intros x; destruct (Nat.eqb_spec x p) as [->|]; reflexivity).
    assert (Ec : forall x, kids (nd s x) = if (x =? p)%nat then kids (nd s p) else kids (nd s x)) by (intros x; destruct (Nat.eqb_spec x p) as [->|]; reflexivity).
    assert (P4 : forall m e, pd g m = Some e -> pd g m = Some e /\ par (nd s e) = None) by (intros m e E; split; [exact E|exact (pd_par _ _ _ _ GA E)]).
    assert (P15 : forall t', t' <> t -> ~ In p (holds (pcs s t')) /\ ~ In p (holds (pcs s t'))) by auto.
    assert (P16 : forall c, In (Some c) (kids (nd s p)) -> (c < fr s)%nat /\ par (nd s c) = Some p) by (intros c; now apply GA).
    assert (P17 : v_del (ver (nd s p)) = true -> kids (nd s p) = [None]) by congruence.
    pose proof (gt_nd _ _ GA p Hp Hpi) as ND.
    assert (P18 : v_lk (ver (nd s p)) = true /\ vmono (ver (nd s p)) (ver (nd s p)) /\ v_rt (ver (nd s p)) = v_rt (ver (nd s p))) by (split; [exact Hlk|]; split; [apply vmono_refl|reflexivity]).
    split; [split; [|split]|].
    - eapply on_GI with (v' := ver (nd s p)); eauto; cbn; try congruence; try lia.
    - eapply on_Rel with (v' := ver (nd s p)); eauto; cbn; try congruence; try lia.
    - eapply on_Frame with (v' := ver (nd s p)); eauto; cbn; try congruence; try lia.
    - unfold RF, aft. cbn. rewrite !setf_same. lia.
  Qed.
End Lower.

Lemma set_at_nth {A} (d : A) : forall l i, (i < length l)%nat -> set_at i (nth i l d) l = l.
Proof. intros l i H. unfold set_at. symmetry. now apply split_nth. Qed.
Lemma set_at_len {A} (x : A) l i : (i < length l)%nat -> length (set_at i x l) = length l.
Proof. intros H. unfold set_at. rewrite app_length. cbn [length]. rewrite firstn_length, skipn_length. lia. Qed.

(* The key to the left of cur becomes rik. *)
Section Redw.
  Variables (s : cst) (g : gst) (t p cur i : nat) (rik : Z) (s' : cst).
  Hypothesis G : GI s g.
  Hypothesis Hp : (p < fr s)%nat.
  Hypothesis Hpi : isl (nd s p) = false.
  Hypothesis Hlk : v_lk (ver (nd s p)) = true.
  Hypothesis Hat : nth (S i) (kids (nd s p)) None = Some cur.
  Hypothesis HR : RF g cur rik.
  Hypothesis HC : chg s s' t p (ver (nd s p)) (set_at i rik (keys (nd s p))) (kids (nd s p)) None.
  Hypothesis Hm : forall t', t' <> t -> ~ In p (holds (pcs s t')).
  Hypothesis Hze : forall a, ze g a = true -> (a < fr s)%nat /\ isl (nd s a) = true.
  Let g' := g_pr g p (pd g) (rp g).
  Lemma redw_adv : Adv s g s' g' t /\ RF g' cur rik.
  Proof.
    pose proof G as [GA GB GC]. pose proof HC as (Ef & Er & Ei & Ev & Ekeys & Ekids & Epar & El & Ep).
    destruct (gt_int _ _ GA p Hp Hpi) as (k0 & tl & C1 & C2 & C3).
    pose proof (kid_in _ _ _ Hat) as Hin. pose proof (kid_del _ _ _ _ G Hp Hpi Hin) as Hdel.
    pose proof (gt_num _ _ GA p Hp) as (N1 & N2 & N3 & N4). pose proof (rp_some _ _ _ _ GA Hin) as Hrp.
    assert (Li : (i < length (keys (nd s p)))%nat).
    { rewrite (F2_len _ _ _ C2). rewrite C1 in Hat. cbn [nth] in Hat. exact (nth_some_lt _ _ _ Hat). }
    assert (P9 : exists k1 tl1, kids (nd s p) = k1 :: tl1 /\ Forall2 (kok g') (set_at i rik (keys (nd s p))) tl1 /\ (forall x, k1 = Some x -> l0 g' x <= l0 g' p)).
    { exists k0, tl. split; [exact C1|]. rewrite C1 in Hat. cbn [nth] in Hat. split.
      - rewrite <- (set_at_nth None tl i) by exact (nth_some_lt _ _ _ Hat). rewrite Hat. apply F2_set; [revert C2; apply F2_impl; intros k o _; apply gp_kok|].
        apply gp_kok. destruct (F2_nth _ _ _ i 0 None C2 Li) as (x & E & A & B). rewrite Hat in E. injection E as <-. destruct HR as (R1 & R2). exists cur. split; [reflexivity|]. split; [lia|exact R2].
      - intros x E. unfold g'. rewrite !gp_l0. now apply C3. }
    assert (P10 : chain g' (ll g p) (subs g' (rp g p) ++ lkids g' (kids (nd s p))) (hh g p)) by (apply gp_ch; exact (gt_chain _ _ GA p Hp Hpi)).
    assert (P11 : forall x, first_kid (kids (nd s p)) = Some x -> aft g' (sp g p) x) by (intros x E; apply gp_aft; exact (gt_fst _ _ GA p x Hp Hpi E)).
    assert (P12 : forall tl, v_del (ver (nd s p)) = false -> kids (nd s p) = None :: tl -> 0 < l0 g p) by (intros tl' V E; exact (gv_n0 _ _ GC p tl' Hp Hpi V E)).
    assert (P13 : forall a, ze g a = true -> a <> p) by (intros a Q ->; destruct (Hze p Q); congruence).
    assert (P14 : forall r0, rp g p = Some r0 -> kids (nd s p) = [None] /\ (r0 < fr s)%nat /\ par (nd s' r0) = Some p /\ l0 g' r0 <= l0 g' p /\ aft g' (sp g' p) r0) by (intros r0; congruence).
    assert (P1 : forall x q, par (nd s' x) = Some q -> par (nd s x) = Some q \/ (q = p /\ (l0 g' x = 0 -> l0 g' p = 0))) by (intros x q; rewrite Epar; auto).
    assert (P2 : forall x, par (nd s' x) = None -> par (nd s x) = None) by (intros x; rewrite Epar; auto).
    assert (P3 : forall x q, (x < fr s)%nat -> par (nd s x) = Some q -> q <> p -> q <> p -> pd g x = pd g x /\ par (nd s' x) = Some q) by (intros x q; rewrite Epar; auto).
    assert (P4 : forall m e, pd g m = Some e -> pd g m = Some e /\ par (nd s' e) = None) by (intros m e E; rewrite Epar; split; [exact E|exact (pd_par _ _ _ _ GA E)]).
    assert (P15 : forall t', t' <> t -> ~ In p (holds (pcs s t')) /\ ~ In p (holds (pcs s t'))) by auto.
    assert (P16 : forall c, In (Some c) (kids (nd s p)) -> (c < fr s)%nat /\ par (nd s' c) = Some p) by (intros c; rewrite Epar; now apply GA).
    assert (P17 : v_del (ver (nd s p)) = true -> kids (nd s p) = [None]) by congruence.
    pose proof (gt_nd _ _ GA p Hp Hpi) as ND.
    assert (P18 : v_lk (ver (nd s p)) = true /\ vmono (ver (nd s p)) (ver (nd s p)) /\ v_rt (ver (nd s p)) = v_rt (ver (nd s p))) by (split; [exact Hlk|]; split; [apply vmono_refl|reflexivity]).
    assert (P19 : v_dirty (ver (nd s p)) = false -> length (set_at i rik (keys (nd s p))) = length (keys (nd s p)) /\ kids (nd s p) = kids (nd s p) /\ pd g = pd g) by (intros _; rewrite set_at_len by exact Li; auto).
    split; [split; [|split]|].
    - eapply on_GI with (v' := ver (nd s p)); eauto; cbn; try congruence; try lia.
    - eapply on_Rel with (v' := ver (nd s p)); eauto; cbn; try congruence; try lia.
    - eapply on_Frame with (v' := ver (nd s p)); eauto; cbn; try congruence; try lia.
    - destruct HR as (R1 & R2). split; [unfold g'; now rewrite gp_l0|now apply gp_aft].
  Qed.
End Redw.

(* An internode left with at most one child is marked deleted. *)
Section Dnext.
  Variables (s : cst) (g : gst) (t p : nat) (s' : cst).
  Hypothesis G : GI s g.
  Hypothesis Hp : (p < fr s)%nat.
  Hypothesis Hpi : isl (nd s p) = false.
  Hypothesis Hlk : v_lk (ver (nd s p)) = true.
  Hypothesis Hk : keys (nd s p) = [].
  Hypothesis Hrp : rp g p = None.
  Hypothesis Hpar : par (nd s p) <> None.
  Hypothesis HC : chg s s' t p (v_mdel (ver (nd s p))) [] [None] None.
  Hypothesis Hm : forall t', t' <> t -> ~ In p (holds (pcs s t')).
  Hypothesis Hze : forall a, ze g a = true -> (a < fr s)%nat /\ isl (nd s a) = true.
  Let g' := g_pr g p (pd g) (setf (rp g) p (ofirst (kids (nd s p)))).
  Lemma dnext_adv : Adv s g s' g' t.
  Proof.
    pose proof G as [GA GB GC]. pose proof HC as (Ef & Er & Ei & Ev & Ekeys & Ekids & Epar & El & Ep).
    destruct (gt_int _ _ GA p Hp Hpi) as (k0 & tl & C1 & C2 & C3). rewrite Hk in C2. inversion C2; subst tl.
    pose proof (gt_num _ _ GA p Hp) as (N1 & N2 & N3 & N4).
    assert (P9 : exists k1 tl1, [None] = k1 :: tl1 /\ Forall2 (kok g') [] tl1 /\ (forall x, k1 = Some x -> l0 g' x <= l0 g' p)) by (exists None, []; split; [reflexivity|]; split; [constructor|discriminate]).
    assert (P10 : chain g' (ll g p) (subs g' (setf (rp g) p (ofirst (kids (nd s p))) p) ++ lkids g' [None]) (hh g p)).
    { apply gp_ch. pose proof (gt_chain _ _ GA p Hp Hpi) as C. rewrite Hrp, C1 in C. rewrite setf_same, C1. cbn [ofirst]. cbn [subs app] in C. change (lkids g' [None]) with (@nil nat).
      change (lkids g [k0]) with (subs g k0 ++ []) in C. exact C. }
    assert (P11 : forall x, first_kid [None] = Some x -> aft g' (sp g p) x) by (intros x; discriminate).
    assert (P12 : forall tl, v_del (v_mdel (ver (nd s p))) = false -> [@None nat] = None :: tl -> 0 < l0 g p) by (intros; discriminate).
    assert (P13 : forall a, ze g a = true -> a <> p) by (intros a Q ->; destruct (Hze p Q); congruence).
    assert (P14 : forall r0, setf (rp g) p (ofirst (kids (nd s p))) p = Some r0 -> [@None nat] = [None] /\ (r0 < fr s)%nat /\ par (nd s' r0) = Some p /\ l0 g' r0 <= l0 g' p /\ aft g' (sp g' p) r0).
    { intros r0. rewrite setf_same, C1. cbn [ofirst]. intros ->. assert (Hin : In (Some r0) (kids (nd s p))) by (rewrite C1; now left). destruct (gt_kid _ _ GA _ _ Hp Hpi Hin) as (Q1 & Q2).
      split; [reflexivity|]. split; [exact Q1|]. split; [now rewrite Epar|]. unfold g'. rewrite !gp_l0, gp_sp. split; [now apply C3|]. apply gp_aft. apply (gt_fst _ _ GA p r0 Hp Hpi). now rewrite C1. }
    assert (P1 : forall x q, par (nd s' x) = Some q -> par (nd s x) = Some q \/ (q = p /\ (l0 g' x = 0 -> l0 g' p = 0))) by (intros x q; rewrite Epar; auto).
    assert (P2 : forall x, par (nd s' x) = None -> par (nd s x) = None) by (intros x; rewrite Epar; auto).
    assert (P3 : forall x q, (x < fr s)%nat -> par (nd s x) = Some q -> q <> p -> q <> p -> pd g x = pd g x /\ par (nd s' x) = Some q) by (intros x q; rewrite Epar; auto).
    assert (P4 : forall m e, pd g m = Some e -> pd g m = Some e /\ par (nd s' e) = None) by (intros m e E; rewrite Epar; split; [exact E|exact (pd_par _ _ _ _ GA E)]).
    assert (P15 : forall t', t' <> t -> ~ In p (holds (pcs s t')) /\ ~ In p (holds (pcs s t'))) by auto.
    assert (P16 : forall c, In (Some c) [@None nat] -> (c < fr s)%nat /\ par (nd s' c) = Some p) by (intros c [Q|[]]; discriminate).
    assert (P18 : v_lk (v_mdel (ver (nd s p))) = true /\ vmono (ver (nd s p)) (v_mdel (ver (nd s p))) /\ v_rt (v_mdel (ver (nd s p))) = v_rt (ver (nd s p))) by (split; [exact Hlk|]; split; [apply vmono_mdel|reflexivity]).
    assert (P19 : v_dirty (v_mdel (ver (nd s p))) = false -> length (@nil Z) = length (keys (nd s p)) /\ [None] = kids (nd s p) /\ pd g = pd g).
    { unfold v_dirty. cbn. rewrite orb_true_r. discriminate. }
    assert (P20 : forall q, q <> p -> q <> p -> setf (rp g) p (ofirst (kids (nd s p))) q = rp g q) by (intros; now apply setf_other).
    assert (P21 : NoDup (ks [None])) by constructor.
    assert (P22 : par (nd s p) = None -> v_spl (v_mdel (ver (nd s p))) = v_spl (ver (nd s p))) by congruence.
    split; [|split].
    - eapply on_GI with (v' := v_mdel (ver (nd s p))); eauto; cbn; try congruence; try lia.
    - eapply on_Rel with (v' := v_mdel (ver (nd s p))); eauto; cbn; try congruence; try lia.
    - eapply on_Frame with (v' := v_mdel (ver (nd s p))); eauto; cbn; try congruence; try lia.
  Qed.
End Dnext.
