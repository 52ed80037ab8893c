(* The language of patterns and the states of glob_match. *)
From Verif Require Import Lib M_Strfind Spec_Strfind P_Strfind1.

Lemma body_app r x : r <> [] -> body (r ++ [x]) = body r ++ [x] /\ negated (r ++ [x]) = negated r.
Proof. intros H. destruct r as [|y r]; [congruence|]. unfold body. simpl. destruct (y =? 94); auto. Qed.
Lemma body_suffix r : exists a, r = a ++ body r.
Proof. unfold body. destruct (negated r) eqn:E; [|exists []; auto]. destruct r as [|y r]; [discriminate|]. exists [y]; auto. Qed.
Lemma tl_app_in (l : list Z) x z : In z (tl (l ++ [x])) -> In z (tl l) \/ z = x.
Proof. destruct l as [|y l]; simpl; [tauto|]. rewrite in_app_iff. simpl. intuition. Qed.
Lemma in_tl_app (l l' : list Z) z : In z (tl l) -> In z (tl (l ++ l')).
Proof. destruct l as [|y l]; simpl; [tauto|]. rewrite in_app_iff. auto. Qed.
Lemma glob_nil_inv s : glob [] s -> s = [].
Proof. intros H. inversion H; auto. Qed.

(* A byte that stands for itself at the end of a pattern. *)
Definition plain (x : Z) (p : list Z) : Prop := x <> 42 /\ x <> 63 /\ x <> 93 /\ forall p0, p <> p0 ++ [92].
Lemma plain_cons x y p : plain x (y :: p) -> plain x p.
Proof. intros (A & B & C & D). split; [|split; [|split]]; auto. intros p0 E. apply (D (y :: p0)). simpl. congruence. Qed.
Lemma plain_app x a p : plain x (a ++ p) -> plain x p.
Proof. induction a; simpl; auto. intros H. apply plain_cons in H. auto. Qed.
Lemma glob_one x : x <> 42 -> x <> 63 -> glob [x] [x].
Proof.
  intros A B. destruct (Z.eq_dec x 92) as [-> | H]; [constructor|]. destruct (Z.eq_dec x 91) as [-> | H1]; [apply G_open; [simpl; auto|constructor]|]. apply G_char; auto. constructor.
Qed.
Lemma glob_tail2 x p s : glob p s -> plain x p -> glob (p ++ [x]) (s ++ [x]).
Proof.
  induction 1; intros K; simpl.
  - destruct K as (A & B & _). apply glob_one; auto.
  - apply G_any. apply IHglob. eapply plain_cons; eauto.
  - apply G_star0. apply IHglob. eapply plain_cons; eauto.
  - apply G_star1. apply IHglob. auto.
  - apply G_esc. apply IHglob. eapply plain_cons, plain_cons; eauto.
  - destruct K as (_ & _ & _ & D). exfalso. apply (D []). auto.
  - assert (r <> []) by (intros ->; destruct m; discriminate). destruct (body_app r x) as (E1 & E2); auto.
    apply (G_class _ m (p ++ [x])); auto.
    + rewrite E1, H1, <- app_assoc. auto.
    + rewrite E2. auto.
    + apply IHglob. apply plain_cons in K. destruct (body_suffix r) as (a & Ea). rewrite Ea, H1 in K. apply plain_app in K. apply plain_app in K. apply plain_cons in K. auto.
  - apply G_open; [|apply IHglob; eapply plain_cons; eauto]. destruct K as (_ & _ & D & _). destruct r as [|y r].
    + unfold body. simpl. destruct (x =? 94); simpl; auto.
    + destruct (body_app (y :: r) x) as (E1 & E2); [discriminate|]. rewrite E1. intros C. apply tl_app_in in C. destruct C as [C|C]; auto.
  - apply G_char; auto. apply IHglob. eapply plain_cons; eauto.
Qed.
Lemma cons_snoc (y : Z) l p x : y :: l = p ++ [x] -> (p = [] /\ y = x /\ l = []) \/ exists p', p = y :: p' /\ l = p' ++ [x].
Proof. destruct p as [|z p]; simpl; intros E; inversion E; subst; [left; auto|right; eauto]. Qed.
Lemma glob_tail1 P S : glob P S -> forall p w, P = p ++ [w] -> plain w p -> exists s, S = s ++ [w] /\ glob p s.
Proof.
  induction 1; intros q w E K; try (apply cons_snoc in E; destruct E as [(-> & <- & El)|(p' & -> & El)]).
  - destruct q; discriminate.
  - destruct K as (A & B & C & D). congruence.
  - destruct (IHglob p' w) as (s' & -> & G); auto; [eapply plain_cons; eauto|]. exists (c :: s'). split; auto. constructor; auto.
  - destruct K as (A & B & C & D). congruence.
  - destruct (IHglob p' w) as (s' & -> & G); auto; [eapply plain_cons; eauto|]. exists s'. split; auto. constructor; auto.
  - destruct K as (A & B & C & D). congruence.
  - destruct (IHglob (42 :: p') w) as (s' & -> & G); auto; [simpl; congruence|]. exists (c :: s'). split; auto. apply G_star1; auto.
  - discriminate.
  - apply cons_snoc in El. destruct El as [(-> & <- & El)|(p'' & -> & El)].
    + destruct K as (_ & _ & _ & D). exfalso. apply (D []). auto.
    + destruct (IHglob p'' w) as (s' & -> & G); auto; [eapply plain_cons, plain_cons; eauto|]. exists (c :: s'). split; auto. constructor; auto.
  - exists []. split; auto. constructor.
  - destruct p'; discriminate.
  - subst r. destruct m; [congruence|discriminate].
  - subst r. assert (Hne : p' <> []).
    { intros ->. unfold body in H1. simpl in H1. destruct m as [|y m]; [congruence|]. destruct (w =? 94); simpl in H1; [discriminate|]. inversion H1. destruct m; discriminate. }
    destruct (body_app p' w Hne) as (E1 & E2). rewrite E1 in H1. rewrite E2 in H2.
    destruct p as [|y p0] eqn:Ep.
    { apply app_inj_tail in H1. destruct H1 as (_ & ->). destruct K as (_ & _ & C & _). congruence. }
    destruct (exists_last (l := p)) as (p1 & z & El); [subst p; discriminate|]. rewrite <- Ep in *. clear Ep. subst p.
    change (m ++ 93 :: p1 ++ [z]) with (m ++ (93 :: p1) ++ [z]) in H1. rewrite app_assoc in H1. apply app_inj_tail in H1. destruct H1 as (H1 & <-).
    destruct (IHglob p1 w) as (s' & -> & G); auto.
    { apply plain_cons in K. destruct (body_suffix p') as (a & Ea). rewrite Ea, H1 in K. apply plain_app in K. apply plain_app in K. apply plain_cons in K. auto. }
    exists (c :: s'). split; auto. apply (G_class _ m p1); auto.
  - subst r. apply glob_nil_inv in H0. subst s. exists []. split; auto. constructor.
  - subst r. destruct (IHglob p' w) as (s' & -> & G); auto; [eapply plain_cons; eauto|]. exists (91 :: s'). split; auto. apply G_open; auto. destruct p' as [|y p']; [simpl; auto|].
    destruct (body_app (y :: p') w) as (E1 & E2); [discriminate|]. rewrite E1 in H. intros C. apply H. apply in_tl_app. auto.
  - subst p. apply glob_nil_inv in H3. subst s. exists []. split; auto. constructor.
  - destruct (IHglob p' w) as (s' & -> & G); auto; [eapply plain_cons; eauto|]. exists (x :: s'). split; auto. apply G_char; auto.
Qed.
Lemma glob_tail x y p s : plain x p -> (glob (p ++ [x]) (s ++ [y]) <-> x = y /\ glob p s).
Proof.
  intros K. split.
  - intros G. destruct (glob_tail1 _ _ G p x eq_refl K) as (s' & E & G'). apply app_inj_tail in E. destruct E as (-> & ->). auto.
  - intros (-> & G). apply glob_tail2; auto.
Qed.
Lemma strip_ok rp rs after : match strip rp rs after with
  | None => ~ glob (rev rp) (rev rs)
  | Some (rp', rs', _) => (glob (rev rp) (rev rs) <-> glob (rev rp') (rev rs')) /\ incl rp' rp
  end.
Proof.
  revert rs after. induction rp as [|x rp IH]; intros [|y rs] after; simpl; try (split; [reflexivity|apply incl_refl]).
  destruct (negb (x =? 42) && negb (x =? 63) && negb (x =? 93) && match rp with z :: _ => negb (z =? 92) | [] => true end) eqn:E; [|split; [reflexivity|apply incl_refl]].
  assert (K : plain x (rev rp)).
  { repeat (apply andb_true_iff in E; destruct E as (E & ?)). split; [lia|]. split; [lia|]. split; [lia|]. intros p0 Ep. destruct rp as [|z rp]; simpl in Ep; [destruct p0; discriminate|]. apply app_inj_tail in Ep. lia. }
  destruct (x =? y) eqn:Exy.
  - assert (x = y) as <- by lia. specialize (IH rs (x :: after)). destruct (strip rp rs (x :: after)) as [((rp', rs'), a')|].
    + destruct IH as (IH & IH'). split; [|apply incl_tl; auto]. rewrite glob_tail by auto. tauto.
    + rewrite glob_tail by auto. tauto.
  - rewrite glob_tail by auto. lia.
Qed.

Lemma scan_new_ok c found e : match scan_new c found e with
  | COut => False
  | CLit => ~ In 93 e
  | CSet f q => exists m, e = m ++ 93 :: q /\ ~ In 93 m /\ (f = true <-> found = true \/ In c m)
  end.
Proof.
  revert found. induction e as [|x e IH]; intros found; simpl; auto. destruct (x =? 93) eqn:E.
  - assert (x = 93) as -> by lia. exists []. simpl. tauto.
  - specialize (IH (found || (x =? c))). destruct (scan_new c (found || (x =? c)) e) as [| |f q]; auto.
    + intros [->|C]; [discriminate|]. auto.
    + destruct IH as (m & -> & H1 & H2). exists (x :: m). split; auto. split; [intros [->|C]; [discriminate|auto]|]. rewrite H2. simpl. rewrite orb_true_iff, Z.eqb_eq. tauto.
Qed.
Lemma class_ok after c r : match class true after c r with
  | COut => False
  | CLit => ~ In 93 (tl (body r))
  | CSet f q => exists m, m <> [] /\ ~ In 93 (tl m) /\ body r = m ++ 93 :: q /\ (f = true <-> (In c m <-> negated r = false))
  end.
Proof.
  unfold class. change (match r with x :: _ => x =? 94 | [] => false end) with (negated r). cbv zeta. change (if negated r then tl r else r) with (body r).
  destruct (body r) as [|x e]; simpl; auto. pose proof (scan_new_ok c (x =? c) e) as H. destruct (scan_new c (x =? c) e) as [| |f q]; auto.
  destruct H as (m & -> & H1 & H2). exists (x :: m). split; [discriminate|]. split; auto. split; auto. simpl. rewrite Z.eqb_eq in H2. rewrite <- H2. destruct f, (negated r); simpl; intuition congruence.
Qed.
Lemma class_unique (m m' : list Z) q q' : ~ In 93 m -> ~ In 93 m' -> m ++ 93 :: q = m' ++ 93 :: q' -> m = m' /\ q = q'.
Proof.
  revert m'. induction m as [|x m IH]; intros [|y m'] H1 H2 E; simpl in *; inversion E; subst; auto; try (exfalso; auto; fail).
  destruct (IH m') as (-> & ->); auto.
Qed.
