(* glob_match decides the language of patterns. *)
From Verif Require Import Lib M_Strfind Spec_Strfind P_Strfind1 P_Strfind2.

Definition good (rep : bool) (p : list Z) : Prop := rep = true \/ ~ In 91 p.
Lemma good_cons rep x p : good rep (x :: p) -> good rep p.
Proof. intros [->|H]; [left; auto|right]. intros C. apply H. right. auto. Qed.
Lemma glob_star s : glob [42] s.
Proof. induction s as [|c s IH]; [apply G_star0; constructor|]. apply G_star1. auto. Qed.
Lemma inv_any c r s : glob (63 :: r) (c :: s) <-> glob r s.
Proof. split; [intros H; inversion H; subst; auto; congruence|apply G_any]. Qed.
Lemma inv_star c r s : glob (42 :: r) (c :: s) <-> glob (42 :: r) s \/ glob r (c :: s).
Proof. split; [intros H; inversion H; subst; auto; congruence|intros [H|H]; [apply G_star1|apply G_star0]; auto]. Qed.
Lemma inv_esc c y r s : glob (92 :: y :: r) (c :: s) <-> y = c /\ glob r s.
Proof. split; [intros H; inversion H; subst; auto; congruence|intros (-> & H); apply G_esc; auto]. Qed.
Lemma inv_esc_end c s : glob [92] (c :: s) <-> 92 = c /\ glob [] s.
Proof. split; [intros H; inversion H; subst; try congruence; split; auto; constructor|intros (<- & H)]. apply glob_nil_inv in H. subst s. constructor. Qed.
Lemma inv_char c x r s : x <> 63 -> x <> 42 -> x <> 92 -> x <> 91 -> glob (x :: r) (c :: s) <-> x = c /\ glob r s.
Proof. intros A1 A2 A3 A4. split; [intros H; inversion H; subst; try congruence; auto|intros (-> & H); apply G_char; auto]. Qed.
Lemma inv_open c r s : ~ In 93 (tl (body r)) -> (glob (91 :: r) (c :: s) <-> 91 = c /\ glob r s).
Proof.
  intros H. split; [|intros (<- & G); apply G_open; auto]. intros G. inversion G; subst; try congruence; auto. exfalso. apply H.
  match goal with E : body r = _ |- _ => rewrite E end. destruct m; [congruence|]. simpl. apply in_app_iff. right. left. auto.
Qed.
Lemma inv_class c r m q s : m <> [] -> ~ In 93 (tl m) -> body r = m ++ 93 :: q -> (glob (91 :: r) (c :: s) <-> (In c m <-> negated r = false) /\ glob q s).
Proof.
  intros H1 H2 H3. split; [|intros (A & G); apply (G_class r m q); auto]. intros G. inversion G; subst; try congruence.
  - match goal with E : body r = m0 ++ _ |- _ => rewrite E in H3 end. destruct m as [|x m]; [congruence|]. destruct m0 as [|y m0]; [congruence|]. simpl in *. inversion H3; subst.
    match goal with E : m0 ++ _ = _ |- _ => apply class_unique in E; auto; destruct E as (-> & ->) end. auto.
  - exfalso. match goal with E : ~ In 93 (tl (body r)) |- _ => apply E end. rewrite H3. destruct m; [congruence|]. simpl. apply in_app_iff. right. left. auto.
Qed.

Definition some (l : list (list Z)) (s : list Z) : Prop := exists q, In q l /\ glob q s.
Lemma some_snoc l q s : some (l ++ [q]) s <-> some l s \/ glob q s.
Proof.
  unfold some. split.
  - intros (q' & Hi & G). apply in_app_iff in Hi. destruct Hi as [Hi|[<-|[]]]; eauto.
  - intros [(q' & Hi & G)|G]; [exists q'|exists q]; rewrite in_app_iff; simpl; auto.
Qed.
Definition moved (rep : bool) (c : Z) (next : list (list Z)) (K : list Z -> Prop) (r : gres) : Prop :=
  match r with Out => False | Yes => forall s, K (c :: s) | Next n => Forall (good rep) n /\ forall s, some n s <-> some next s \/ K (c :: s) end.
Lemma lit_ok rep c x r next K : Forall (good rep) next -> good rep r -> (forall s, K (c :: s) <-> x = c /\ glob r s) -> moved rep c next K (lit c x r next).
Proof.
  intros H1 H2 H3. unfold lit. simpl. destruct (x =? c) eqn:E.
  - split; [apply Forall_app; auto|]. intros s. rewrite some_snoc, H3. assert (x = c) by lia. tauto.
  - split; auto. intros s. rewrite H3. assert (x <> c) by lia. tauto.
Qed.
Lemma move_ok rep after c pp next : Forall (good rep) next -> good rep pp -> moved rep c next (glob pp) (move rep after c pp next).
Proof.
  revert next. induction pp as [|x r IH]; intros next H1 H2; simpl.
  - split; auto. intros s. split; auto. intros [H|H]; auto. apply glob_nil_inv in H. discriminate.
  - pose proof (good_cons _ _ _ H2) as H2'. destruct (x =? 63) eqn:E1.
    { assert (x = 63) as -> by lia. simpl. split; [apply Forall_app; auto|]. intros s. rewrite some_snoc, inv_any. tauto. }
    destruct (x =? 42) eqn:E2.
    { assert (x = 42) as -> by lia. destruct r as [|y r'] eqn:Er; [intros s; apply glob_star|]. rewrite <- Er in *.
      set (nx := match rev next with q :: _ => if same q (42 :: r) then next else next ++ [42 :: r] | [] => next ++ [42 :: r] end).
      assert (Hnx : Forall (good rep) nx /\ forall s, some nx s <-> some next s \/ glob (42 :: r) s).
      { assert (Hadd : Forall (good rep) (next ++ [42 :: r]) /\ forall s, some (next ++ [42 :: r]) s <-> some next s \/ glob (42 :: r) s) by (split; [apply Forall_app; auto|apply some_snoc]).
        unfold nx. destruct (rev next) as [|q l] eqn:El; auto. destruct (same q (42 :: r)) eqn:Es; auto. apply same_eq in Es. subst q. split; auto. intros s. split; auto. intros [H|H]; auto.
        exists (42 :: r). split; auto. apply in_rev. rewrite El. left. auto. }
      destruct Hnx as (N1 & N2). specialize (IH nx N1 H2'). destruct (move rep after c r nx) as [n| |]; simpl in *; auto.
      - destruct IH as (I1 & I2). split; auto. intros s. rewrite I2, N2, inv_star. tauto.
      - intros s. apply G_star0. auto. }
    destruct (x =? 92) eqn:E3.
    { assert (x = 92) as -> by lia. destruct r as [|y r'].
      - apply lit_ok; auto. intros s. apply inv_esc_end.
      - apply lit_ok; auto; [eapply good_cons; eauto|]. intros s. apply inv_esc. }
    destruct (x =? 91) eqn:E4.
    { assert (x = 91) as -> by lia. destruct H2 as [->|H2]; [|exfalso; apply H2; left; auto]. pose proof (class_ok after c r) as Hc. destruct (class true after c r) as [| |f q]; auto.
      - apply lit_ok; auto. intros s. apply inv_open. auto.
      - destruct Hc as (m & C1 & C2 & C3 & C4). simpl. split.
        + destruct f; auto. apply Forall_app. split; auto. constructor; auto. left. auto.
        + intros s. rewrite (inv_class c r m q s C1 C2 C3). destruct f.
          * rewrite some_snoc. tauto.
          * assert (~ (In c m <-> negated r = false)) by (rewrite <- C4; discriminate). tauto. }
    apply lit_ok; auto. intros s. apply inv_char; lia.
Qed.
Lemma moves_ok rep after c state next : Forall (good rep) next -> Forall (good rep) state -> moved rep c next (some state) (moves rep after c state next).
Proof.
  revert next. induction state as [|pp state IH]; intros next H1 H2; simpl.
  - split; auto. intros s. split; auto. intros [H|(q & [] & _)]; auto.
  - inversion H2; subst. pose proof (move_ok rep after c pp next H1 H3) as M. destruct (move rep after c pp next) as [n| |]; simpl in M; auto.
    + destruct M as (M1 & M2). specialize (IH n M1 H4). destruct (moves rep after c state n) as [n'| |]; simpl in *; auto.
      * destruct IH as (I1 & I2). split; auto. intros s. rewrite I2, M2. unfold some. split.
        -- intros [[H|H]|(q & Hi & G)]; auto; right; [exists pp|exists q]; simpl; auto.
        -- intros [H|(q & [<-|Hi] & G)]; auto. right. exists q. auto.
      * intros s. destruct (IH s) as (q & Hi & G). exists q. split; auto. right. auto.
    + intros s. exists pp. split; [left; auto|]. apply M.
Qed.
Lemma stars_ok p : stars p = true <-> glob p [].
Proof.
  induction p as [|x p IH]; simpl; [split; auto; constructor|]. rewrite andb_true_iff, IH, Z.eqb_eq. split.
  - intros (-> & G). apply G_star0. auto.
  - intros G. inversion G; subst; auto.
Qed.
Lemma run_ok rep after s state : Forall (good rep) state -> exists b, run rep after s state = Some b /\ (b = true <-> some state s).
Proof.
  revert state. induction s as [|c s IH]; intros state H; simpl.
  - eexists. split; [reflexivity|]. rewrite existsb_exists. unfold some. split; intros (q & Hi & G); exists q; split; auto; apply stars_ok; auto.
  - destruct state as [|pp st] eqn:E; [exists false; split; auto; split; [discriminate|intros (q & [] & _)]|]. rewrite <- E in *. clear E pp st.
    pose proof (moves_ok rep after c state [] (Forall_nil _) H) as M. destruct (moves rep after c state []) as [n| |]; simpl in M; [| |tauto].
    + destruct M as (M1 & M2). destruct (IH n M1) as (b & -> & Hb). exists b. split; auto. rewrite Hb, M2. split; auto. intros [(q & [] & _)|H']; auto.
    + exists true. split; auto. split; auto.
Qed.
Lemma glob_match_ok rep s p : rep = true \/ ~ In 91 p -> exists b, glob_match rep s p = Some b /\ (b = true <-> glob p s).
Proof.
  intros H. unfold glob_match. pose proof (strip_ok (rev p) (rev s) []) as K. rewrite !rev_involutive in K. destruct (strip (rev p) (rev s) []) as [((rp, rs), after)|].
  - destruct K as (K & Hi). destruct (run_ok rep after (rev rs) [rev rp]) as (b & -> & Hb).
    + constructor; auto. destruct H as [H|H]; [left; auto|right]. intros C. apply H. apply in_rev. apply Hi. apply in_rev. auto.
    + exists b. split; auto. rewrite Hb, K. unfold some. split; [intros (q & [<-|[]] & G); auto|]. intros G. exists (rev rp). split; [left|]; auto.
  - exists false. split; auto. split; [discriminate|tauto].
Qed.

(* Witnesses. "[a]" and "a"; "[a]" and "]"; "[^a]" and "a"; "[?" without a byte behind it. *)
Lemma class_wrong : glob [91; 97; 93] [97] /\ glob_match false [97] [91; 97; 93] = Some false /\ ~ glob [91; 97; 93] [93] /\ glob_match false [93] [91; 97; 93] = Some true /\
  ~ glob [91; 94; 97; 93] [97] /\ glob_match false [97] [91; 94; 97; 93] = Some true.
Proof.
  destruct (glob_match_ok true [97] [91; 97; 93]) as (b1 & E1 & H1); auto. destruct (glob_match_ok true [93] [91; 97; 93]) as (b2 & E2 & H2); auto. destruct (glob_match_ok true [97] [91; 94; 97; 93]) as (b3 & E3 & H3); auto.
  vm_compute in E1, E2, E3. injection E1 as <-. injection E2 as <-. injection E3 as <-. split; [apply H1; auto|]. split; [reflexivity|]. split; [intros C; apply H2 in C; discriminate|]. split; [reflexivity|]. split; [intros C; apply H3 in C; discriminate|reflexivity].
Qed.
Lemma glob_out : exists s p, glob_match false s p = None.
Proof. exists [120], [91; 63]. reflexivity. Qed.
Lemma right_out : exists s start x, find_right false s start x = Wild.
Proof. exists [97; 98], 1, [98; 99]. reflexivity. Qed.
