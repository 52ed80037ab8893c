(* Concurrent layer: every locked node is held by a thread; no deadlock. *)
From Verif Require Import Lib M_Tree M_Stampc P_Stampc1 M_Conc M_ConcRun Spec_Conc Spec_Conc2 P_Conc1 P_Conc2 P_Conc3 P_Conc4 P_Conc6 P_Conc14 P_Conc15 P_Conc16 P_Conc16b P_Conc18 P_Conc19 P_Conc20 P_Conc21 P_Conc22 P_Conc23 P_Conc24 P_Conc25 P_ConcR.

Definition lk (s : cst) (a : nat) : bool := v_lk (ver (nd s a)).
Definition own (s : cst) : Prop := forall a, lk s a = true -> exists t, In a (holds (pcs s t)).
(* s' has no lock that was not there or that p' does not hold; p' keeps what p held and is still locked. *)
Definition lkeep (s s' : cst) (p p' : pct) : Prop := forall a, lk s' a = true -> In a (holds p') \/ (lk s a = true /\ ~ In a (holds p)).
Lemma own_ok s s' t p' : own s -> (forall t0, pcs s' t0 = if (t0 =? t)%nat then p' else pcs s t0) -> lkeep s s' (pcs s t) p' -> own s'.
Proof.
  intros O P K a Ha. destruct (K a Ha) as [Q|(Q1 & Q2)]; [exists t; rewrite P, Nat.eqb_refl; exact Q|]. destruct (O a Q1) as (t0 & H0). exists t0. rewrite P. destruct (Nat.eqb_spec t0 t) as [->|]; [contradiction|exact H0].
Qed.
Lemma lk_put s a x z : lk (put s a x) z = if (z =? a)%nat then v_lk (ver x) else lk s z. Proof. unfold lk. rewrite nd_put. now destruct (z =? a)%nat. Qed.
Lemma lk_unlock s a z : lk (unlock s a) z = if (z =? a)%nat then false else lk s z.
Proof. unfold unlock, vput. rewrite lk_put. destruct (z =? a)%nat; [|reflexivity]. cbn [with_ver ver]. unfold v_unlock. now destruct (v_spl _). Qed.
Lemma lk_spar s a o z : lk (setpar s a o) z = lk s z. Proof. unfold setpar. rewrite lk_put. destruct (Nat.eqb_spec z a) as [->|]; reflexivity. Qed.
Lemma lk_spars q : forall l s z, lk (setpars s l q) z = lk s z.
Proof. induction l as [|[c|] l IH]; intros s z; cbn [setpars]; [reflexivity| |apply IH]. rewrite IH. apply lk_spar. Qed.
Lemma lk_go s t p z : lk (go s t p) z = lk s z. Proof. reflexivity. Qed.
Lemma lk_split s t y w n z : (forall b, nxt (nd s n) = Some b -> (b < fr s)%nat) -> lk (leaf_split s t y w n) z = if (z =? fr s)%nat then (if (n =? fr s)%nat then lk (leaf_split s t y w n) z else lk s n) else lk s z.
Proof.
  intros Hb. destruct (Nat.eqb_spec n (fr s)) as [->|N]; [destruct (Nat.eqb_spec z (fr s)); [reflexivity|]|].
  - unfold leaf_split. cbv zeta. destruct (nxt (nd s (fr s))) as [b|]; rewrite lk_go, !lk_put; cbn [with_nxt with_prv ver new_leaf]; unfold lk; rewrite ?nd_put; change (nd (grow s)) with (nd s);
      repeat match goal with |- context[(?u =? ?v)%nat] => destruct (Nat.eqb_spec u v); subst; try congruence end; reflexivity.
  - unfold leaf_split. cbv zeta. destruct (nxt (nd s n)) as [b|]; [specialize (Hb b eq_refl)|]; rewrite lk_go, !lk_put; cbn [with_nxt with_prv ver new_leaf]; unfold lk; rewrite ?nd_put; change (nd (grow s)) with (nd s);
      repeat match goal with |- context[(?u =? ?v)%nat] => destruct (Nat.eqb_spec u v); subst; try congruence; try lia end; cbn [with_nxt with_prv ver new_leaf]; reflexivity.
Qed.
Lemma lk_root s t y w tg n c sk h st z : lk (new_root s t y w tg n c sk h st) z = if (z =? fr s)%nat then false else lk s z.
Proof. unfold new_root. cbv zeta. rewrite lk_go, !lk_spar, lk_put. reflexivity. Qed.
Lemma lk_in s t y w tg n c sk h st q z : exists nc, pcs (in_parent s t y w tg n c sk h st q) t = after_in y w tg n c sk h st (Some q) nc /\
  (lk (in_parent s t y w tg n c sk h st q) z = true -> lk s z = true \/ In z (n2l nc)).
Proof.
  unfold in_parent. cbv zeta. set (kp := upper sk (keys (nd s q))). set (s0 := misplace (vput s q (v_mins (ver (nd s q)))) _).
  assert (L0 : forall z, lk s0 z = lk s z) by (intros z0; change (lk s0 z0) with (lk (vput s q (v_mins (ver (nd s q)))) z0); unfold vput; rewrite lk_put; destruct (Nat.eqb_spec z0 q) as [->|]; reflexivity). clearbody s0.
  destruct (S h <? ht (nd s q))%nat; [|destruct (length (keys (nd s q)) <? W)%nat]; rewrite gone; eexists; (split; [reflexivity|]).
  - rewrite lk_go, !lk_spar, lk_put. cbn [with_kk ver]. change (v_lk (ver (nd ?x q))) with (lk x q). rewrite !lk_put. cbn [new_inter ver v_lk v_new]. change (lk (grow s0)) with (lk s0). rewrite !L0.
    repeat match goal with |- context[(?u =? ?v)%nat] => destruct (Nat.eqb_spec u v); subst; try congruence; try lia end; auto; discriminate.
  - rewrite lk_go, !lk_spar, lk_put. cbn [with_kk ver]. change (v_lk (ver (nd ?x q))) with (lk x q). rewrite !L0. destruct (Nat.eqb_spec z q) as [->|]; auto.
  - rewrite lk_go, lk_spars, !lk_put. cbn [new_inter ver v_nonroot v_mins v_lk with_kk with_ver v_mspl]. change (lk (grow ?x) z) with (lk x z). rewrite !lk_put. cbn [with_kk with_ver ver v_mspl v_lk]. change (v_lk (ver (nd ?x q))) with (lk x q). rewrite !lk_spar, !L0.
    destruct (Nat.eqb_spec z (fr s)) as [->|]; [right; cbn; auto|]. destruct (Nat.eqb_spec z q) as [->|]; auto.
Qed.
Lemma lk_out s t y r n ik rep p z : lk (out_parent s t y r n ik rep p) z = lk s z.
Proof.
  destruct (nd_out s t y r n ik rep p) as (k1 & c1 & Q). unfold lk. rewrite Q. cbv zeta. destruct rep; repeat match goal with |- context[(?u =? ?v)%nat] => destruct (Nat.eqb_spec u v); subst end; reflexivity.
Qed.

Ltac inh := cbn [holds app In o2l n2l] in *; repeat rewrite ?in_app_iff in *; cbn [In] in *.
Section Own.
  Variables (s : cst) (g : gst) (t : nat).
  Hypothesis I : Inv s g.
  Hypothesis H : HT s.
  Hypothesis O : own s.
  Let G := proj1 I.
  Let L := proj1 (proj2 I).
  Let K := proj1 (proj2 (proj2 I)).
  Let JA := proj2 (proj2 (proj2 I)).
  Lemma lkeep_same s' p p' : (forall a, lk s' a = lk s a) -> (forall a, In a (holds p) -> In a (holds p')) -> lkeep s s' p p'.
  Proof. intros A B a Ha. rewrite A in Ha. destruct (in_dec Nat.eq_dec a (holds p)) as [D|D]; auto. Qed.
  Lemma lkeep_unlock n p p' : (forall a, In a (holds p) -> a = n \/ In a (holds p')) -> lkeep s (unlock s n) p p'.
  Proof. intros B a Ha. rewrite lk_unlock in Ha. destruct (Nat.eqb_spec a n) as [N|N]; [discriminate Ha|]. destruct (in_dec Nat.eq_dec a (holds p)) as [D|D]; [|auto]. destruct (B a D); [contradiction|auto]. Qed.
  Lemma lkeep_lock n v p p' : (forall a, In a (holds p) -> In a (holds p')) -> In n (holds p') -> lkeep s (vput s n v) p p'.
  Proof. intros B C a Ha. unfold vput in Ha. rewrite lk_put in Ha. destruct (Nat.eqb_spec a n) as [N|N]; [left; now rewrite N|]. destruct (in_dec Nat.eq_dec a (holds p)) as [D|D]; auto. Qed.
  Lemma lk_same n x a : v_lk (ver x) = v_lk (ver (nd s n)) -> lk (put s n x) a = lk s a.
  Proof. intros Q. rewrite lk_put. destruct (Nat.eqb_spec a n) as [->|]; [exact Q|reflexivity]. Qed.
  Lemma own_step x s' : step s t x = Some s' -> misp s' = false -> abnd s' = false -> own s'.
  Proof.
    intros ST M A. destruct (Inv_step _ _ _ _ _ I ST M A) as (g' & I' & _). pose proof (proj2 (proj2 (proj2 I')) t) as J'. clear I'. destruct (step_pcs _ _ _ _ ST) as (p' & P). apply (own_ok s s' t p' O P). assert (E' : pcs s' t = p') by (rewrite P, Nat.eqb_refl; reflexivity). clear P. rewrite <- E'. clear E'.
    pose proof (h_thr _ H t) as T. pose proof (JA t) as J. revert ST T J. unfold step.
    destruct (pcs s t) as [|y o n|y o n|y o n v l u|y o n v c|y o n v c vc|y o n v|y o n v vi|y o n v vi gt|y o n v|y o n v r|y o n v|y o n v|y o n v vi|y o n v vi gt|y o n v|y o n
      |y o r|y o n|y o n r|y w tg n c sk h st|y w tg n c sk h st q|y w tg n c sk st q nc|y w tg n c h st q nc|y w tg c h st q nc|y w tg h st q nc|y w tg|y r n|y r n|y r n ik rep|y r n ik rep p|y r n p cur ik rik
      |y r n p cur p2 ik rik|y r n p cur p2 ik rik|y r n p p2 rik|y r n p ik|y r p ik|] eqn:E; intros ST T J; destruct x; try discriminate ST; try (destruct o; discriminate ST).
    all: cases ST.
    all: try (apply lkeep_same; [intros a; rewrite ?lk_go; first [reflexivity|apply lk_same; reflexivity]|rewrite ?gone; intros a Ha; inh; tauto]; fail).
    all: try (apply (lkeep_lock _ _); rewrite ?gone; [intros a Ha; inh; tauto|inh; tauto]; fail).
    all: try (match goal with |- lkeep s (go (unlock s ?n) t _) _ _ => apply (lkeep_unlock n) end; rewrite ?gone; intros a Ha; inh; intuition congruence; fail).
    all: try (rewrite gone in J'; destruct J'; fail).
    - apply lkeep_same; destruct (par (nd s (rootp s))); cbn [reroot pcs]; rewrite ?E; auto.
    - destruct (same s n v).
      + apply lkeep_same; [reflexivity|]. rewrite gone. auto.
      + apply (lkeep_unlock n). rewrite gone. intros a Ha. inh. intuition congruence.
    - apply lkeep_same; [intros a; rewrite lk_go; apply lk_same; reflexivity|]. rewrite gone. destruct (_ && _); auto.
    - apply lkeep_same; [intros a; apply lk_same; reflexivity|]. cbn [vput put pcs]. rewrite E. auto.
    - apply lkeep_same; [intros a; apply lk_same; reflexivity|]. cbn [vput put pcs]. rewrite E. auto.
    - cbn [JI] in J. destruct J as (_ & _ & ((Hn & Hi & _) & _)). destruct (gl_leaf _ _ (gi_l _ _ G) n Hn Hi) as (_ & _ & _ & _ & _ & Hb).
      intros a. rewrite (lk_split s t y w n a (fun b Q => proj1 (Hb b Q))). unfold leaf_split. cbv zeta. rewrite gone. destruct (Nat.eqb_spec a (fr s)) as [Q|Q]; [intros _; left; inh; auto|]. intros Ha.
      destruct (Nat.eq_dec a n) as [Q2|Q2]; [left; inh; auto|]. right. split; [exact Ha|]. inh. intuition congruence.
    - rewrite pcs_root. intros a. rewrite lk_root. rewrite after_holds. destruct (Nat.eqb_spec a (fr s)) as [Q|Q]; [discriminate|]. intros Ha. destruct (in_dec Nat.eq_dec a [tg; n; c]) as [D|D]; [left; inh; tauto|]. right. split; [exact Ha|exact D].
    - intros a Ha. destruct (lk_in s t y w tg n c sk h st q a) as (nc & -> & Q). rewrite after_holds. destruct (in_dec Nat.eq_dec a [tg; n; c; q]) as [D|D]; [left; inh; tauto|]. destruct (Q Ha) as [Q1|Q1]; [right; split; [exact Q1|exact D]|left; inh; tauto].
    - destruct (Nat.eqb_spec n tg) as [Q|Q].
      + apply lkeep_same; [reflexivity|]. rewrite gone. intros a Ha. inh. intuition congruence.
      + apply (lkeep_unlock n). rewrite gone. intros a Ha. inh. intuition congruence.
    - destruct (Nat.eqb_spec c tg) as [Q|Q].
      + apply lkeep_same; [reflexivity|]. rewrite gone. intros a Ha. inh. intuition congruence.
      + apply (lkeep_unlock c). rewrite gone. intros a Ha. inh. intuition congruence.
    - cbn [HTT] in T. destruct nc as [[c sk]|]; [destruct T as (_ & q & Q & _); discriminate Q|]. apply lkeep_same; [reflexivity|]. rewrite gone. intros a Ha. inh. tauto.
    - apply lkeep_same; [|rewrite gone; auto]. intros a. rewrite lk_go. destruct (prv (nd s n)) as [a0|], (nxt (nd s n)) as [b0|]; try reflexivity; rewrite ?lk_put; unfold lk; rewrite ?nd_put;
        repeat match goal with |- context[(?u =? ?v)%nat] => destruct (Nat.eqb_spec u v); subst; try congruence end; reflexivity.
    - apply lkeep_same; [intros a; apply lk_out|]. destruct (pcs_out2 s t y r n ik rep p) as (rk & [-> | ->]); intros a Ha; inh; tauto.
    - destruct (Nat.eqb_spec cur p) as [Q|Q].
      + apply lkeep_same; [reflexivity|]. rewrite gone. intros a Ha. inh. intuition congruence.
      + apply (lkeep_unlock cur). rewrite gone. intros a Ha. inh. intuition congruence.
    - apply lkeep_same.
      + intros a. rewrite lk_go. destruct (_ =? 0)%nat; [reflexivity|]. rewrite lk_put. destruct (Nat.eqb_spec a p2) as [->|]; reflexivity.
      + rewrite gone. destruct (_ || _); intros a Ha; inh; tauto.
  Qed.
End Own.
