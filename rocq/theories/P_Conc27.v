(* Concurrent layer: some unfinished operation can always take a step. *)
From Verif Require Import Lib M_Tree M_Stampc P_Stampc1 M_Conc M_ConcRun Spec_Conc Spec_Conc2 Spec_Live P_Conc1 P_Conc2 P_Conc3 P_Conc4 P_Conc6 P_Conc14 P_Conc15 P_Conc16 P_Conc16b P_Conc18 P_Conc19 P_Conc20 P_Conc21 P_Conc22 P_Conc23 P_Conc24 P_Conc25 P_Conc26 P_ConcR.

(* A search that has a right end has it inside the node. *)
Definition PB (s : cst) (p : pct) : Prop :=
  match p with PIn y o n v l u => same s n v = true -> forall b, u = Some b -> (l <= b < length (keys (nd s n)))%nat | _ => True end.
Record Live (s : cst) (g : gst) : Prop := { lv_inv : Inv s g; lv_ht : HT s; lv_own : own s; lv_pb : forall t, PB s (pcs s t) }.

Lemma PB_nop s p : (forall y o n v l u, p <> PIn y o n v l u) -> PB s p.
Proof. destruct p; cbn [PB]; auto. intros H. destruct (H y o n v l u eq_refl). Qed.
Lemma PB_step s g t x s' : Inv s g -> (forall t0, PB s (pcs s t0)) -> step s t x = Some s' -> misp s' = false -> abnd s' = false -> forall t0, PB s' (pcs s' t0).
Proof.
  intros I B ST M A t0. destruct (Inv_step _ _ _ _ _ I ST M A) as (g' & I' & R & F). destruct (Nat.eq_dec t0 t) as [->|N].
  2: { rewrite (fm_pc _ _ _ _ _ F t0 N). pose proof (B t0) as Q. pose proof (proj2 (proj2 (proj2 I)) t0) as J. destruct (pcs s t0); cbn [PB] in *; auto. cbn [JI] in J. destruct J as (_ & ((Hn & Hv & Hl & _) & _) & Hi & _). intros E b Hb.
    assert (E1 : same s n v = true) by (destruct (rl_ver _ _ _ _ R n Hn v Hv Hl) as (_ & Q1 & _); exact (Q1 E)). specialize (Q E1 b Hb).
    destruct (rl_kids _ _ _ _ R n Hn Hi) as (-> & _); [|exact Q]. apply v_dirty_false. exact (same_stbl _ _ Hv E). }
  pose proof (B t) as Q. clear I' R F. revert ST Q. unfold step. destruct (pcs s t) eqn:E; intros ST Q; destruct x; try discriminate ST; try (destruct o; discriminate ST); try match type of ST with (if ?b then _ else _) = _ => destruct b eqn:BC; try discriminate ST end; cases ST; rewrite ?gone; try exact Logic.I; try (apply PB_nop; discriminate).
  all: try (unfold enter; repeat match goal with |- context[if ?b then _ else _] => destruct b | |- context[match ?b with Some _ => _ | None => _ end] => destruct b end; rewrite ?gone; cbn [PB]; try exact Logic.I; try discriminate; fail).
  - destruct (par (nd s (rootp s))); cbn [reroot pcs]; rewrite E; exact Logic.I.
  - rewrite !andb_true_iff, Nat.leb_le, orb_true_iff, negb_true_iff, Nat.ltb_lt in BC. destruct BC as ((H1 & H2) & H3). cbn [PB] in Q. destruct (if same s n v then _ else _); cbn [PB]; change (same (go s t ?p) n v) with (same s n v); intros S1 b Hb; change (nd (go s t ?p)) with (nd s).
    + specialize (Q S1 b Hb). subst u. apply Nat.ltb_lt in H2. lia.
    + injection Hb as <-. destruct H3 as [H3|H3]; [congruence|]. lia.
  - cbn [vput put pcs]. rewrite E. exact Logic.I.
  - cbn [vput put pcs]. rewrite E. exact Logic.I.
  - destruct (pcs_split s t y w n) as (a1 & a2 & a3 & a4 & ->). exact Logic.I.
  - rewrite pcs_root. apply PB_nop. unfold after_in. destruct h; discriminate.
  - destruct (pcs_in s t y w tg n c sk h st p) as (q' & nc & ->). apply PB_nop. unfold after_in. destruct h; discriminate.
  - destruct (pcs_out2 s t y r n ik rep p) as (rk & [-> | ->]); exact Logic.I.
Qed.

Lemma Live_start : Live start g_start.
Proof.
  constructor; [exact Inv_start| | |].
  - constructor; [reflexivity|discriminate|intros t; exact Logic.I].
  - intros a Ha. discriminate Ha.
  - intros t. exact Logic.I.
Qed.
Lemma Live_step s g t x s' : Live s g -> step s t x = Some s' -> misp s' = false -> abnd s' = false -> exists g', Live s' g'.
Proof.
  intros V ST M A. destruct (Inv_step _ _ _ _ _ (lv_inv _ _ V) ST M A) as (g' & I' & _). exists g'. constructor; [exact I'| | |].
  - exact (HT_step s g t (lv_inv _ _ V) (lv_ht _ _ V) x s' ST M A).
  - exact (own_step s g t (lv_inv _ _ V) (lv_ht _ _ V) (lv_own _ _ V) x s' ST M A).
  - exact (PB_step s g t x s' (lv_inv _ _ V) (lv_pb _ _ V) ST M A).
Qed.
Lemma Live_steps s l s' : steps s l s' -> forall g, Live s g -> misp s' = false -> abnd s' = false -> exists g', Live s' g'.
Proof.
  induction 1 as [|s t x s1 l s2 E H IH]; intros g V M A; [eauto|]. destruct (steps_marks _ _ _ H) as (M1 & A1). destruct (Live_step s g t x s1 V E (M1 M) (A1 A)) as (g1 & V1). exact (IH g1 V1 M A).
Qed.

Definition moves (s : cst) (t : nat) : Prop := exists x s', step s t x = Some s' /\ carries_on x.
(* The node t waits for: locked, and higher than all t holds. *)
Definition waits (s : cst) (t : nat) : Prop := exists a, (a < fr s)%nat /\ lk s a = true /\ forall b, In b (holds (pcs s t)) -> (ht (nd s b) < ht (nd s a))%nat.
Lemma blocked s g t : Live s g -> pcs s t <> Idle -> moves s t \/ waits s t.
Proof.
  intros V N. destruct V as [I H O B]. pose proof (proj1 I) as G. pose proof (proj1 (proj2 I)) as L. pose proof (proj2 (proj2 (proj2 I)) t) as J. pose proof (B t) as Q. pose proof (h_thr _ H t) as T.
  assert (ST : forall n (k : cver -> cst), (n < fr s)%nat -> holds (pcs s t) = [] -> (if v_dirty (ver (nd s n)) then None else Some (k (ver (nd s n)))) <> None \/ waits s t).
  { intros n k Hn Hh. destruct (v_dirty (ver (nd s n))) eqn:D; [right|left; discriminate]. exists n. split; [exact Hn|]. split; [exact (gv_dirty _ _ (gi_v _ _ G) n Hn D)|]. rewrite Hh. intros b []. }
  assert (MV : forall x, carries_on x -> step s t x <> None -> moves s t) by (intros x Ox Hx; destruct (step s t x) as [s'|] eqn:E; [exists x, s'; split; [exact E|exact Ox]|destruct (Hx eq_refl)]).
  destruct (pcs s t) as [|y o n|y o n|y o n v l u|y o n v c|y o n v c vc|y o n v|y o n v vi|y o n v vi gt|y o n v|y o n v r|y o n v|y o n v|y o n v vi|y o n v vi gt|y o n v|y o n
      |y o r|y o n|y o n r|y w tg n c sk h st|y w tg n c sk h st q|y w tg n c sk st q nc|y w tg n c h st q nc|y w tg c h st q nc|y w tg h st q nc|y w tg|y r n|y r n|y r n ik rep|y r n ik rep p|y r n p cur ik rik
      |y r n p cur p2 ik rik|y r n p cur p2 ik rik|y r n p p2 rik|y r n p ik|y r p ik|] eqn:E; cbn [JI] in J; try (destruct (N eq_refl)); try (destruct J; fail).
  all: try (left; apply (MV Go Logic.I); unfold step; rewrite E; discriminate).
  all: try (left; apply (MV (Cmp 0 false) Logic.I); unfold step; rewrite E; discriminate).
  all: try (left; apply (MV (JunkRow None) Logic.I); unfold step; rewrite E; discriminate).
  - destruct J as (_ & Hn & _). destruct (ST n (fun v => go s t (if v_rt v then enter s y o n v else PUp y o n)) Hn eq_refl) as [D|D]; [left|right; exact D]. apply (MV Go Logic.I). unfold step. rewrite E. exact D.
  - destruct J as (_ & JJn & Hi & JS). left. destruct (same s n v) eqn:S1.
    + destruct (JS eq_refl) as (J1 & _ & _). cbn [PB] in Q. specialize (Q S1).
      assert (K : (match u with Some b => (b =? l)%nat | None => (l =? length (keys (nd s n)))%nat end) = true \/ ((l < length (keys (nd s n)))%nat /\ match u with Some b => (l <? b)%nat | None => true end = true)).
      { destruct u as [b|]; [specialize (Q b eq_refl); destruct (Nat.eqb_spec b l); [now left|right; split; [lia|apply Nat.ltb_lt; lia]]|]. destruct (Nat.eqb_spec l (length (keys (nd s n)))); [now left|right; split; [lia|reflexivity]]. }
      destruct K as [K|(K1 & K2)].
      * apply (MV (Kid None) Logic.I). unfold step. rewrite E, S1. cbn [negb orb]. rewrite K. destruct (nth l (kids (nd s n)) None) as [c|] eqn:NC; [|discriminate].
        destruct (gt_kid _ _ (gi_t _ _ G) n c (proj1 (proj1 JJn)) Hi) as (Hc & _); [rewrite <- NC; apply nth_In; exact (nth_some_lt _ _ _ NC)|]. apply Nat.ltb_lt in Hc. rewrite Hc. discriminate.
      * apply (MV (Cmp l false) Logic.I). unfold step. rewrite E, S1, Nat.leb_refl, K2. apply Nat.ltb_lt in K1. rewrite K1. discriminate.
    + apply (MV (Kid None) Logic.I). unfold step. rewrite E, S1. discriminate.
  - destruct J as (_ & _ & _ & Hc & _). destruct (ST c (fun vc => go s t (PChk y o n v c vc)) Hc eq_refl) as [D|D]; [left|right; exact D]. apply (MV Go Logic.I). unfold step. rewrite E. exact D.
  - destruct J as (_ & ((Hn & _) & _) & _). destruct (ST n (fun v2 => go s t (if v_hassplit v v2 then PLast y o n v2 v2 else PIn y o n v2 0 None)) Hn eq_refl) as [D|D]; [left|right; exact D]. apply (MV Go Logic.I). unfold step. rewrite E. exact D.
  - destruct J as (_ & (Hn & _) & _). destruct (ST n (fun v2 => go s t (PLast y o n v v2)) Hn eq_refl) as [D|D]; [left|right; exact D]. apply (MV Go Logic.I). unfold step. rewrite E. destruct (same s n vi); [discriminate|exact D].
  - destruct J as (_ & ((Hn & _) & _) & _). destruct o as [|w|]; [left; apply (MV Go Logic.I); unfold step; rewrite E; discriminate| |];
      (destruct (v_lk (ver (nd s n))) eqn:D; [right; exists n; split; [exact Hn|]; split; [exact D|]; rewrite E; intros b []|left; apply (MV Go Logic.I); unfold step; rewrite E, D; discriminate]).
  - destruct J as (_ & ((Hn & _) & _) & _). destruct (ST n (fun v2 => go s t (if v_hassplit v v2 then PLLast y o n v2 v2 else PLeaf y o n v2)) Hn eq_refl) as [D|D]; [left|right; exact D]. apply (MV Go Logic.I). unfold step. rewrite E. exact D.
  - destruct J as (_ & (Hn & _) & _). destruct (ST n (fun v2 => go s t (PLLast y o n v v2)) Hn eq_refl) as [D|D]; [left|right; exact D]. apply (MV Go Logic.I). unfold step. rewrite E. destruct (same s n vi); [discriminate|exact D].
  - destruct J as (_ & Hn & _). destruct (ST n (fun v => go s t (PWalk y o n v)) Hn eq_refl) as [D|D]; [left|right; exact D]. apply (MV Go Logic.I). unfold step. rewrite E. exact D.
  - left. destruct J as (_ & Ho & _). destruct o as [|w|]; [congruence| |].
    + destruct (is_none (row_get y (rws (nd s n))) && negb (length (rws (nd s n)) <? W)%nat) eqn:D.
      * apply (MV Split Logic.I). unfold step. rewrite E. rewrite andb_true_iff, negb_true_iff, Nat.ltb_ge in D. destruct D as (D1 & D2). rewrite D1. destruct (Nat.leb_spec (W - 1) (length (rws (nd s n)))); [discriminate|lia].
      * apply (MV Ins Logic.I). unfold step. rewrite E. cbv zeta. rewrite D. discriminate.
    + apply (MV Go Logic.I). unfold step. rewrite E. destruct (row_get y (rws (nd s n))); discriminate.
  - destruct J as (_ & _ & SFx). cbn [HTT] in T. destruct T as (T1 & T2). destruct (par (nd s n)) as [q|] eqn:P; [|left; apply (MV Go Logic.I); unfold step; rewrite E, P; discriminate].
    destruct (v_lk (ver (nd s q))) eqn:D; [right|left; apply (MV Go Logic.I); unfold step; rewrite E, P, D; discriminate].
    destruct (my_fr s t L _ n E ltac:(cbn; tauto)) as (Hn & _). destruct (gt_par _ _ (gi_t _ _ G) n q Hn P) as (Hq & _). pose proof (h_par _ H n q Hn P) as Hh.
    exists q. split; [exact Hq|]. split; [exact D|]. rewrite E. cbn [holds In].
    assert (Htg : (ht (nd s tg) <= h)%nat). { destruct h as [|h']; [destruct SFx as (_ & _ & _ & -> & _); destruct (y <? sk); lia|]. destruct SFx as (_ & ((A1 & A2 & _) & _)). rewrite (h_leaf _ H tg A1 A2). lia. }
    intros b [<-|[<-|[<-|[]]]]; lia.
  - left. apply (MV Go Logic.I). unfold step. rewrite E. destruct q as [q|]; [destruct nc as [[c sk]|]|]; discriminate.
  - destruct (par (nd s n)) as [q|] eqn:P; [|left; apply (MV Go Logic.I); unfold step; rewrite E, P; discriminate].
    destruct (v_lk (ver (nd s q))) eqn:D; [right|left; apply (MV Go Logic.I); unfold step; rewrite E, P, D; discriminate].
    destruct (my_fr s t L _ n E ltac:(cbn; tauto)) as (Hn & _). destruct (gt_par _ _ (gi_t _ _ G) n q Hn P) as (Hq & _). pose proof (h_par _ H n q Hn P) as Hh.
    exists q. split; [exact Hq|]. split; [exact D|]. rewrite E. intros b [<-|[]]. exact Hh.
  - cbn [HTT] in T. destruct (par (nd s cur)) as [q|] eqn:P; [|left; apply (MV Go Logic.I); unfold step; rewrite E, P; discriminate].
    destruct (v_lk (ver (nd s q))) eqn:D; [right|left; apply (MV Go Logic.I); unfold step; rewrite E, P, D; discriminate].
    destruct (my_fr s t L _ cur E ltac:(cbn; tauto)) as (Hn & _). destruct (gt_par _ _ (gi_t _ _ G) cur q Hn P) as (Hq & _). pose proof (h_par _ H cur q Hn P) as Hh.
    exists q. split; [exact Hq|]. split; [exact D|]. rewrite E. intros b [<-|[<-|[<-|[]]]]; lia.
  - left. apply (MV Go Logic.I). unfold step. rewrite E. destruct (_ || _); discriminate.
Qed.
Lemma ht_bound s : exists m, forall a, (a < fr s)%nat -> (ht (nd s a) <= m)%nat.
Proof.
  induction (fr s) as [|k (m & IH)]; [exists 0%nat; lia|]. exists (Nat.max m (ht (nd s k))). intros a Ha. destruct (Nat.eq_dec a k) as [->|N]; [lia|]. specialize (IH a ltac:(lia)). lia.
Qed.
Lemma no_deadlock s g : Live s g -> forall t, pcs s t <> Idle -> exists t' x s', pcs s t' <> Idle /\ step s t' x = Some s' /\ carries_on x.
Proof.
  intros V t N. destruct (ht_bound s) as (m & Hm).
  assert (K : forall k a, (a < fr s)%nat -> lk s a = true -> (m - ht (nd s a) < k)%nat -> exists t' x s', pcs s t' <> Idle /\ step s t' x = Some s' /\ carries_on x).
  { induction k as [|k IH]; intros a Ha La Hk; [lia|]. destruct (lv_own _ _ V a La) as (t1 & H1). assert (N1 : pcs s t1 <> Idle) by (intros Q; rewrite Q in H1; destruct H1).
    destruct (blocked s g t1 V N1) as [(x & s' & E & Ox)|(a1 & A1 & L1 & Q)]; [exists t1, x, s'; auto|]. specialize (Q a H1). pose proof (Hm a1 A1). apply (IH a1 A1 L1). lia. }
  destruct (blocked s g t V N) as [(x & s' & E & Ox)|(a & A & La & _)]; [exists t, x, s'; auto|]. exact (K _ a A La (Nat.lt_succ_diag_r _)).
Qed.
