(* Concurrent layer: every step keeps parents higher than their children. *)
From Verif Require Import Lib M_Tree M_Stampc P_Stampc1 M_Conc M_ConcRun Spec_Conc Spec_Conc2 P_Conc1 P_Conc2 P_Conc3 P_Conc4 P_Conc6 P_Conc14 P_Conc15 P_Conc16 P_Conc16b P_Conc18 P_Conc19 P_Conc20 P_Conc21 P_Conc22 P_Conc23 P_Conc24 P_ConcR.

Lemma HTT_after s y w tg n c sk h st q nc : ht (nd s n) = h -> ht (nd s c) = h -> HN s h q nc -> HTT s (after_in y w tg n c sk h st q nc).
Proof. unfold after_in. destruct h; cbn [HTT]; auto. Qed.
Lemma Hk_both s s' (P : Prop) : Hk s s' -> (Hk s s' -> P) -> Hk s s' /\ P. Proof. auto. Qed.

Lemma odec (a b : option nat) : {a = b} + {a <> b}. Proof. decide equality. apply Nat.eq_dec. Qed.
Section Step.
  Variables (s : cst) (g : gst) (t : nat).
  Hypothesis I : Inv s g.
  Hypothesis H : HT s.
  Let G := proj1 I.
  Let L := proj1 (proj2 I).
  Let K := proj1 (proj2 (proj2 I)).
  Let JA := proj2 (proj2 (proj2 I)).

  Lemma ht_root y w tg n c sk h st : pcs s t = WUp y w tg n c sk h st -> par (nd s n) = None ->
    Hk s (new_root s t y w tg n c sk h st) /\ HTT (new_root s t y w tg n c sk h st) (pcs (new_root s t y w tg n c sk h st) t).
  Proof.
    intros E P. assert (Hp : pcs s t = WUp y w tg n c sk h st \/ exists q0, pcs s t = WIn y w tg n c sk h st q0) by (left; exact E). rewrite E in Hp.
    destruct (sp_fr s t L _ y w tg n c sk h st E Hp) as (F1 & F2 & F3). pose proof (sp_nc s g t G K _ y w tg n c sk h st E Hp) as Nnc.
    pose proof (h_thr _ H t) as T. rewrite E in T. cbn [HTT] in T. destruct T as (T1 & T2). apply Hk_both; [|intros HK; rewrite pcs_root; apply HTT_after; [rewrite (proj1 (k_old _ _ HK n F2)); exact T1|rewrite (proj1 (k_old _ _ HK c F3)); exact T2|exact Logic.I]].
    assert (Q : forall z, nd (new_root s t y w tg n c sk h st) z = if (z =? n)%nat then with_par (nd s n) (Some (fr s)) else if (z =? c)%nat then with_par (nd s c) (Some (fr s)) else
       if (z =? fr s)%nat then new_inter (v_new true) None [sk] [Some n; Some c] (S h) else nd s z).
    { intros z. unfold new_root. cbv zeta. change (nd (go ?x t _)) with (nd x). rewrite !nd_spar, !nd_put. change (nd (grow s)) with (nd s).
      repeat match goal with |- context[(?u =? ?v)%nat] => destruct (Nat.eqb_spec u v); try lia end; subst; auto. }
    constructor.
    - cbn. lia.
    - intros a Ha. rewrite Q. repeat match goal with |- context[(?u =? ?v)%nat] => destruct (Nat.eqb_spec u v); try lia end; subst; auto.
    - intros a Ha. rewrite Q. change (fr (new_root s t y w tg n c sk h st)) with (S (fr s)) in Ha. repeat match goal with |- context[(?u =? ?v)%nat] => destruct (Nat.eqb_spec u v); try lia end; subst; discriminate.
    - intros a p Ha. change (fr (new_root s t y w tg n c sk h st)) with (S (fr s)) in Ha. rewrite !Q.
      destruct (Nat.eqb_spec a n) as [->|N1]; [|destruct (Nat.eqb_spec a c) as [->|N2]; [|destruct (Nat.eqb_spec a (fr s)) as [->|N3]]]; cbn [with_par new_inter par ht].
      + intros U. injection U as <-. right. repeat match goal with |- context[(?u =? ?v)%nat] => destruct (Nat.eqb_spec u v); try lia end. cbn [new_inter ht]. lia.
      + intros U. injection U as <-. right. repeat match goal with |- context[(?u =? ?v)%nat] => destruct (Nat.eqb_spec u v); try lia end. cbn [new_inter ht]. lia.
      + discriminate.
      + intros U. left. split; [lia|exact U].
  Qed.

  Lemma ht_in y w tg n c sk h st q : pcs s t = WIn y w tg n c sk h st q -> misp (in_parent s t y w tg n c sk h st q) = false ->
    Hk s (in_parent s t y w tg n c sk h st q) /\ HTT (in_parent s t y w tg n c sk h st q) (pcs (in_parent s t y w tg n c sk h st q) t).
  Proof.
    intros E M. pose proof (JA t) as J. rewrite E in J. cbn [JI] in J. destruct J as (Y & HS & Hqi & Hqn & Hqc).
    assert (Hp : WIn y w tg n c sk h st q = WUp y w tg n c sk h st \/ exists q0, WIn y w tg n c sk h st q = WIn y w tg n c sk h st q0) by (right; eauto).
    destruct (sp_fr s t L _ y w tg n c sk h st E Hp) as (F1 & F2 & F3). destruct (my_fr s t L _ q E ltac:(cbn; tauto)) as (Hf & Hlk). pose proof (sp_nc s g t G K _ y w tg n c sk h st E Hp) as Nnc.
    destruct (in_misp _ _ _ _ _ _ _ _ _ _ _ M) as (M0 & Hat). apply is_at_iff in Hat.
    assert (Hin : In (Some n) (kids (nd s q))) by (rewrite <- Hat; apply nth_In; exact (nth_some_lt _ _ _ Hat)).
    destruct (gt_kid _ _ (gi_t _ _ G) q n Hf Hqi Hin) as (_ & Hpar). pose proof (h_par _ H n q F2 Hpar) as Hh.
    pose proof (h_thr _ H t) as T. rewrite E in T. cbn [HTT] in T. destruct T as (T1 & T2).
    set (kp := upper sk (keys (nd s q))) in *. unfold in_parent. fold kp. cbv zeta.
    set (s0 := misplace (vput s q (v_mins (ver (nd s q)))) (negb (is_at n kp (kids (nd s q))))). assert (E0 : nd s0 = nd (vput s q (v_mins (ver (nd s q))))) by reflexivity. assert (E1 : fr s0 = fr s) by reflexivity. clearbody s0.
    destruct (Nat.ltb_spec (S h) (ht (nd s q))) as [Hgap|Hgap]; [|destruct (length (keys (nd s q)) <? W)%nat].
    - rewrite gone. apply Hk_both; [|intros HK; apply HTT_after; [rewrite (proj1 (k_old _ _ HK n F2)); exact T1|rewrite (proj1 (k_old _ _ HK c F3)); exact T2|exact Logic.I]]. match goal with |- Hk s ?b => set (s' := b) end.
      assert (Q : forall z, nd s' z = if (z =? fr s)%nat then new_inter (v_new false) (Some q) [sk] [Some n; Some c] (S h) else if (z =? q)%nat then with_kk (with_ver (nd s q) (v_mins (ver (nd s q)))) (keys (nd s q)) (set_at kp (Some (fr s)) (kids (nd s q))) else if (z =? n)%nat then with_par (nd s n) (Some (fr s))
         else if (z =? c)%nat then with_par (nd s c) (Some (fr s)) else nd s z) by (apply nd_gap; auto; lia).
      assert (F : fr s' = S (fr s)) by (cbn; lia). clearbody s'. constructor; rewrite ?F; [lia| | |].
      + intros a Ha. rewrite Q. repeat match goal with |- context[(?u =? ?v)%nat] => destruct (Nat.eqb_spec u v); try lia end; subst; auto.
      + intros a Ha. rewrite Q. repeat match goal with |- context[(?u =? ?v)%nat] => destruct (Nat.eqb_spec u v); try lia end; subst; discriminate.
      + intros a p Ha. rewrite !Q. destruct (Nat.eqb_spec a (fr s)) as [->|N1]; [|destruct (Nat.eqb_spec a q) as [->|N2]; [|destruct (Nat.eqb_spec a n) as [->|N3]; [|destruct (Nat.eqb_spec a c) as [->|N4]]]]; cbn [with_par with_kk with_ver new_inter par ht]; intros U.
        * injection U as <-. right. destruct (Nat.eqb_spec q (fr s)); [lia|]. rewrite Nat.eqb_refl. exact Hgap.
        * left. split; [lia|exact U].
        * injection U as <-. right. rewrite Nat.eqb_refl. cbn [new_inter ht]. lia.
        * injection U as <-. right. rewrite Nat.eqb_refl. cbn [new_inter ht]. lia.
        * left. split; [lia|exact U].
    - rewrite gone. apply Hk_both; [|intros HK; apply HTT_after; [rewrite (proj1 (k_old _ _ HK n F2)); exact T1|rewrite (proj1 (k_old _ _ HK c F3)); exact T2|exact Logic.I]].
      match goal with |- Hk s ?b => set (s' := b) end.
      assert (Q : forall z, nd s' z = if (z =? c)%nat then with_par (nd s c) (Some q) else if (z =? q)%nat then with_kk (with_ver (nd s q) (v_mins (ver (nd s q)))) (ins_at kp sk (keys (nd s q))) (ins_at (S kp) (Some c) (kids (nd s q))) else nd s z) by (apply nd_room; auto).
      assert (F : fr s' = fr s) by (cbn; lia). clearbody s'. constructor; rewrite ?F; [lia| |lia|].
      + intros a Ha. rewrite Q. repeat match goal with |- context[(?u =? ?v)%nat] => destruct (Nat.eqb_spec u v); try lia end; subst; auto.
      + intros a p Ha. rewrite !Q. destruct (Nat.eqb_spec a c) as [->|N1]; [|destruct (Nat.eqb_spec a q) as [->|N2]]; cbn [with_par with_kk with_ver par ht]; intros U; [|left; split; [lia|exact U]|left; split; [lia|exact U]].
        injection U as <-. right. destruct (Nat.eqb_spec q c); [congruence|]. rewrite Nat.eqb_refl. cbn [with_kk with_ver ht]. lia.
    - rewrite gone. match goal with |- context[setpars ?b ?cs' (fr s)] => set (s3 := b); set (cs := cs') end.
      set (mid := if (st =? 2)%nat then W else Nat.div (W + 1) 2) in *.
      assert (Q : forall z, nd s3 z = (if (z =? fr s)%nat then new_inter (v_nonroot (v_mins (ver (nd s q)))) None (skipn (S mid) (ins_at kp sk (keys (nd s q)))) cs (S h) else if (z =? q)%nat then with_kk (with_ver (nd s q) (v_mspl (v_mins (ver (nd s q))))) (firstn mid (ins_at kp sk (keys (nd s q)))) (firstn (S mid) (ins_at (S kp) (Some c) (kids (nd s q)))) else if (z =? c)%nat then with_par (nd s c) (Some q) else nd s z)).
      { intros z. apply (nd_full s0 s q c (fr s)); auto; lia. }
      assert (F : fr (setpars s3 cs (fr s)) = S (fr s)) by (destruct (setpars_rest (fr s) cs s3) as (-> & _); cbn; lia).
      assert (HC : forall x, In (Some x) cs -> (x < fr s)%nat /\ (ht (nd s x) < S h)%nat).
      { intros x Hx. apply in_skipn in Hx. apply in_ins in Hx. destruct Hx as [Hx|Hx]; [injection Hx as ->; split; [exact F3|lia]|].
        destruct (gt_kid _ _ (gi_t _ _ G) q x Hf Hqi Hx) as (O & P). split; [exact O|]. pose proof (h_par _ H x q O P). lia. }
      clearbody s3 cs. apply Hk_both.
      + constructor; rewrite ?F; cbn [go fr nd]; rewrite ?F; [lia| | |].
        * intros a Ha. destruct (setpars_nd (fr s) cs s3 a) as (o & -> & _). cbn [with_par ht isl]. rewrite Q. repeat match goal with |- context[(?u =? ?v)%nat] => destruct (Nat.eqb_spec u v); try lia end; subst; auto.
        * intros a Ha. destruct (setpars_nd (fr s) cs s3 a) as (o & -> & _). cbn [with_par ht isl]. rewrite Q. repeat match goal with |- context[(?u =? ?v)%nat] => destruct (Nat.eqb_spec u v); try lia end; subst; discriminate.
        * intros a p Ha. destruct (setpars_nd (fr s) cs s3 a) as (o & -> & O1 & O2). destruct (setpars_nd (fr s) cs s3 p) as (o' & -> & _). cbn [with_par par ht]. intros U. subst o.
          destruct (in_dec odec (Some a) cs) as [D|D].
          -- specialize (O1 D). injection O1 as ->. destruct (HC a D) as (A & B). right. rewrite !Q, Nat.eqb_refl. cbn [new_inter ht]. repeat match goal with |- context[(?u =? ?v)%nat] => destruct (Nat.eqb_spec u v); try lia end; subst; cbn [with_par with_kk with_ver ht]; lia.
          -- specialize (O2 D). rewrite Q in O2. destruct (Nat.eqb_spec a (fr s)) as [->|N1]; [discriminate O2|]. destruct (Nat.eqb_spec a q) as [->|N2]; [left; split; [lia|now symmetry]|].
             destruct (Nat.eqb_spec a c) as [->|N3]; [|left; split; [lia|now symmetry]]. cbn [with_par par] in O2. injection O2 as ->. right. rewrite !Q.
             repeat match goal with |- context[(?u =? ?v)%nat] => destruct (Nat.eqb_spec u v); try lia end; subst; cbn [with_par with_kk with_ver ht]; lia.
      + intros HK. apply HTT_after; [rewrite (proj1 (k_old _ _ HK n F2)); exact T1|rewrite (proj1 (k_old _ _ HK c F3)); exact T2|]. cbn [HN]. cbn [go nd]. destruct (setpars_nd (fr s) cs s3 (fr s)) as (o & -> & _). cbn [with_par ht]. rewrite Q, Nat.eqb_refl. split; [reflexivity|]. exists q. split; [reflexivity|].
        destruct (setpars_nd (fr s) cs s3 q) as (o' & -> & _). cbn [with_par ht]. rewrite Q. destruct (Nat.eqb_spec q (fr s)); [lia|]. rewrite Nat.eqb_refl. cbn [with_kk with_ver ht]. lia.
  Qed.
End Step.

Lemma pcs_out2 s t y r n ik rep p : exists rk, pcs (out_parent s t y r n ik rep p) t = DRed y r n p p ik rk \/ pcs (out_parent s t y r n ik rep p) t = DUnl y r n p ik.
Proof.
  unfold out_parent. cbv zeta. destruct (match rep with Some _ => _ | None => _ end) as [k1 c1]. rewrite gone. exists (hd 0 k1). destruct (_ && _); auto.
Qed.
Section Step2.
  Variables (s : cst) (g : gst) (t : nat).
  Hypothesis I : Inv s g.
  Hypothesis H : HT s.
  Let G := proj1 I.
  Let L := proj1 (proj2 I).
  Let K := proj1 (proj2 (proj2 I)).
  Let JA := proj2 (proj2 (proj2 I)).
  Lemma nd_out y r n ik rep p : exists k1 c1, forall z, nd (out_parent s t y r n ik rep p) z =
    let x := if (z =? p)%nat then with_kk (with_ver (nd s p) (v_mins (ver (nd s p)))) k1 c1 else nd s z in
    match rep with Some q => if (z =? q)%nat then with_par x (Some p) else x | None => x end.
  Proof.
    unfold out_parent. cbv zeta. destruct (match rep with Some _ => _ | None => _ end) as [k1 c1]. exists k1, c1. intros z. change (nd (go ?x t _)) with (nd x).
    destruct rep as [q|]; rewrite ?nd_spar, ?nd_put; cbn [misplace nd]; unfold vput; rewrite ?nd_put; rewrite ?Nat.eqb_refl; repeat match goal with |- context[(?u =? ?v)%nat] => destruct (Nat.eqb_spec u v); subst; try congruence end; reflexivity.
  Qed.
  Lemma ht_out y r n ik rep p : pcs s t = DIn y r n ik rep p -> misp (out_parent s t y r n ik rep p) = false -> Hk s (out_parent s t y r n ik rep p) /\ (ht (nd s n) < ht (nd s p))%nat /\ (n < fr s)%nat /\ (p < fr s)%nat.
  Proof.
    intros E M. rewrite (proj1 (out_misp _ _ _ _ _ _ _ _)), orb_false_iff, negb_false_iff in M. destruct M as (M0 & Hat). apply is_at_iff in Hat.
    pose proof (JA t) as J. rewrite E in J. cbn [JI] in J. destruct J as (HD & Hpi & Hpn). destruct (my_fr s t L _ p E ltac:(cbn; tauto)) as (Hf & Hlk). destruct (my_fr s t L _ n E ltac:(cbn; tauto)) as (Hn & _).
    assert (Hin : In (Some n) (kids (nd s p))) by (rewrite <- Hat; apply nth_In; exact (nth_some_lt _ _ _ Hat)).
    destruct (gt_kid _ _ (gi_t _ _ G) p n Hf Hpi Hin) as (_ & Hpar). pose proof (h_par _ H n p Hn Hpar) as Hh.
    destruct (nd_out y r n ik rep p) as (k1 & c1 & Q). cbv zeta in Q.
    assert (F : fr (out_parent s t y r n ik rep p) = fr s) by (unfold out_parent; cbv zeta; destruct (match rep with Some _ => _ | None => _ end) as [k2 c2]; destruct rep; reflexivity).
    assert (HR : forall q, rep = Some q -> (q < fr s)%nat /\ (ht (nd s q) < ht (nd s p))%nat).
    { intros q ->. assert (R : rp g n = Some q) by (apply (have_rp s g t K _ n q E); reflexivity). destruct (gt_rp _ _ (gi_t _ _ G) n q R) as (_ & _ & _ & O & P & _). split; [exact O|]. pose proof (h_par _ H q n O P). lia. }
    split; [|auto]. constructor; rewrite ?F; [lia| |lia|].
    - intros a Ha. rewrite Q. destruct rep; repeat match goal with |- context[(?u =? ?v)%nat] => destruct (Nat.eqb_spec u v); try lia end; subst; auto.
    - intros a q Ha. rewrite !Q. destruct rep as [q0|].
      + destruct (HR q0 eq_refl) as (O & O2). destruct (Nat.eqb_spec a q0) as [->|N1]; cbn [with_par par ht]; intros U.
        * injection U as <-. right. destruct (Nat.eqb_spec p q0); [subst; lia|]. rewrite Nat.eqb_refl. destruct (Nat.eqb_spec q0 p); [congruence|]. exact O2.
        * left. split; [exact Ha|]. destruct (Nat.eqb_spec a p) as [->|]; exact U.
      + intros U. left. split; [exact Ha|]. destruct (Nat.eqb_spec a p) as [->|]; exact U.
  Qed.
  Lemma HT_step x s' : step s t x = Some s' -> misp s' = false -> abnd s' = false -> HT s'.
  Proof.
    intros ST M A. pose proof ST as ST0.
    assert (P : forall t0, t0 <> t -> pcs s' t0 = pcs s t0) by (intros t0 N; destruct (step_pcs _ _ _ _ ST0) as (p & Hp); rewrite Hp; destruct (Nat.eqb_spec t0 t); [contradiction|reflexivity]).
    pose proof (h_thr _ H t) as T. pose proof (JA t) as J. revert ST T J. unfold step.
    destruct (pcs s t) as [|y o n|y o n|y o n v l u|y o n v c|y o n v c vc|y o n v|y o n v vi|y o n v vi gt|y o n v|y o n v r|y o n v|y o n v|y o n v vi|y o n v vi gt|y o n v|y o n
      |y o r|y o n|y o n r|y w tg n c sk h st|y w tg n c sk h st q|y w tg n c sk st q nc|y w tg n c h st q nc|y w tg c h st q nc|y w tg h st q nc|y w tg|y r n|y r n|y r n ik rep|y r n ik rep p|y r n p cur ik rik
      |y r n p cur p2 ik rik|y r n p cur p2 ik rik|y r n p p2 rik|y r n p ik|y r p ik|] eqn:E; intros ST T J; destruct x; try discriminate ST; try (destruct o; discriminate ST).
    all: try match type of ST with match par (nd s ?m) with Some _ => _ | None => _ end = _ => destruct (par (nd s m)) eqn:PN end.
    all: cases ST.
    all: try (apply (HT_flat s g _ t I H); [|exact P|]; [try (apply (flat3_go s)); repeat match goal with |- context[if ?b then _ else _] => destruct b | |- context[match ?b with Some _ => _ | None => _ end] => destruct b end; unfold unlock, vput; repeat apply flat3_put; try apply flat3_refl; reflexivity
      |rewrite ?gone; try exact T; unfold enter; repeat match goal with |- context[if ?b then _ else _] => destruct b | |- context[match ?b with Some _ => _ | None => _ end] => destruct b end; try (rewrite ?E; exact Logic.I); rewrite ?gone; try exact Logic.I; exact T]; fail).
    - apply (HT_flat s g _ t I H); [|exact P|]; destruct (par (nd s (rootp s))); try (split; [reflexivity|intros; auto]; fail); cbn [reroot pcs]; rewrite E; exact Logic.I.
    - destruct (same s n v); apply (HT_flat s g _ t I H).
      + apply (flat3_go s), flat3_refl.
      + exact P.
      + rewrite gone. exact Logic.I.
      + apply (flat3_go s). apply flat3_put; try reflexivity. apply flat3_refl.
      + exact P.
      + rewrite gone. exact Logic.I.
    - apply (HT_flat s g _ t I H); [|exact P|]; [apply flat3_put; try reflexivity; apply flat3_refl|]. cbn [vput put pcs]. rewrite E. exact Logic.I.
    - apply (HT_flat s g _ t I H); [|exact P|]; [apply flat3_put; try reflexivity; apply flat3_refl|]. cbn [vput put pcs]. rewrite E. exact Logic.I.
    - cbn [JI] in J. destruct J as (_ & _ & ((Hn & Hi & _) & _)). destruct (HT_split s t y w n H Hn Hi) as (A1 & A2); [|exact (HT_ok s g _ t I H A1 P A2)].
      intros b Hb. destruct (gl_leaf _ _ (gi_l _ _ G) n Hn Hi) as (_ & _ & _ & _ & _ & Q). apply (Q b Hb).
    - destruct (ht_root s g t I H _ _ _ _ _ _ _ _ E) as (A1 & A2); [|exact (HT_ok s g _ t I H A1 P A2)]. assumption.
    - destruct (ht_in s g t I H _ _ _ _ _ _ _ _ _ E M) as (A1 & A2). exact (HT_ok s g _ t I H A1 P A2).
    - cbn [HTT] in T. destruct T as (T1 & T2 & T3). destruct (Nat.eqb_spec n tg); (apply (HT_flat s g _ t I H); [|exact P|rewrite gone; cbn [HTT]; auto]); apply (flat3_go s); [apply flat3_refl|]. apply flat3_put; try reflexivity. apply flat3_refl.
    - cbn [HTT] in T. destruct T as (T1 & T2). destruct (Nat.eqb_spec c tg); (apply (HT_flat s g _ t I H); [|exact P|rewrite gone; cbn [HTT]; auto]); apply (flat3_go s); [apply flat3_refl|]. apply flat3_put; try reflexivity. apply flat3_refl.
    - apply (HT_flat s g _ t I H); [apply (flat3_go s), flat3_refl|exact P|]. rewrite gone. cbn [HTT HN] in *. destruct T as (T1 & q' & U & T2). injection U as <-. auto.
    - discriminate A.
    - apply (HT_flat s g _ t I H); [|exact P|rewrite gone; exact Logic.I]. apply (flat3_go s). destruct (prv (nd s n)) as [a0|], (nxt (nd s n)) as [b0|]; repeat (apply flat3_put; [|reflexivity|reflexivity|reflexivity]); apply flat3_refl.
    - destruct (ht_out _ _ _ _ _ _ E M) as (A1 & A2 & A3 & A4). apply (HT_ok s g _ t I H A1 P). destruct (pcs_out2 s t y r n ik rep p) as (rk & [-> | ->]); [|exact Logic.I]. cbn [HTT]. rewrite (proj1 (k_old _ _ A1 n A3)), (proj1 (k_old _ _ A1 p A4)). lia.
    - cbn [JI] in J. destruct J as (_ & _ & _ & _ & _ & _ & _ & _ & _ & Hc & Hp & _). pose proof (h_par _ H cur p2 Hc Hp). cbn [HTT] in T. destruct (Nat.eqb_spec cur p); (apply (HT_flat s g _ t I H); [|exact P|rewrite gone; cbn [HTT]; lia]); apply (flat3_go s); [apply flat3_refl|]. apply flat3_put; try reflexivity. apply flat3_refl.
    - apply (HT_flat s g _ t I H); [|exact P|rewrite gone; cbn [HTT] in T; destruct (_ || _); cbn [HTT]; [lia|exact Logic.I]]. apply (flat3_go s). destruct (_ =? 0)%nat; [split; [reflexivity|intros; auto]|]. apply (flat3_put s (misplace s _)); try reflexivity. split; [reflexivity|intros; auto].
  Qed.
End Step2.
