(* Concurrent layer: every step keeps the invariant. *)
From Verif Require Import Lib M_Tree M_Stampc P_Stampc1 M_Conc P_Conc1 P_Conc2 P_Conc3 P_Conc4 P_Conc14 P_Conc15 P_Conc16 P_Conc16b P_Conc17.

Definition Inv (s : cst) (g : gst) : Prop := GI s g /\ LI s /\ LK s g /\ forall t, JI s g (pcs s t).

Section Core.
  Variables (s : cst) (g : gst) (t : nat).
  Hypothesis G : GI s g.
  Hypothesis L : LI s.
  Hypothesis K : LK s g.
  Hypothesis JA : forall t, JI s g (pcs s t).

  Lemma st_start y o : pcs s t = Idle -> 0 <= y < 2 ^ 64 -> OK s g (go s t (PRoot y o (rootp s))) t.
  Proof. intros E Y. apply (rd s g t G L K _ _ E); [repeat split|repeat split|]. now apply (rootJ s g G). Qed.
  Lemma st_idle p : pcs s t = p -> bare p -> OK s g (go s t Idle) t.
  Proof. intros E B. apply (rd s g t G L K _ _ E B); [repeat split|exact Logic.I]. Qed.
  Lemma st_kid0 y o n v l u : pcs s t = PIn y o n v l u -> OK s g (go s t (PRoot y o (rootp s))) t.
  Proof. intros E. pose proof (JA t) as J. rewrite E in J. apply (rd s g t G L K _ _ E); [repeat split|repeat split|]. apply (rootJ s g G), J. Qed.
  Lemma st_same s' : pcs s t = Idle -> nd s' = nd s -> fr s' = fr s -> pcs s' = pcs s -> ((rootp s' < fr s)%nat /\ l0 g (rootp s') = 0) -> OK s g s' t.
  Proof.
    intros E E1 E2 E3 E4. apply (quiet_ok s g s' t Idle G L K E1 E2 E4); try (now rewrite E); try exact Logic.I.
    - rewrite E3. now apply pcs_self.
    - left. now rewrite E.
  Qed.
  Lemma st_fix : pcs s t = Idle -> OK s g (match par (nd s (rootp s)) with Some p => reroot s p | None => s end) t.
  Proof.
    intros E. pose proof (gt_rootp _ _ (gi_t _ _ G)) as (R1 & R2). destruct (par (nd s (rootp s))) as [q|] eqn:Q; apply st_same; try assumption; try reflexivity; [|split; assumption].
    destruct (gt_par _ _ (gi_t _ _ G) _ q R1 Q) as (A & _ & B). cbn [reroot rootp]. auto.
  Qed.

  Ltac inj := match goal with H : Some _ = Some _ |- _ => injection H as <- end.
  Ltac dirty := match goal with H : (if v_dirty ?v then None else _) = Some _ |- _ => destruct (v_dirty v) eqn:Dy; [discriminate H|inj] end.
  Lemma step_ok x s' : step s t x = Some s' -> misp s' = false -> abnd s' = false -> OK s g s' t.
  Proof.
    intros ST M A. pose proof (JA t) as J. pose proof ST as ST0. revert ST J. unfold step.
    destruct (pcs s t) as [|y o n|y o n|y o n v l u|y o n v c|y o n v c vc|y o n v|y o n v vi|y o n v vi gt|y o n v|y o n v r|y o n v|y o n v|y o n v vi|y o n v vi gt|y o n v|y o n
      |y o r|y o n|y o n r|y w tg n c sk h st|y w tg n c sk h st q|y w tg n c sk st q nc|y w tg n c h st q nc|y w tg c h st q nc|y w tg h st q nc|y w tg|y r n|y r n|y r n ik rep|y r n ik rep p|y r n p cur ik rik
      |y r n p cur p2 ik rik|y r n p cur p2 ik rik|y r n p p2 rik|y r n p ik|y r p ik|] eqn:E; intros ST J.
    - (* Idle *) destruct x as [|y o| | | | | | | | |]; try discriminate ST.
      + destruct (Z.leb_spec 0 y); [|discriminate ST]. cbn [andb] in ST. destruct (y <? 2 ^ 64) eqn:Y; [|discriminate ST]. inj. apply Z.ltb_lt in Y. now apply st_start.
      + destruct (v_rt _); [discriminate ST|]. inj. now apply st_fix.
    - destruct x; try discriminate ST. dirty. now apply (rd_root s g t G L K).
    - destruct x; try discriminate ST. inj. now apply (rd_up s g t G L K).
    - (* PIn *) destruct x as [| | |m j|j| | | | | |]; try discriminate ST.
      + destruct (Nat.leb_spec l m) as [H1|]; [|discriminate ST]. destruct (match u with Some b => _ | None => _ end); [|discriminate ST]. cbn [andb] in ST.
        destruct (negb (same s n v) || (m <? length (keys (nd s n)))%nat) eqn:H2; [|discriminate ST]. inj. apply (rd_cmp s g t G L K); auto.
        rewrite orb_true_iff, negb_true_iff, Nat.ltb_lt in H2. exact H2.
      + destruct (negb (same s n v) || _) eqn:H2 in ST; [|discriminate ST]. destruct (if same s n v then _ else _) as [c|] eqn:H3 in ST; [|inj; exact (st_kid0 _ _ _ _ _ _ E)].
        destruct (Nat.ltb_spec c (fr s)) as [H4|]; [|discriminate ST]. inj. apply (rd_kid s g t G L K) with (l := l) (u := u); auto. intros Q. rewrite Q in *. split; [exact H3|].
        cbn [negb orb] in H2. destruct u as [b|]; apply Nat.eqb_eq in H2; [left; congruence|right; auto].
    - destruct x; try discriminate ST. dirty. now apply (rd_stk s g t G L K).
    - destruct x; try discriminate ST. inj. now apply (rd_chk s g t G L K).
    - destruct x; try discriminate ST. dirty. now apply (rd_re s g t G L K).
    - destruct x; try discriminate ST. inj. now apply (rd_last s g t G L K).
    - destruct x; try discriminate ST. destruct (same s n vi) eqn:Q; [inj; now apply (rd_lastc s g t G L K) with (vi := vi)|]. dirty. now apply (rd_lastr s g t G L K) with (vi := vi) (gt := gt).
    - destruct x; try discriminate ST. inj. now apply (rd_leaf s g t G L K).
    - (* PRead *) destruct o as [|w|].
      + destruct x; try discriminate ST. inj. now apply (rd_get s g t G L K).
      + destruct x; try discriminate ST. destruct (v_lk _) eqn:Q; [discriminate ST|]. inj. apply (wr_lock s g t G L K) with (r := r); auto. discriminate.
      + destruct x; try discriminate ST. destruct (v_lk _) eqn:Q; [discriminate ST|]. inj. apply (wr_lock s g t G L K) with (r := r); auto. discriminate.
    - destruct x; try discriminate ST; inj; [destruct (same s n v) eqn:Q|]; [now apply (wr_have s g t G L K) with (v := v)| |]; now apply (wr_miss s g t G L K).
    - destruct x; try discriminate ST. dirty. now apply (rd_adv s g t G L K).
    - destruct x; try discriminate ST. inj. now apply (rd_llast s g t G L K).
    - destruct x; try discriminate ST. destruct (same s n vi) eqn:Q; [inj; now apply (rd_llastc s g t G L K) with (vi := vi)|]. dirty. now apply (rd_llastr s g t G L K) with (vi := vi) (gt := gt).
    - destruct x; try discriminate ST. inj. now apply (rd_walk s g t G L K).
    - destruct x; try discriminate ST. dirty. now apply (rd_next s g t G L K).
    - destruct x; try discriminate ST. inj. apply (st_idle _ E). repeat split.
    - (* WHave *) destruct o as [|w|]; [destruct x; discriminate ST| |].
      + destruct x; try discriminate ST.
        * inj. now apply (wr_mark s g t G L K) with (y := y) (o := OPut w).
        * destruct (_ && _); [discriminate ST|]. inj. now apply (wr_ins s g t G L K).
        * destruct (is_none (row_get y (rws (nd s n))) && (W - 1 <=? length (rws (nd s n)))%nat) eqn:Q; [|discriminate ST]. inj. rewrite andb_true_iff, Nat.leb_le in Q. destruct Q as (Q1 & Q2).
          apply (leaf_ok s g t G L K JA); auto. now destruct (row_get y (rws (nd s n))).
      + destruct x; try discriminate ST.
        * destruct (row_get y (rws (nd s n))) as [old|] eqn:Q; inj; [now apply (wr_rem s g t G L K)|now apply (wr_none s g t G L K)].
        * inj. now apply (wr_mark s g t G L K) with (y := y) (o := ORem).
    - destruct x; try discriminate ST. inj. now apply (wr_unl s g t G L K).
    - destruct x; try discriminate ST. destruct (par (nd s n)) as [q|] eqn:Q.
      + destruct (v_lk _) eqn:Q2; [discriminate ST|]. inj. now apply (wr_uplock s g t G L K).
      + inj. cbn [JI] in J. destruct J. apply (root_ok s g t G L K JA _ y w tg n c sk h st E); auto.
    - destruct x; try discriminate ST. inj. now apply (in_ok s g t G L K JA).
    - destruct x; try discriminate ST. inj. now apply (wr_strip s g t G L K) with (sk := sk).
    - destruct x; try discriminate ST. inj. now apply (wr_unln s g t G L K).
    - destruct x; try discriminate ST. inj. now apply (wr_unlc s g t G L K).
    - destruct x; try discriminate ST. pose proof (wr_next s g t G L K _ _ _ _ _ _ _ E J) as H. destruct q as [q|]; [destruct nc as [[c sk]|]|]; inj; exact H.
    - destruct x; try discriminate ST; inj; [now apply (wr_add s g t G L K)|discriminate A].
    - destruct x; try discriminate ST. inj. now apply (wr_dmark s g t G L K).
    - destruct x; try discriminate ST. inj. now apply (unlink_ok s g t G L K JA).
    - destruct x; try discriminate ST. destruct (par (nd s n)) as [q|] eqn:Q; [|destruct (dup_par s g _ _ _ _ _ J Q)]. destruct (v_lk _) eqn:Q2; [discriminate ST|]. inj. now apply (wr_dup s g t G L K).
    - destruct x; try discriminate ST. inj. now apply (out_ok s g t G L K JA).
    - destruct x; try discriminate ST. destruct (par (nd s cur)) as [q|] eqn:Q; [|destruct (dred_par s g t G L K JA _ _ _ _ _ _ _ E J Q)]. destruct (v_lk _) eqn:Q2; [discriminate ST|]. inj. now apply (wr_dred s g t G L K).
    - destruct x; try discriminate ST. inj. now apply (wr_dredu s g t G L K).
    - destruct x; try discriminate ST. now apply (redw_ok s g t G L K JA y r n p cur p2 ik rik).
    - destruct x; try discriminate ST. inj. now apply (wr_drede s g t G L K).
    - destruct x; try discriminate ST. inj. now apply (wr_dunl s g t G L K).
    - destruct x; try discriminate ST. destruct (negb (length (keys (nd s p)) =? 0)%nat || v_rt (ver (nd s p))) eqn:Q; inj; [now apply (wr_dend s g t G L K) with (ik := ik)|].
      rewrite orb_false_iff, negb_false_iff, Nat.eqb_eq in Q. destruct Q as (Q1 & Q2). apply length_zero_iff_nil in Q1. now apply (dnext_ok s g t G L K JA).
    - destruct x; discriminate ST.
  Qed.
End Core.

Lemma Inv_step s g t x s' : Inv s g -> step s t x = Some s' -> misp s' = false -> abnd s' = false -> exists g', Inv s' g' /\ Rel s g s' g' /\ Frame s g s' g' t.
Proof.
  intros (G & L & K & JA) ST M A. destruct (step_ok s g t G L K JA x s' ST M A) as (g' & G' & R & F & L' & K' & J'). exists g'. split; [|split; assumption].
  split; [exact G'|]. split; [exact L'|]. split; [exact K'|]. intros t0. destruct (Nat.eq_dec t0 t) as [->|N]; [exact J'|].
  rewrite (fm_pc _ _ _ _ _ F t0 N). exact (JI_stable s g s' g' t t0 G (gi_t _ _ G') R F L N (JA t0)).
Qed.

(* Both marks stay once set. *)
Lemma out_misp s t y r n ik rep p : misp (out_parent s t y r n ik rep p) = misp s || negb (is_at n (upper ik (keys (nd s p))) (kids (nd s p))) /\ abnd (out_parent s t y r n ik rep p) = abnd s.
Proof. unfold out_parent. destruct rep; [|destruct (upper ik (keys (nd s p)) =? 0)%nat]; split; reflexivity. Qed.
Lemma in_abnd s t y w tg n c sk h st q : abnd (in_parent s t y w tg n c sk h st q) = abnd s.
Proof.
  unfold in_parent. destruct (S h <? ht (nd s q))%nat; [reflexivity|]. destruct (length (keys (nd s q)) <? W)%nat; [reflexivity|]. cbv zeta.
  match goal with |- context[setpars ?a ?b ?d] => destruct (setpars_rest d b a) as (_ & _ & _ & _ & Q) end. cbn [go abnd]. rewrite Q. reflexivity.
Qed.
Lemma step_marks s t x s' : step s t x = Some s' -> (misp s' = false -> misp s = false) /\ (abnd s' = false -> abnd s = false).
Proof.
  unfold step. destruct (pcs s t) eqn:E; destruct x; try discriminate; try match goal with o : op |- _ => destruct o; try discriminate end;
    repeat match goal with |- (if ?b then _ else _) = Some _ -> _ => destruct b; try discriminate | |- (match ?b with Some _ => _ | None => _ end) = Some _ -> _ => destruct b; try discriminate end;
    intros H; try (injection H as <-; split; intros Q; exact Q).
  all: try (injection H as <-).
  all: try (split; [intros Q; apply in_misp in Q; apply Q|rewrite in_abnd; auto]).
  all: try (destruct (out_misp s t y r n ik rep p) as (-> & ->); split; [rewrite orb_false_iff; tauto|auto]).
  all: unfold leaf_split; cbv zeta; repeat match goal with |- context[match ?b with Some _ => _ | None => _ end] => destruct b | |- context[if ?b then _ else _] => destruct b end; split; intros Q; try exact Q; cbn in Q; try (rewrite orb_false_iff in Q; tauto); try discriminate Q.
  all: destruct p as [c sk]; injection H as <-; exact Q.
Qed.

Definition g_start : gst := MkG (fun _ => 0) (fun _ => 0) (fun _ => INF) (fun _ => 0) (fun _ => None) (fun _ => None) (fun _ => None) (fun _ => false) (fun _ => false).
Lemma Inv_start : Inv start g_start.
Proof.
  assert (Z0 : forall a, (a < 1)%nat -> a = 0%nat) by (intros; lia). pose proof INF_pos as IP.
  split; [constructor; constructor|split; [|split]]; cbn [start g_start nd fr rootp pcs misp abnd l0 ll hh sp pd us rp ul ze start_leaf new_leaf v_new isl ver lo rws zk nxt prv par keys kids v_del v_spl v_rt ehi rh]; intros; try discriminate; try lia; auto.
  - repeat split; auto; try lia; discriminate.
  - repeat split; auto; try lia; discriminate.
  - split; [constructor|]. split; [intros y Q; now destruct Q|auto].
  - exfalso. destruct H as (H & _), H0 as (H0 & _). cbn in H, H0. lia.
  - split; [|now left]. right. exists 0%nat. repeat split. cbn. lia.
  - split; cbn; intros; contradiction.
  - repeat split; cbn; try discriminate; intros (? & H); discriminate.
  - exact Logic.I.
Qed.
Lemma steps_Inv s l s' : steps s l s' -> forall g, Inv s g -> misp s' = false -> abnd s' = false -> exists g', Inv s' g'.
Proof.
  intros H. assert (B : forall s l s', steps s l s' -> (misp s' = false -> misp s = false) /\ (abnd s' = false -> abnd s = false)).
  { induction 1 as [|s0 t x s1 l0 s2 E H0 IH]; [auto|]. destruct (step_marks _ _ _ _ E). tauto. }
  induction H as [|s t x s1 l s2 E H IH]; intros g I M A; [eauto|]. destruct (B _ _ _ H) as (B1 & B2).
  destruct (Inv_step s g t x s1 I E (B1 M) (B2 A)) as (g1 & I1 & _). eauto.
Qed.
