(* Concurrent layer: gets and puts can always finish. All locks can be given back. *)
From Verif Require Import Lib M_Tree M_Stampc P_Stampc1 M_Conc M_ConcRun Spec_Conc Spec_Conc2 Spec_Live P_Conc1 P_Conc2 P_Conc3 P_Conc4 P_Conc6 P_Conc14 P_Conc15 P_Conc16 P_Conc16b P_Conc18 P_Conc19 P_Conc20 P_Conc21 P_Conc22 P_Conc23 P_Conc24 P_Conc25 P_Conc26 P_Conc27 P_Conc28 P_ConcR.

Lemma in_full s t y w tg n c sk h st p : (exists q, pcs (in_parent s t y w tg n c sk h st p) t = after_in y w tg n c sk h st q None) \/
  (exists k, pcs (in_parent s t y w tg n c sk h st p) t = after_in y w tg n c sk h st (Some p) (Some (fr s, k)) /\ fr (in_parent s t y w tg n c sk h st p) = S (fr s)).
Proof.
  unfold in_parent. cbv zeta. destruct (S h <? ht (nd s p))%nat; [|destruct (length (keys (nd s p)) <? W)%nat]; rewrite gone; [left; eauto|left; eauto|].
  right. eexists. split; [reflexivity|]. cbn [go fr]. match goal with |- context[setpars ?a ?b ?d] => destruct (setpars_rest d b a) as (Q & _) end. rewrite Q. reflexivity.
Qed.
Lemma u_in s t y w tg n c sk h st p m : gp s -> top s m -> pcs s t = WIn y w tg n c sk h st p -> Done s t \/ Up s t m (S h).
Proof.
  intros G T E. assert (ST : step s t Go = Some (in_parent s t y w tg n c sk h st p)) by (unfold step; now rewrite E). pose proof (gp_step _ _ _ _ G (Logic.I : plain Go) ST) as G'.
  destruct (in_full s t y w tg n c sk h st p) as [(q & E')|(k & E' & F)]; [left; apply (Done_step _ _ _ _ ST Logic.I); exact (d_after _ _ _ _ _ _ _ _ _ _ _ G' E')|].
  right. apply (Up_step _ _ _ _ _ _ ST Logic.I). refine (u_after _ _ _ _ _ _ _ _ _ _ _ _ _ _ G' _ E').
  destruct G as (g & b & P). destruct G' as (g' & b' & P'). pose proof (gp_m _ _ _ P') as M'.
  destruct (ht_in s g t (lv_inv _ _ (gp_live _ _ _ P)) (lv_ht _ _ (gp_live _ _ _ P)) y w tg n c sk h st p E M') as (HK & HT').
  pose proof (proj1 (proj1 (proj2 (lv_inv _ _ (gp_live _ _ _ P)))) t p) as Hp. rewrite E in Hp. destruct (Hp ltac:(cbn; tauto)) as (Hp1 & _).
  rewrite E' in HT'. assert (HN' : HN (in_parent s t y w tg n c sk h st p) h (Some p) (Some (fr s, k))) by (unfold after_in in HT'; destruct h; cbn [HTT] in HT'; tauto).
  destruct HN' as (N1 & q' & Eq & N2). injection Eq as <-. rewrite (proj1 (k_old _ _ HK p Hp1)) in N2. pose proof (T p Hp1).
  intros a Ha. rewrite F in Ha. destruct (Nat.eq_dec a (fr s)) as [->|N]; [lia|]. rewrite (proj1 (k_old _ _ HK a ltac:(lia))). apply T. lia.
Qed.

Lemma u_have s t y w n m : gp s -> top s m -> pcs s t = WHave y (OPut w) n -> Done s t \/ Up s t m 0.
Proof.
  intros G T E. destruct (is_none (row_get y (rws (nd s n))) && negb (length (rws (nd s n)) <? W)%nat) eqn:D.
  - right. rewrite andb_true_iff, negb_true_iff, Nat.ltb_ge in D. destruct D as (D1 & D2).
    assert (ST : step s t Split = Some (leaf_split s t y w n)) by (unfold step; rewrite E, D1; destruct (Nat.leb_spec (W - 1) (length (rws (nd s n)))); [reflexivity|lia]).
    pose proof (gp_step _ _ _ _ G (Logic.I : plain Split) ST) as G'. apply (Up_step _ _ _ _ _ _ ST Logic.I). eexists. split; [apply Q_refl|]. split; [exact G'|]. split; [auto|].
    destruct (pcs_split s t y w n) as (a1 & a2 & a3 & a4 & E'). split; [|do 8 eexists; split; [exact E'|lia]].
    destruct G as (g & b & P). pose proof (lv_inv _ _ (gp_live _ _ _ P)) as I. pose proof (proj2 (proj2 (proj2 I)) t) as J. rewrite E in J. cbn [JI] in J. destruct J as (_ & _ & TGn).
    assert (Hn : (n < fr s)%nat /\ isl (nd s n) = true) by (destruct TGn as (A & _); destruct A as (B1 & B2 & _); auto). destruct Hn as (Hn & Hi).
    destruct (gl_leaf _ _ (gi_l _ _ (proj1 I)) n Hn Hi) as (_ & _ & _ & _ & _ & Hb).
    destruct (HT_split s t y w n (lv_ht _ _ (gp_live _ _ _ P)) Hn Hi (fun b0 Hb0 => proj1 (Hb b0 Hb0))) as (HK & _).
    intros a Ha. destruct (Nat.lt_ge_cases a (fr s)) as [O|O]; [rewrite (proj1 (k_old _ _ HK a O)); now apply T|]. destruct (isl (nd (leaf_split s t y w n) a)) eqn:L; [rewrite (k_new _ _ HK a ltac:(lia) L); lia|].
    exfalso. assert (F : fr (leaf_split s t y w n) = S (fr s)) by (unfold leaf_split; cbv zeta; destruct (nxt (nd s n)); reflexivity). assert (a = fr s) by lia. subst a. revert L. unfold leaf_split. cbv zeta.
    destruct (nxt (nd s n)) as [d|] eqn:Nd; change (nd (go ?x t _)) with (nd x); rewrite !nd_put.
    + specialize (Hb d eq_refl). destruct (Nat.eqb_spec (fr s) n); [lia|]. destruct (Nat.eqb_spec (fr s) d); [lia|]. rewrite Nat.eqb_refl. discriminate.
    + destruct (Nat.eqb_spec (fr s) n); [lia|]. rewrite Nat.eqb_refl. discriminate.
  - left. eassert (ST : step s t Ins = Some _) by (unfold step; rewrite E; cbv zeta; rewrite D; reflexivity). apply (Done_step _ _ _ _ ST Logic.I). eapply d_unl; [exact (gp_step _ _ _ _ G (Logic.I : plain Ins) ST)|]. rewrite gone. reflexivity.
Qed.

Lemma le_held s g (t : nat) y tg : Live s g -> forall n c sk h, SF s g y tg n c sk h -> ht (nd s n) = h -> ht (nd s c) = h -> (ht (nd s tg) <= h)%nat.
Proof.
  intros V n c sk h SFx T1 T2. destruct h as [|h']; [destruct SFx as (_ & _ & _ & _ & -> & _); destruct (y <? sk); lia|]. destruct SFx as (_ & _ & ((A1 & A2 & _) & _)). rewrite (h_leaf _ (lv_ht _ _ V) tg A1 A2). lia.
Qed.
Lemma tg_zero s g y tg : Live s g -> TG s g tg y -> ht (nd s tg) = 0%nat.
Proof. intros V ((A1 & A2 & _) & _). exact (h_leaf _ (lv_ht _ _ V) tg A1 A2). Qed.
Lemma Up_le s t m h h' : Up s t m h -> (h' <= h)%nat -> Up s t m h'.
Proof. intros (s' & A & B & C & D & y & w & tg & n & c & sk & h2 & st & E & F) H. exists s'. repeat split; auto; try apply B. do 8 eexists. split; [exact E|lia]. Qed.

(* A thread that holds locks gives them back, or goes up from a level that is as high as all it holds. *)
Lemma run_one s t m : gp s -> top s m -> holds (pcs s t) <> [] -> Done s t \/ exists h, Up s t m h /\ forall b, In b (holds (pcs s t)) -> (ht (nd s b) <= h)%nat.
Proof.
  intros G T N. pose proof G as (g & b & P). pose proof (gp_live _ _ _ P) as V. pose proof (lv_inv _ _ V) as I. pose proof (proj2 (proj2 (proj2 I)) t) as J. pose proof (h_thr _ (lv_ht _ _ V) t) as HH. pose proof (gp_nr _ _ _ P t) as (R1 & R2).
  destruct (pcs s t) as [|y o n|y o n|y o n v l u|y o n v c|y o n v c vc|y o n v|y o n v vi|y o n v vi gt|y o n v|y o n v r|y o n v|y o n v|y o n v vi|y o n v vi gt|y o n v|y o n
      |y o r|y o n|y o n r|y w tg n c sk h st|y w tg n c sk h st q|y w tg n c sk st q nc|y w tg n c h st q nc|y w tg c h st q nc|y w tg h st q nc|y w tg|y r n|y r n|y r n ik rep|y r n ik rep p|y r n p cur ik rik
      |y r n p cur p2 ik rik|y r n p cur p2 ik rik|y r n p p2 rik|y r n p ik|y r p ik|] eqn:E; try (destruct (N eq_refl)); cbn [JI] in J; try (destruct (R2 y r eq_refl)).
  - destruct (same s n v) eqn:S1.
    + assert (ST : step s t Go = Some (go s t (WHave y o n))) by (unfold step; rewrite E, S1; reflexivity). pose proof (gp_step _ _ _ _ G (Logic.I : plain Go) ST) as G'.
      destruct J as (_ & ((Hn & _) & _) & Hi & _ & Ho). destruct o as [|w|]; [congruence| |destruct (R1 y eq_refl)].
      destruct (u_have _ t y w n m G' T (gone _ _ _)) as [K|K]; [left; exact (Done_step _ _ _ _ ST Logic.I K)|right; exists 0%nat; split; [exact (Up_step _ _ _ _ _ _ ST Logic.I K)|]].
      intros b0 [<-|[]]. rewrite (h_leaf _ (lv_ht _ _ V) n Hn Hi). lia.
    + left. eassert (ST : step s t Go = Some _) by (unfold step; rewrite E, S1; reflexivity). apply (Done_step _ _ _ _ ST Logic.I). apply Done_now; [exact (gp_step _ _ _ _ G (Logic.I : plain Go) ST)|]. rewrite gone. reflexivity.
  - destruct J as (_ & Ho & TGn). destruct o as [|w|]; [congruence| |destruct (R1 y eq_refl)]. destruct (u_have _ t y w n m G T E) as [K|K]; [now left|right; exists 0%nat; split; [exact K|]].
    intros b0 [<-|[]]. rewrite (tg_zero _ _ _ _ V TGn). lia.
  - left. exact (d_unl _ _ _ _ _ _ G E).
  - right. exists h. cbn [HTT] in HH. destruct HH as (H1 & H2). destruct J as (_ & SFx). split.
    + exists s. split; [apply Q_refl|]. split; [exact G|]. split; [auto|]. split; [exact T|]. do 8 eexists. split; [exact E|lia].
    + pose proof (le_held s g t y tg V n c sk h SFx H1 H2). intros b0 [<-|[<-|[<-|[]]]]; lia.
  - destruct (u_in _ _ _ _ _ _ _ _ _ _ _ _ G T E) as [K|K]; [now left|]. destruct (Nat.le_gt_cases (ht (nd s q)) (S h)) as [Hq|Hq].
    + right. exists (S h). split; [exact K|]. cbn [HTT] in HH. destruct HH as (H1 & H2). destruct J as (_ & SFx & _). pose proof (le_held s g t y tg V n c sk h SFx H1 H2). intros b0 [<-|[<-|[<-|[<-|[]]]]]; lia.
    + left. assert (ST : step s t Go = Some (in_parent s t y w tg n c sk h st q)) by (unfold step; now rewrite E). apply (Done_step _ _ _ _ ST Logic.I).
      assert (E' : exists q', pcs (in_parent s t y w tg n c sk h st q) t = after_in y w tg n c sk h st q' None) by (unfold in_parent; cbv zeta; apply Nat.ltb_lt in Hq; rewrite Hq, gone; eauto). destruct E' as (q' & E').
      exact (d_after _ _ _ _ _ _ _ _ _ _ _ (gp_step _ _ _ _ G (Logic.I : plain Go) ST) E').
  - cbn [HTT] in HH. destruct HH as (H1 & H2 & H3). destruct nc as [[c' sk']|]; [|left; eapply (d_after s t y w tg n c sk 0 st q); [exact G|exact E]]. destruct H3 as (H3 & q' & -> & H4). right. exists 1%nat. split; [eapply (u_after s t y w tg n c sk 0 st q'); [exact G|exact T|exact E]|].
    destruct J as (_ & SFx & _). pose proof (le_held s g t y tg V n c sk 0 SFx H1 H2). cbn [holds o2l n2l app]. intros b0 [<-|[<-|[<-|[<-|[<-|[]]]]]]; lia.
  - cbn [HTT] in HH. destruct HH as (H1 & H2 & H3). destruct nc as [[c' sk']|]; [|left; exact (d_unln _ _ _ _ _ _ _ _ _ _ G E)]. destruct H3 as (H3 & q' & -> & H4). right. exists (S h). split; [exact (u_unln _ _ _ _ _ _ _ _ _ _ _ _ _ G T E)|].
    destruct J as (_ & TGn & _). pose proof (tg_zero _ _ _ _ V TGn). cbn [holds o2l n2l app]. intros b0 [<-|[<-|[<-|[<-|[<-|[]]]]]]; lia.
  - cbn [HTT] in HH. destruct HH as (H2 & H3). destruct nc as [[c' sk']|]; [|left; exact (d_unlc _ _ _ _ _ _ _ _ _ G E)]. destruct H3 as (H3 & q' & -> & H4). right. exists (S h). split; [exact (u_unlc _ _ _ _ _ _ _ _ _ _ _ _ G T E)|].
    destruct J as (_ & TGn & _). pose proof (tg_zero _ _ _ _ V TGn). cbn [holds o2l n2l app]. intros b0 [<-|[<-|[<-|[<-|[]]]]]; lia.
  - cbn [HTT] in HH. destruct nc as [[c' sk']|]; [|left; exact (d_next _ _ _ _ _ _ _ _ G E)]. destruct HH as (H3 & q' & -> & H4). right. exists (S h). split; [exact (u_next _ _ _ _ _ _ _ _ _ _ _ G T E)|].
    destruct J as (_ & TGn & _). pose proof (tg_zero _ _ _ _ V TGn). cbn [holds o2l n2l app]. intros b0 [<-|[<-|[<-|[]]]]; lia.
  - left. exact (d_ready _ _ _ _ _ G E).
Qed.

(* Some thread that holds locks gives them back, and no other takes one. *)
Definition Less (s : cst) : Prop := exists s' t', Q s s' /\ gp s' /\ holds (pcs s t') <> [] /\ free (pcs s' t') /\ forall t0, free (pcs s t0) -> free (pcs s' t0).
Lemma Less_done s t : Done s t -> holds (pcs s t) <> [] -> Less s.
Proof.
  intros (s' & A & B & C & D) N. exists s', t. repeat split; auto. intros t0 F. destruct (Nat.eq_dec t0 t) as [->|Nt]; [exact D|]. rewrite (C t0 Nt). exact F.
Qed.
Lemma Less_up s s1 t : Q s s1 -> (forall t0, t0 <> t -> pcs s1 t0 = pcs s t0) -> holds (pcs s t) <> [] -> Less s1 -> Less s.
Proof.
  intros A C N (s2 & t' & A2 & B & D1 & D2 & D3). exists s2, t'. split; [exact (Q_trans _ _ _ A A2)|]. split; [exact B|]. split; [destruct (Nat.eq_dec t' t) as [->|Nt]; [exact N|rewrite <- (C t' Nt); exact D1]|]. split; [exact D2|].
  intros t0 F. apply D3. destruct (Nat.eq_dec t0 t) as [->|Nt]; [destruct (N F)|rewrite (C t0 Nt); exact F].
Qed.
Lemma finish m : forall k s t y w tg n c sk h st, gp s -> pcs s t = WUp y w tg n c sk h st -> top s m -> (m - h < k)%nat -> Less s.
Proof.
  induction k as [|k IH]; intros s t y w tg n c sk h st G E T Hm; [lia|]. assert (N : holds (pcs s t) <> []) by (rewrite E; discriminate).
  pose proof G as (g & b & P). pose proof (gp_live _ _ _ P) as V. pose proof (lv_inv _ _ V) as I. pose proof (h_thr _ (lv_ht _ _ V) t) as HH. rewrite E in HH. cbn [HTT] in HH. destruct HH as (H1 & H2).
  pose proof (proj1 (proj1 (proj2 I)) t n) as Hn. rewrite E in Hn. destruct (Hn ltac:(cbn; tauto)) as (Hn1 & _). clear Hn.
  destruct (par (nd s n)) as [q|] eqn:Pn.
  2: { assert (ST : step s t Go = Some (new_root s t y w tg n c sk h st)) by (unfold step; now rewrite E, Pn). apply (Less_done s t); [|exact N]. apply (Done_step _ _ _ _ ST Logic.I).
    eapply d_after; [exact (gp_step _ _ _ _ G (Logic.I : plain Go) ST)|]. rewrite pcs_root. reflexivity. }
  destruct (gt_par _ _ (gi_t _ _ (proj1 I)) n q Hn1 Pn) as (Hq & _). pose proof (h_par _ (lv_ht _ _ V) n q Hn1 Pn) as Hh. pose proof (T q Hq) as Hqm.
  assert (GO : forall t2 h2, holds (pcs s t2) <> [] -> Up s t2 m h2 -> (S h <= h2)%nat -> Less s).
  { intros t2 h2 N2 (s1 & A & B & C & D & y1 & w1 & tg1 & n1 & c1 & sk1 & h1 & st1 & E1 & F1) L2. apply (Less_up s s1 t2 A C N2). apply (IH s1 t2 y1 w1 tg1 n1 c1 sk1 h1 st1 B E1 D). lia. }
  destruct (v_lk (ver (nd s q))) eqn:Lq.
  - destruct (lv_own _ _ V q Lq) as (t2 & Ho). assert (N2 : holds (pcs s t2) <> []) by (intros Q0; rewrite Q0 in Ho; destruct Ho).
    destruct (run_one s t2 m G T N2) as [K|(h2 & K & L2)]; [exact (Less_done s t2 K N2)|]. apply (GO t2 h2 N2 K). specialize (L2 q Ho). lia.
  - eassert (ST : step s t Go = Some _) by (unfold step; rewrite E, Pn, Lq; reflexivity). pose proof (gp_step _ _ _ _ G (Logic.I : plain Go) ST) as G'.
    match type of G' with gp ?x => assert (T' : top x m) by (revert T; apply top_flat, (flat3_go s), flat3_put; [apply flat3_refl|reflexivity|reflexivity|reflexivity]) end.
    destruct (u_in _ _ _ _ _ _ _ _ _ _ _ _ G' T' (gone _ _ _)) as [K|K]; [exact (Less_done s t (Done_step _ _ _ _ ST Logic.I K) N)|]. exact (GO t _ N (Up_step _ _ _ _ _ _ ST Logic.I K) (le_n _)).
Qed.
Lemma less s t : gp s -> holds (pcs s t) <> [] -> Less s.
Proof.
  intros G N. destruct (ht_bound s) as (m & T). destruct (run_one s t m G T N) as [K|(h & (s1 & A & B & C & D & y1 & w1 & tg1 & n1 & c1 & sk1 & h1 & st1 & E1 & F1) & _)]; [exact (Less_done s t K N)|].
  apply (Less_up s s1 t A C N). exact (finish m _ s1 t _ _ _ _ _ _ _ _ B E1 D (Nat.lt_succ_diag_r _)).
Qed.

(* Finitely many threads. *)
Definition quiet (s : cst) (k : nat) : Prop := forall t, (k <= t)%nat -> pcs s t = Idle.
Lemma Q_quiet s s' k : Q s s' -> quiet s k -> quiet s' k.
Proof. intros A B t Ht. exact (Q_idle s s' A t (B t Ht)). Qed.
Definition heldb (p : pct) : bool := negb (length (holds p) =? 0)%nat.
Lemma heldb_free p : heldb p = false <-> free p.
Proof. unfold heldb, free. rewrite negb_false_iff, Nat.eqb_eq. split; [apply length_zero_iff_nil|now intros ->]. Qed.
Definition count (f : pct -> bool) (s : cst) (k : nat) : nat := length (filter (fun t => f (pcs s t)) (seq 0 k)).
Lemma filter_le {A} (f f' : A -> bool) l : (forall x, In x l -> f' x = true -> f x = true) -> (length (filter f' l) <= length (filter f l))%nat.
Proof.
  induction l as [|a l IH]; intros H; [reflexivity|]. cbn [filter]. specialize (IH (fun x Hx => H x (or_intror Hx))). pose proof (H a (or_introl eq_refl)) as Ha.
  destruct (f' a), (f a); cbn [length]; try lia; try (specialize (Ha eq_refl); discriminate).
Qed.
Lemma filter_lt {A} (f f' : A -> bool) l : (forall x, In x l -> f' x = true -> f x = true) -> (exists x, In x l /\ f x = true /\ f' x = false) -> (length (filter f' l) < length (filter f l))%nat.
Proof.
  induction l as [|a l IH]; intros H (x & Hx & F1 & F2); [destruct Hx|]. cbn [filter]. pose proof (filter_le f f' l (fun x Hx => H x (or_intror Hx))) as LE. pose proof (H a (or_introl eq_refl)) as Ha.
  destruct Hx as [->|Hx]; [rewrite F1, F2; cbn [length]; lia|]. specialize (IH (fun x Hx => H x (or_intror Hx)) (ex_intro _ x (conj Hx (conj F1 F2)))).
  destruct (f' a), (f a); cbn [length]; try lia; try (specialize (Ha eq_refl); discriminate).
Qed.
Lemma count_lt f s s' k t : (t < k)%nat -> (forall t0, f (pcs s' t0) = true -> f (pcs s t0) = true) -> f (pcs s t) = true -> f (pcs s' t) = false -> (count f s' k < count f s k)%nat.
Proof. intros Ht H A B. apply filter_lt; [intros x _; apply H|]. exists t. split; [apply in_seq; lia|auto]. Qed.

Lemma all_free s k : gp s -> quiet s k -> exists s', Q s s' /\ gp s' /\ quiet s' k /\ forall t, free (pcs s' t).
Proof.
  remember (count heldb s k) as c eqn:Ec. revert s Ec. induction c as [c IH] using lt_wf_ind. intros s Ec G K.
  destruct (find (fun t => heldb (pcs s t)) (seq 0 k)) as [t|] eqn:Fd.
  - apply find_some in Fd. destruct Fd as (Ht & Hh). apply in_seq in Ht. assert (N : holds (pcs s t) <> []) by (intros Q0; apply heldb_free in Q0; congruence).
    destruct (less s t G N) as (s1 & t1 & A & B & C1 & C2 & C3). pose proof (Q_quiet _ _ _ A K) as K1.
    assert (Ht1 : (t1 < k)%nat) by (destruct (Nat.lt_ge_cases t1 k) as [O|O]; [exact O|rewrite (K t1 O) in C1; destruct (C1 eq_refl)]).
    assert (LT : (count heldb s1 k < c)%nat).
    { rewrite Ec. apply (count_lt heldb s s1 k t1 Ht1).
      - intros t0 H0. destruct (heldb (pcs s t0)) eqn:Q0; [reflexivity|]. apply heldb_free in Q0. apply C3 in Q0. apply heldb_free in Q0. congruence.
      - destruct (heldb (pcs s t1)) eqn:Q0; [reflexivity|]. apply heldb_free in Q0. destruct (C1 Q0).
      - now apply heldb_free. }
    destruct (IH _ LT s1 eq_refl B K1) as (s2 & A2 & R). exists s2. split; [exact (Q_trans _ _ _ A A2)|exact R].
  - exists s. split; [apply Q_refl|]. split; [exact G|]. split; [exact K|]. intros t. destruct (Nat.lt_ge_cases t k) as [O|O]; [|rewrite (K t O); reflexivity].
    apply heldb_free. exact (find_none _ _ Fd t ltac:(apply in_seq; lia)).
Qed.
