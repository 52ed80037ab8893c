(* Concurrent layer: gets and puts can always finish. Threads that hold no lock. *)
From Verif Require Import Lib M_Tree M_Stampc P_Stampc1 M_Conc M_ConcRun Spec_Conc Spec_Conc2 Spec_Live P_Conc1 P_Conc2 P_Conc3 P_Conc4 P_Conc6 P_Conc14 P_Conc15 P_Conc16 P_Conc16b P_Conc18 P_Conc19 P_Conc20 P_Conc21 P_Conc22 P_Conc23 P_Conc24 P_Conc25 P_Conc26 P_Conc27 P_Conc28 P_Conc29 P_ConcR.

(* A thread whose operation is decided, or has none. *)
Definition past (p : pct) : Prop :=
  match p with
  | PRoot _ _ _ | PUp _ _ _ | PIn _ _ _ _ _ _ | PKid _ _ _ _ _ | PChk _ _ _ _ _ _ | PRe _ _ _ _ | PLast _ _ _ _ _ | PLastC _ _ _ _ _ _ | PLeaf _ _ _ _ | PRead _ _ _ _ _
  | PLocked _ _ _ _ | PAdv _ _ _ _ | PLLast _ _ _ _ _ | PLLastC _ _ _ _ _ _ | PWalk _ _ _ _ | PNext _ _ _ => False
  | _ => True end.
Lemma past_step s t x s' : step s t x = Some s' -> plain x -> past (pcs s t) -> past (pcs s' t).
Proof.
  unfold step. intros ST PX. destruct (pcs s t) eqn:E; intros P; destruct P; destruct x; try discriminate ST; try (destruct PX; fail); try (destruct o; discriminate ST);
    try match type of ST with (if ?b then _ else _) = _ => destruct b eqn:BC; try discriminate ST end; cases ST; rewrite ?gone; try exact Logic.I; cbn [vput put pcs]; rewrite ?E; try exact Logic.I.
  all: try (repeat match goal with |- context[if ?b then _ else _] => destruct b end; exact Logic.I).
  all: try (destruct (pcs_split s t y w n) as (a1 & a2 & a3 & a4 & ->); exact Logic.I).
  all: try (rewrite pcs_root; unfold after_in; destruct h; exact Logic.I).
  all: try (destruct (pcs_in s t y w tg n c sk h st p) as (q' & nc0 & ->); unfold after_in; destruct h; exact Logic.I).
  all: try (destruct (pcs_out2 s t y r n ik rep p) as (rk & [-> | ->]); exact Logic.I).
Qed.
Lemma Q_past s s' : Q s s' -> forall t, past (pcs s t) -> past (pcs s' t).
Proof.
  intros (m & H & F) t0 Ht. induction H as [|s t x s1 l s3 E H IH]; [exact Ht|]. apply IH; [intros e He; apply F; now right|]. destruct (Nat.eq_dec t0 t) as [->|N].
  - exact (past_step _ _ _ _ E (F _ (or_introl eq_refl)) Ht).
  - rewrite (other _ _ _ _ E t0 N). exact Ht.
Qed.

Record Ok (s : cst) (k : nat) : Prop := { ok_gp : gp s; ok_q : quiet s k; ok_f : forall t, free (pcs s t) }.
Definition Ends (s : cst) (t : nat) : Prop := exists s', Q s s' /\ gp s' /\ pcs s' t = Idle.
Lemma Ends_step s t x s1 : step s t x = Some s1 -> plain x -> Ends s1 t -> Ends s t.
Proof. intros E P (s2 & A & B). exists s2. split; [exact (Q_cons _ _ _ _ _ E P A)|exact B]. Qed.
Lemma quiet_step s t x s1 k : step s t x = Some s1 -> plain x -> quiet s k -> quiet s1 k.
Proof. intros E P. apply Q_quiet. exact (Q_cons _ _ _ _ _ E P (Q_refl _)). Qed.
Lemma ok_lk s k a : Ok s k -> v_lk (ver (nd s a)) = false.
Proof.
  intros O. destruct (v_lk (ver (nd s a))) eqn:E; [|reflexivity]. destruct (ok_gp _ _ O) as (g & b & P). destruct (lv_own _ _ (gp_live _ _ _ P) a E) as (t & H). rewrite (ok_f _ _ O t) in H. destruct H.
Qed.
Lemma ok_dirty s k a : Ok s k -> (a < fr s)%nat -> v_dirty (ver (nd s a)) = false.
Proof.
  intros O Ha. destruct (v_dirty (ver (nd s a))) eqn:E; [|reflexivity]. pose proof (ok_gp _ _ O) as (g & b & P). pose proof (gv_dirty _ _ (gi_v _ _ (proj1 (lv_inv _ _ (gp_live _ _ _ P)))) a Ha E) as L. rewrite (ok_lk _ _ a O) in L. discriminate L.
Qed.
Lemma same_now s n : same s n (ver (nd s n)) = true.
Proof. unfold same, v_same. now rewrite !Bool.eqb_reflx, !Nat.eqb_refl. Qed.
Lemma ok_ji s k t : Ok s k -> exists g b, GP s g b /\ JI s g (pcs s t).
Proof. intros O. destruct (ok_gp _ _ O) as (g & b & P). exists g, b. split; [exact P|]. exact (proj2 (proj2 (proj2 (lv_inv _ _ (gp_live _ _ _ P)))) t). Qed.

(* A read step of t. *)
Lemma rd s t k x p : Ok s k -> step s t x = Some (go s t p) -> plain x -> free p -> (Ok (go s t p) k -> pcs (go s t p) t = p -> Ends (go s t p) t) -> Ends s t.
Proof.
  intros O ST PX F K. apply (Ends_step _ _ _ _ ST PX). apply K; [|apply gone]. constructor; [exact (gp_step _ _ _ _ (ok_gp _ _ O) PX ST)|exact (quiet_step _ _ _ _ _ ST PX (ok_q _ _ O))|].
  intros t0. destruct (Nat.eq_dec t0 t) as [->|N]; [rewrite gone; exact F|]. rewrite (other _ _ _ _ ST t0 N). apply (ok_f _ _ O).
Qed.
Lemma e_done s t y o r : gp s -> pcs s t = PDone y o r -> Ends s t.
Proof.
  intros G E. assert (ST : step s t Go = Some (go s t Idle)) by (unfold step; now rewrite E). apply (Ends_step _ _ _ _ ST Logic.I). exists (go s t Idle). split; [apply Q_refl|]. split; [exact (gp_step _ _ _ _ G (Logic.I : plain Go) ST)|apply gone].
Qed.
Lemma e_past s t k : gp s -> quiet s k -> past (pcs s t) -> Ends s t.
Proof.
  intros G K P. destruct (all_free s k G K) as (s1 & A & B & C & D). pose proof (Q_past _ _ A t P) as P1. pose proof (D t) as F1. enough (Ends s1 t) as (s2 & A2 & R) by (exists s2; split; [exact (Q_trans _ _ _ A A2)|exact R]).
  destruct B as (g & b & PP). pose proof (proj2 (proj2 (proj2 (lv_inv _ _ (gp_live _ _ _ PP)))) t) as J.
  destruct (pcs s1 t) eqn:E; try (destruct P1; fail); try discriminate F1.
  - exists s1. split; [apply Q_refl|]. split; [exists g, b; exact PP|exact E].
  - eapply e_done; [exists g, b; exact PP|exact E].
  - destruct J.
Qed.

Section T.
  Variables (t k : nat).

  (* find_unlocked and find_locked with the version the leaf has now *)
  Lemma e_read_cur s y o n v r : Ok s k -> pcs s t = PRead y o n v r -> same s n v = true -> Ends s t.
  Proof.
    intros O E S1. destruct (ok_ji s k t O) as (g & b & P & J). rewrite E in J. cbn [JI] in J.
    assert (PUT : o <> OGet -> Ends s t).
    { intros Ho. assert (ST : step s t Go = Some (go (vput s n (v_lock (ver (nd s n)))) t (PLocked y o n v))) by (unfold step; rewrite E, (ok_lk s k n O); destruct o; [congruence|reflexivity|reflexivity]).
      apply (Ends_step _ _ _ _ ST Logic.I). set (s1 := go _ t _) in *. pose proof (gp_step _ _ _ _ (ok_gp _ _ O) (Logic.I : plain Go) ST) as G1. pose proof (quiet_step _ _ _ _ _ ST (Logic.I : plain Go) (ok_q _ _ O)) as Q1.
      assert (S2 : same s1 n v = true) by (unfold same, s1; cbn [go vput put nd]; unfold setf; rewrite Nat.eqb_refl; cbn [with_ver ver]; exact S1).
      assert (E1 : pcs s1 t = PLocked y o n v) by apply gone. assert (ST2 : step s1 t Go = Some (go s1 t (WHave y o n))) by (unfold step; rewrite E1, S2; reflexivity).
      apply (Ends_step _ _ _ _ ST2 Logic.I). apply (e_past _ _ k); [exact (gp_step _ _ _ _ G1 (Logic.I : plain Go) ST2)|exact (quiet_step _ _ _ _ _ ST2 (Logic.I : plain Go) Q1)|]. rewrite gone. exact Logic.I. }
    destruct o as [|w|]; [|apply PUT; discriminate|apply PUT; discriminate]. apply (rd s t k Go (PDone y OGet r) O); [unfold step; rewrite E, S1; reflexivity|exact Logic.I|reflexivity|]. intros O1 E1. exact (e_done _ _ _ _ _ (ok_gp _ _ O1) E1).
  Qed.
  Lemma alive_same s n v : Ok s k -> same s n v = true -> v_del v = false.
  Proof. intros O S1. destruct (ok_gp _ _ O) as (g & b & P). apply v_same_iff in S1. rewrite <- (gp_al _ _ _ P n). tauto. Qed.
  Lemma e_leaf_cur s y o n v : Ok s k -> pcs s t = PLeaf y o n v -> same s n v = true -> Ends s t.
  Proof.
    intros O E S1. eapply (rd s t k (JunkRow None) (PRead y o n v _) O); [unfold step; rewrite E, (alive_same s n v O S1); reflexivity|exact Logic.I|reflexivity|]. intros O1 E1. exact (e_read_cur _ _ _ _ _ _ O1 E1 S1).
  Qed.

  (* reach_leaf from a node with the version it has now *)
  Definition span (s : cst) (n l : nat) (u : option nat) : nat := (match u with Some b => b | None => length (keys (nd s n)) end - l)%nat.
  Lemma e_in_cur : forall h s y o n v l u, (ht (nd s n) < h)%nat -> Ok s k -> pcs s t = PIn y o n v l u -> same s n v = true -> Ends s t.
  Proof.
    induction h as [|h IH]; [intros; lia|]. intros s y o n v l u. remember (span s n l u) as d eqn:Hd. revert s l u Hd. induction d as [d IHd] using lt_wf_ind. intros s l u Hd Hh O E S1.
    destruct (ok_ji s k t O) as (g & b & P & J). rewrite E in J. cbn [JI] in J. destruct J as (Y & JJn & Hi & JS). destruct (JS S1) as (J1 & _ & _). pose proof (lv_pb _ _ (gp_live _ _ _ P) t) as B. rewrite E in B. cbn [PB] in B. specialize (B S1).
    pose proof (proj1 (proj1 JJn)) as Hn. pose proof (gp_xi _ _ _ P) as X.
    assert (Hl : (l < length (kids (nd s n)))%nat) by (pose proof (Forall2_length _ _ _ (x_int _ _ X n Hn Hi)) as Q; cbn [length] in Q; lia).
    destruct d as [|d].
    - assert (K : match u with Some b => (b =? l)%nat | None => (l =? length (keys (nd s n)))%nat end = true) by (unfold span in Hd; destruct u as [c|]; [specialize (B c eq_refl)|]; apply Nat.eqb_eq; lia).
      destruct (nth l (kids (nd s n)) None) as [c|] eqn:Nc.
      2: { exfalso. pose proof (x_int _ _ X n Hn Hi) as F. assert (Hin : In (@None nat) (kids (nd s n))) by (rewrite <- Nc; apply nth_In; exact Hl).
        clear - F Hin. induction F as [|a c l m H1 H2 IHF]; [destruct Hin|]. destruct Hin as [->|Hin]; [destruct H1 as (z & Hz & _); discriminate Hz|auto]. }
      assert (Hin : In (Some c) (kids (nd s n))) by (rewrite <- Nc; apply nth_In; exact Hl). destruct (gt_kid _ _ (gi_t _ _ (proj1 (lv_inv _ _ (gp_live _ _ _ P)))) n c Hn Hi Hin) as (Hc & _). pose proof (x_kid _ _ X n c Hn Hi Hin) as Hhc.
      apply (rd s t k (Kid None) (PKid y o n v c) O); [unfold step; rewrite E, S1; cbn [negb orb]; rewrite K, Nc; apply Nat.ltb_lt in Hc; rewrite Hc; reflexivity|exact Logic.I|reflexivity|]. intros O1 E1.
      apply (rd _ t k Go (PChk y o n v c (ver (nd s c))) O1); [unfold step; rewrite E1; change (nd (go s t ?z)) with (nd s); rewrite (ok_dirty s k c O Hc); reflexivity|exact Logic.I|reflexivity|]. intros O2 E2.
      match type of E2 with pcs ?z t = _ => set (s2 := z) in * end. destruct (isl (nd s c)) eqn:Lc.
      + apply (rd s2 t k Go (PLeaf y o c (ver (nd s c))) O2); [unfold step; rewrite E2; change (same s2 n v) with (same s n v); rewrite S1; unfold enter; change (nd s2 c) with (nd s c); rewrite Lc; reflexivity|exact Logic.I|reflexivity|].
        intros O3 E3. exact (e_leaf_cur _ _ _ _ _ O3 E3 (same_now s c)).
      + apply (rd s2 t k Go (PIn y o c (ver (nd s c)) 0 None) O2); [unfold step; rewrite E2; change (same s2 n v) with (same s n v); rewrite S1; unfold enter; change (nd s2 c) with (nd s c); rewrite Lc; reflexivity|exact Logic.I|reflexivity|].
        intros O3 E3. refine (IH _ _ _ _ _ _ _ _ O3 E3 (same_now s c)). change (ht (nd s c) < h)%nat. lia.
    - assert (K1 : (l < length (keys (nd s n)))%nat /\ match u with Some b => (l <? b)%nat | None => true end = true) by (unfold span in Hd; destruct u as [c|]; [specialize (B c eq_refl); split; [lia|apply Nat.ltb_lt; lia]|split; [lia|reflexivity]]).
      destruct K1 as (K1 & K2). pose proof K1 as K3. apply Nat.ltb_lt in K3. destruct (nth l (keys (nd s n)) 0 <=? y) eqn:C.
      + apply (rd s t k (Cmp l false) (PIn y o n v (S l) u) O); [unfold step; rewrite E, S1, Nat.leb_refl, K2, K3, C; reflexivity|exact Logic.I|reflexivity|]. intros O1 E1.
        refine (IHd _ _ _ _ _ eq_refl _ O1 E1 S1); [|exact Hh]. unfold span in *. cbn [go nd]. lia.
      + apply (rd s t k (Cmp l false) (PIn y o n v l (Some l)) O); [unfold step; rewrite E, S1, Nat.leb_refl, K2, K3, C; reflexivity|exact Logic.I|reflexivity|]. intros O1 E1.
        refine (IHd _ _ _ _ _ eq_refl _ O1 E1 S1); [|exact Hh]. unfold span in *. lia.
  Qed.
  Lemma e_enter s s0 y o n v : Ok s k -> nd s0 = nd s -> pcs s t = enter s0 y o n v -> same s n v = true -> Ends s t.
  Proof. intros O Q0. unfold enter. rewrite Q0. destruct (isl (nd s n)); intros E S1; [exact (e_leaf_cur _ _ _ _ _ O E S1)|exact (e_in_cur _ _ _ _ _ _ _ _ (Nat.lt_succ_diag_r _) O E S1)]. Qed.
  Lemma free_enter s y o n v : free (enter s y o n v). Proof. unfold enter. destruct (isl _); reflexivity. Qed.
  Lemma e_root_m m : forall d s y o n, (m - ht (nd s n) < d)%nat -> top s m -> Ok s k -> pcs s t = PRoot y o n -> Ends s t.
  Proof.
    induction d as [|d IH]; [intros; lia|]. intros s y o n Hd T O E. destruct (ok_ji s k t O) as (g & b & P & J). rewrite E in J. cbn [JI] in J. destruct J as (_ & Hn & _). pose proof (lv_inv _ _ (gp_live _ _ _ P)) as I.
    pose proof (ok_dirty s k n O Hn) as D. destruct (v_rt (ver (nd s n))) eqn:R.
    - apply (rd s t k Go (enter s y o n (ver (nd s n))) O); [unfold step; rewrite E, D, R; reflexivity|exact Logic.I|apply free_enter|]. intros O1 E1. exact (e_enter (go s t _) s _ _ _ _ O1 eq_refl E1 (same_now s n)).
    - apply (rd s t k Go (PUp y o n) O); [unfold step; rewrite E, D, R; reflexivity|exact Logic.I|reflexivity|]. intros O1 E1. destruct (par (nd s n)) as [p|] eqn:Pn.
      + destruct (gt_par _ _ (gi_t _ _ (proj1 I)) n p Hn Pn) as (Hp & _). pose proof (h_par _ (lv_ht _ _ (gp_live _ _ _ P)) n p Hn Pn) as Hh. pose proof (T p Hp).
        apply (rd _ t k Go (PRoot y o p) O1); [unfold step; rewrite E1; cbn [go nd]; rewrite Pn; reflexivity|exact Logic.I|reflexivity|]. intros O2 E2. refine (IH _ _ _ _ _ _ O2 E2); [cbn [go nd]; lia|exact T].
      + exfalso. assert (PD : forall a c, pd g a <> Some c).
        { intros a c Q0. apply (proj1 (proj1 (proj2 (proj2 I)))) in Q0. destruct Q0 as (t0 & Q0). pose proof (ok_f _ _ O t0) as F0. destruct (pcs s t0); try discriminate Q0; discriminate F0. }
        destruct (gv_root3 _ _ (gi_v _ _ (proj1 I)) n Hn Pn (fun m0 => PD m0 n)) as (R' & _); [|congruence]. destruct (pd g n) as [c|] eqn:Q0; [destruct (PD n c Q0)|reflexivity].
  Qed.
  Lemma e_root s y o n : Ok s k -> pcs s t = PRoot y o n -> Ends s t.
  Proof. destruct (ht_bound s) as (m & T). exact (e_root_m m _ s y o n (Nat.lt_succ_diag_r _) T). Qed.
  Lemma e_up s y o n : Ok s k -> pcs s t = PUp y o n -> Ends s t.
  Proof. intros O E. eapply (rd s t k Go (PRoot y o _) O); [unfold step; rewrite E; reflexivity|exact Logic.I|reflexivity|]. intros O1 E1. exact (e_root _ _ _ _ O1 E1). Qed.

  (* advance_to_key *)
  Definition after (s : cst) (n : nat) : nat := length (filter (fun a => lo (nd s n) <? lo (nd s a)) (seq 0 (fr s))).
  Lemma e_walk (c : bool) y o : (forall s n v, Ok s k -> pcs s t = PLeaf y o n v -> (c = true -> same s n v = true) -> Ends s t) ->
    forall d s n v, (after s n < d)%nat -> Ok s k -> pcs s t = PWalk y o n v -> (c = true -> same s n v = true) -> Ends s t.
  Proof.
    intros LF. induction d as [|d IH]; [intros; lia|]. intros s n v Hd O E Hc. destruct (ok_ji s k t O) as (g & b & P & J). rewrite E in J. cbn [JI] in J. destruct J as (_ & (Hn & _) & Hi).
    assert (L : forall p, step s t Go = Some (go s t p) -> p = PLeaf y o n v -> Ends s t) by (intros p ST ->; apply (rd s t k Go _ O ST); [exact Logic.I|reflexivity|]; intros O1 E1; exact (LF _ _ _ O1 E1 Hc)).
    destruct (v_del v) eqn:D; [eapply L; [unfold step; rewrite E, D; reflexivity|reflexivity]|]. destruct (nxt (nd s n)) as [a|] eqn:Na; [|eapply L; [unfold step; rewrite E, D, Na; reflexivity|reflexivity]].
    destruct (lo (nd s a) <=? y) eqn:Lo; [|eapply L; [unfold step; rewrite E, D, Na, Lo; reflexivity|reflexivity]].
    pose proof (gi_l _ _ (proj1 (lv_inv _ _ (gp_live _ _ _ P)))) as GLl. destruct (gl_leaf _ _ GLl n Hn Hi) as (_ & _ & _ & U & _ & Nx). destruct (Nx a Na) as (Ha & _).
    assert (Lk : linked s g n) by (split; [exact Hn|split; [exact Hi|]]; destruct (ul g n) eqn:Q0; [rewrite (gp_al _ _ _ P n) in U; discriminate (U eq_refl)|reflexivity]).
    destruct (gl_link _ _ GLl n Lk) as (_ & L1 & L2 & _). rewrite Na in L2. cbn [nlo] in L2.
    assert (LT : (after s a < after s n)%nat) by (apply filter_lt; [intros x _ Hx; apply Z.ltb_lt in Hx; apply Z.ltb_lt; lia|exists a; split; [apply in_seq; lia|split; [apply Z.ltb_lt; lia|apply Z.ltb_irrefl]]]).
    apply (rd s t k Go (PNext y o a) O); [unfold step; rewrite E, D, Na, Lo; reflexivity|exact Logic.I|reflexivity|]. intros O1 E1.
    apply (rd _ t k Go (PWalk y o a (ver (nd s a))) O1); [unfold step; rewrite E1; cbn [go nd]; rewrite (ok_dirty s k a O Ha); reflexivity|exact Logic.I|reflexivity|]. intros O2 E2.
    refine (IH _ _ _ _ O2 E2 (fun _ => same_now s a)). change (after _ a) with (after s a). lia.
  Qed.
  Lemma e_walk_cur s y o n v : Ok s k -> pcs s t = PWalk y o n v -> same s n v = true -> Ends s t.
  Proof. intros O E S1. refine (e_walk true y o _ _ s n v (Nat.lt_succ_diag_r _) O E (fun _ => S1)). intros s1 n1 v1 O1 E1 H1. exact (e_leaf_cur _ _ _ _ _ O1 E1 (H1 eq_refl)). Qed.
  Lemma e_adv s y o n v : Ok s k -> pcs s t = PAdv y o n v -> Ends s t.
  Proof.
    intros O E. destruct (ok_ji s k t O) as (g & b & P & J). rewrite E in J. cbn [JI] in J. destruct J as (_ & ((Hn & _) & _) & _). pose proof (ok_dirty s k n O Hn) as D. destruct (v_hassplit v (ver (nd s n))) eqn:H.
    - apply (rd s t k Go (PLLast y o n (ver (nd s n)) (ver (nd s n))) O); [unfold step; rewrite E, D, H; reflexivity|exact Logic.I|reflexivity|]. intros O1 E1.
      eapply (rd _ t k (Cmp 0 false) (PLLastC y o n (ver (nd s n)) (ver (nd s n)) _) O1); [unfold step; rewrite E1; reflexivity|exact Logic.I|reflexivity|]. intros O2 E2. match type of E2 with _ = PLLastC _ _ _ _ _ ?z => destruct z end.
      + match type of E2 with pcs ?z t = _ => set (s2 := z) in * end. apply (rd s2 t k Go (PWalk y o n (ver (nd s n))) O2); [unfold step; rewrite E2; change (same s2 n ?z) with (same s n z); rewrite same_now; reflexivity|exact Logic.I|reflexivity|]. intros O3 E3. exact (e_walk_cur _ _ _ _ _ O3 E3 (same_now s n)).
      + match type of E2 with pcs ?z t = _ => set (s2 := z) in * end. apply (rd s2 t k Go (PLeaf y o n (ver (nd s n))) O2); [unfold step; rewrite E2; change (same s2 n ?z) with (same s n z); rewrite same_now; reflexivity|exact Logic.I|reflexivity|]. intros O3 E3. exact (e_leaf_cur _ _ _ _ _ O3 E3 (same_now s n)).
    - apply (rd s t k Go (PLeaf y o n (ver (nd s n))) O); [unfold step; rewrite E, D, H; reflexivity|exact Logic.I|reflexivity|]. intros O1 E1. exact (e_leaf_cur _ _ _ _ _ O1 E1 (same_now s n)).
  Qed.
  Lemma e_read s y o n v r : Ok s k -> pcs s t = PRead y o n v r -> Ends s t.
  Proof.
    intros O E. destruct (same s n v) eqn:S1; [exact (e_read_cur _ _ _ _ _ _ O E S1)|].
    assert (PUT : o <> OGet -> Ends s t).
    { intros Ho. assert (ST : step s t Go = Some (go (vput s n (v_lock (ver (nd s n)))) t (PLocked y o n v))) by (unfold step; rewrite E, (ok_lk s k n O); destruct o; [congruence|reflexivity|reflexivity]).
      apply (Ends_step _ _ _ _ ST Logic.I). set (s1 := go _ t _) in *. pose proof (gp_step _ _ _ _ (ok_gp _ _ O) (Logic.I : plain Go) ST) as G1. pose proof (quiet_step _ _ _ _ _ ST (Logic.I : plain Go) (ok_q _ _ O)) as Q1.
      assert (S2 : same s1 n v = false) by (unfold same, s1; cbn [go vput put nd]; unfold setf; rewrite Nat.eqb_refl; cbn [with_ver ver]; exact S1).
      assert (E1 : pcs s1 t = PLocked y o n v) by apply gone. assert (ST2 : step s1 t Go = Some (go (unlock s1 n) t (PAdv y o n v))) by (unfold step; rewrite E1, S2; reflexivity).
      apply (Ends_step _ _ _ _ ST2 Logic.I). apply (e_adv _ y o n v); [|apply gone]. constructor; [exact (gp_step _ _ _ _ G1 (Logic.I : plain Go) ST2)|exact (quiet_step _ _ _ _ _ ST2 (Logic.I : plain Go) Q1)|].
      intros t0. destruct (Nat.eq_dec t0 t) as [->|N]; [rewrite gone; reflexivity|]. rewrite (other _ _ _ _ ST2 t0 N), (other _ _ _ _ ST t0 N). apply (ok_f _ _ O). }
    destruct o as [|w|]; [|apply PUT; discriminate|apply PUT; discriminate]. apply (rd s t k Go (PAdv y OGet n v) O); [unfold step; rewrite E, S1; reflexivity|exact Logic.I|reflexivity|]. intros O1 E1. exact (e_adv _ _ _ _ _ O1 E1).
  Qed.
  Lemma e_leaf s y o n v : Ok s k -> pcs s t = PLeaf y o n v -> Ends s t.
  Proof.
    intros O E. destruct (v_del v) eqn:D.
    - apply (rd s t k (JunkRow None) (PRoot y o (rootp s)) O); [unfold step; rewrite E, D; reflexivity|exact Logic.I|reflexivity|]. intros O1 E1. exact (e_root _ _ _ _ O1 E1).
    - eapply (rd s t k (JunkRow None) (PRead y o n v _) O); [unfold step; rewrite E, D; reflexivity|exact Logic.I|reflexivity|]. intros O1 E1. exact (e_read _ _ _ _ _ _ O1 E1).
  Qed.
  Lemma e_walk_any s y o n v : Ok s k -> pcs s t = PWalk y o n v -> Ends s t.
  Proof. intros O E. refine (e_walk false y o _ _ s n v (Nat.lt_succ_diag_r _) O E _); [intros s1 n1 v1 O1 E1 _; exact (e_leaf _ _ _ _ _ O1 E1)|discriminate]. Qed.
  Lemma e_next s y o n : Ok s k -> pcs s t = PNext y o n -> Ends s t.
  Proof.
    intros O E. destruct (ok_ji s k t O) as (g & b & P & J). rewrite E in J. cbn [JI] in J. destruct J as (_ & Hn & _).
    eapply (rd s t k Go (PWalk y o n _) O); [unfold step; rewrite E, (ok_dirty s k n O Hn); reflexivity|exact Logic.I|reflexivity|]. intros O1 E1. exact (e_walk_any _ _ _ _ _ O1 E1).
  Qed.
  Lemma e_llastc_cur s y o n v vi gt : Ok s k -> pcs s t = PLLastC y o n v vi gt -> same s n vi = true -> Ends s t.
  Proof.
    intros O E S1. destruct gt.
    - apply (rd s t k Go (PWalk y o n v) O); [unfold step; rewrite E, S1; reflexivity|exact Logic.I|reflexivity|]. intros O1 E1. exact (e_walk_any _ _ _ _ _ O1 E1).
    - apply (rd s t k Go (PLeaf y o n v) O); [unfold step; rewrite E, S1; reflexivity|exact Logic.I|reflexivity|]. intros O1 E1. exact (e_leaf _ _ _ _ _ O1 E1).
  Qed.
  Lemma e_llastc s y o n v vi gt : Ok s k -> pcs s t = PLLastC y o n v vi gt -> Ends s t.
  Proof.
    intros O E. destruct (same s n vi) eqn:S1; [exact (e_llastc_cur _ _ _ _ _ _ _ O E S1)|]. destruct (ok_ji s k t O) as (g & b & P & J). rewrite E in J. cbn [JI] in J. destruct J as (_ & (Hn & _) & _).
    apply (rd s t k Go (PLLast y o n v (ver (nd s n))) O); [unfold step; rewrite E, S1, (ok_dirty s k n O Hn); reflexivity|exact Logic.I|reflexivity|]. intros O1 E1.
    eapply (rd _ t k (Cmp 0 false) (PLLastC y o n v (ver (nd s n)) _) O1); [unfold step; rewrite E1; reflexivity|exact Logic.I|reflexivity|]. intros O2 E2. exact (e_llastc_cur _ _ _ _ _ _ _ O2 E2 (same_now s n)).
  Qed.
  Lemma e_llast s y o n v vi : Ok s k -> pcs s t = PLLast y o n v vi -> Ends s t.
  Proof. intros O E. eapply (rd s t k (Cmp 0 false) (PLLastC y o n v vi _) O); [unfold step; rewrite E; reflexivity|exact Logic.I|reflexivity|]. intros O1 E1. exact (e_llastc _ _ _ _ _ _ _ O1 E1). Qed.

  (* reach_leaf from anywhere *)
  Lemma e_in s y o n v l u : Ok s k -> pcs s t = PIn y o n v l u -> Ends s t.
  Proof.
    intros O E. destruct (same s n v) eqn:S1; [exact (e_in_cur _ _ _ _ _ _ _ _ (Nat.lt_succ_diag_r _) O E S1)|].
    apply (rd s t k (Kid None) (PRoot y o (rootp s)) O); [unfold step; rewrite E, S1; reflexivity|exact Logic.I|reflexivity|]. intros O1 E1. exact (e_root _ _ _ _ O1 E1).
  Qed.
  Lemma e_lastc_cur s y o n v vi gt : Ok s k -> pcs s t = PLastC y o n v vi gt -> same s n vi = true -> Ends s t.
  Proof.
    intros O E S1. destruct gt.
    - apply (rd s t k Go (PRoot y o (rootp s)) O); [unfold step; rewrite E, S1; reflexivity|exact Logic.I|reflexivity|]. intros O1 E1. exact (e_root _ _ _ _ O1 E1).
    - apply (rd s t k Go (PIn y o n v 0 None) O); [unfold step; rewrite E, S1; reflexivity|exact Logic.I|reflexivity|]. intros O1 E1. exact (e_in _ _ _ _ _ _ _ O1 E1).
  Qed.
  Lemma e_lastc s y o n v vi gt : Ok s k -> pcs s t = PLastC y o n v vi gt -> Ends s t.
  Proof.
    intros O E. destruct (same s n vi) eqn:S1; [exact (e_lastc_cur _ _ _ _ _ _ _ O E S1)|]. destruct (ok_ji s k t O) as (g & b & P & J). rewrite E in J. cbn [JI] in J. destruct J as (_ & (Hn & _) & _).
    apply (rd s t k Go (PLast y o n v (ver (nd s n))) O); [unfold step; rewrite E, S1, (ok_dirty s k n O Hn); reflexivity|exact Logic.I|reflexivity|]. intros O1 E1.
    eapply (rd _ t k (Cmp 0 false) (PLastC y o n v (ver (nd s n)) _) O1); [unfold step; rewrite E1; reflexivity|exact Logic.I|reflexivity|]. intros O2 E2. exact (e_lastc_cur _ _ _ _ _ _ _ O2 E2 (same_now s n)).
  Qed.
  Lemma e_last s y o n v vi : Ok s k -> pcs s t = PLast y o n v vi -> Ends s t.
  Proof. intros O E. eapply (rd s t k (Cmp 0 false) (PLastC y o n v vi _) O); [unfold step; rewrite E; reflexivity|exact Logic.I|reflexivity|]. intros O1 E1. exact (e_lastc _ _ _ _ _ _ _ O1 E1). Qed.
  Lemma e_re s y o n v : Ok s k -> pcs s t = PRe y o n v -> Ends s t.
  Proof.
    intros O E. destruct (ok_ji s k t O) as (g & b & P & J). rewrite E in J. cbn [JI] in J. destruct J as (_ & ((Hn & _) & _) & _). pose proof (ok_dirty s k n O Hn) as D. destruct (v_hassplit v (ver (nd s n))) eqn:H.
    - apply (rd s t k Go (PLast y o n (ver (nd s n)) (ver (nd s n))) O); [unfold step; rewrite E, D, H; reflexivity|exact Logic.I|reflexivity|]. intros O1 E1. exact (e_last _ _ _ _ _ _ O1 E1).
    - apply (rd s t k Go (PIn y o n (ver (nd s n)) 0 None) O); [unfold step; rewrite E, D, H; reflexivity|exact Logic.I|reflexivity|]. intros O1 E1. exact (e_in _ _ _ _ _ _ _ O1 E1).
  Qed.
  Lemma e_chk s y o n v c vc : Ok s k -> pcs s t = PChk y o n v c vc -> Ends s t.
  Proof.
    intros O E. destruct (same s n v) eqn:S1.
    - apply (rd s t k Go (enter s y o c vc) O); [unfold step; rewrite E, S1; reflexivity|exact Logic.I|apply free_enter|]. intros O1 E1. match type of E1 with pcs ?z t = _ => set (s1 := z) in * end. clearbody s1. unfold enter in E1. destruct (isl (nd s c)); [exact (e_leaf _ _ _ _ _ O1 E1)|exact (e_in _ _ _ _ _ _ _ O1 E1)].
    - apply (rd s t k Go (PRe y o n v) O); [unfold step; rewrite E, S1; reflexivity|exact Logic.I|reflexivity|]. intros O1 E1. exact (e_re _ _ _ _ _ O1 E1).
  Qed.
  Lemma e_kid s y o n v c : Ok s k -> pcs s t = PKid y o n v c -> Ends s t.
  Proof.
    intros O E. destruct (ok_ji s k t O) as (g & b & P & J). rewrite E in J. cbn [JI] in J. destruct J as (_ & _ & _ & Hc & _).
    apply (rd s t k Go (PChk y o n v c (ver (nd s c))) O); [unfold step; rewrite E, (ok_dirty s k c O Hc); reflexivity|exact Logic.I|reflexivity|]. intros O1 E1. exact (e_chk _ _ _ _ _ _ _ O1 E1).
  Qed.
  Lemma e_any s : Ok s k -> Ends s t.
  Proof.
    intros O. destruct (pcs s t) eqn:E; try (apply (e_past s t k (ok_gp _ _ O) (ok_q _ _ O)); rewrite E; exact Logic.I).
    - exact (e_root _ _ _ _ O E). - exact (e_up _ _ _ _ O E). - exact (e_in _ _ _ _ _ _ _ O E). - exact (e_kid _ _ _ _ _ _ O E). - exact (e_chk _ _ _ _ _ _ _ O E). - exact (e_re _ _ _ _ _ O E). - exact (e_last _ _ _ _ _ _ O E).
    - exact (e_lastc _ _ _ _ _ _ _ O E). - exact (e_leaf _ _ _ _ _ O E). - exact (e_read _ _ _ _ _ _ O E). - pose proof (ok_f _ _ O t) as F. rewrite E in F. discriminate F. - exact (e_adv _ _ _ _ _ O E). - exact (e_llast _ _ _ _ _ _ O E).
    - exact (e_llastc _ _ _ _ _ _ _ O E). - exact (e_walk_any _ _ _ _ _ O E). - exact (e_next _ _ _ _ O E).
  Qed.
End T.

Definition pendb (p : pct) : bool := match p with Idle => false | _ => true end.
Lemma pendb_idle p : pendb p = false <-> p = Idle. Proof. destruct p; split; try discriminate; reflexivity. Qed.
Lemma all_idle s k : gp s -> quiet s k -> exists s', Q s s' /\ gp s' /\ forall t, pcs s' t = Idle.
Proof.
  remember (count pendb s k) as c eqn:Ec. revert s Ec. induction c as [c IH] using lt_wf_ind. intros s Ec G K.
  destruct (find (fun t => pendb (pcs s t)) (seq 0 k)) as [t|] eqn:Fd.
  - apply find_some in Fd. destruct Fd as (Ht & Hh). apply in_seq in Ht. destruct (all_free s k G K) as (s1 & A1 & B1 & C1 & D1). destruct (e_any t k s1 (Build_Ok _ _ B1 C1 D1)) as (s2 & A2 & B2 & C2).
    pose proof (Q_trans _ _ _ A1 A2) as A. assert (LT : (count pendb s2 k < c)%nat).
    { rewrite Ec. apply (count_lt pendb s s2 k t ltac:(lia)); [|exact Hh|now apply pendb_idle]. intros t0 H0. destruct (pendb (pcs s t0)) eqn:Q0; [reflexivity|]. apply pendb_idle in Q0. apply (Q_idle _ _ A) in Q0. apply pendb_idle in Q0. congruence. }
    destruct (IH _ LT s2 eq_refl B2 (Q_quiet _ _ _ A K)) as (s3 & A3 & R). exists s3. split; [exact (Q_trans _ _ _ A A3)|exact R].
  - exists s. split; [apply Q_refl|]. split; [exact G|]. intros t. destruct (Nat.lt_ge_cases t k) as [O|O]; [|exact (K t O)]. apply pendb_idle. exact (find_none _ _ Fd t ltac:(apply in_seq; lia)).
Qed.
