(* Scans beside other operations: what steps do to rows and to the links between leaves. *)
From Verif Require Import Lib M_Tree M_Stampc P_Stampc1 M_Conc Spec_Conc P_Conc1 P_Conc2 P_Conc3 P_Conc4 P_Conc14 P_Conc15 P_Conc16 P_Conc16b P_Conc17 P_Conc18 P_Conc19.

(* ---- fields no internode work touches ---- *)
Definition fld (n : cnode) := (rws n, nxt n, prv n, lo n, isl n).
Definition quietf (s s' : cst) : Prop := (fr s <= fr s')%nat /\ (forall a, (a < fr s)%nat -> fld (nd s' a) = fld (nd s a)) /\
  (forall a, (fr s <= a < fr s')%nat -> isl (nd s' a) = false).
Lemma qf_refl s : quietf s s. Proof. repeat split; auto. intros; lia. Qed.
Lemma qf_eq s s1 s2 : quietf s s1 -> nd s2 = nd s1 -> fr s2 = fr s1 -> quietf s s2.
Proof. intros (A & B & C) E1 E2. split; [lia|]. split; intros a Ha; rewrite E1; auto. apply C. lia. Qed.
Lemma qf_go s s1 t p : quietf s s1 -> quietf s (go s1 t p). Proof. intros H. now apply (qf_eq s s1). Qed.
Lemma qf_misp s s1 b : quietf s s1 -> quietf s (misplace s1 b). Proof. intros H. now apply (qf_eq s s1). Qed.
Lemma qf_put s s1 a x : quietf s s1 -> fld x = fld (nd s1 a) -> quietf s (put s1 a x).
Proof.
  intros (A & B & C) E. split; [exact A|]. split; intros z Hz; cbn [put nd]; unfold setf; destruct (Nat.eqb_spec z a) as [->|N]; auto; [rewrite E; auto|].
  replace (isl x) with (isl (nd s1 a)) by (unfold fld in E; congruence). auto.
Qed.
Lemma qf_vput s s1 a v : quietf s s1 -> quietf s (vput s1 a v). Proof. intros H. unfold vput. apply qf_put; auto. Qed.
Lemma qf_unlock s s1 a : quietf s s1 -> quietf s (unlock s1 a). Proof. apply qf_vput. Qed.
Lemma qf_par s s1 a o : quietf s s1 -> quietf s (setpar s1 a o). Proof. intros H. unfold setpar. apply qf_put; auto. Qed.
Lemma qf_pars s q : forall l s1, quietf s s1 -> quietf s (setpars s1 l q).
Proof. induction l as [|[c|] l IH]; intros s1 H; cbn [setpars]; auto. apply IH, qf_par, H. Qed.
Lemma qf_new s s1 a x : quietf s s1 -> (fr s <= a)%nat -> fr s1 = a -> isl x = false -> quietf s (put (grow s1) a x).
Proof.
  intros (A & B & C) E Q1 Q2. split; [cbn; lia|]. split; intros z Hz; cbn [put grow nd fr] in *; unfold setf; destruct (Nat.eqb_spec z a) as [->|N]; auto; [lia|]. apply C. lia.
Qed.
Lemma qf_if s (b : bool) s1 s2 : quietf s s1 -> quietf s s2 -> quietf s (if b then s1 else s2). Proof. now destruct b. Qed.
Lemma qf_root s t y w tg n c sk h st : quietf s (new_root s t y w tg n c sk h st).
Proof. unfold new_root. cbv zeta. apply qf_go, qf_par, qf_par, qf_new; [apply qf_refl|lia|reflexivity|reflexivity]. Qed.
Lemma qf_in s t y w tg n c sk h st q : quietf s (in_parent s t y w tg n c sk h st q).
Proof.
  unfold in_parent. cbv zeta. assert (C0 : forall z, quietf s (misplace (vput s q (v_mins (ver (nd s q)))) z)) by (intros z; apply qf_misp, qf_vput, qf_refl).
  destruct (S h <? ht (nd s q))%nat; [|destruct (length (keys (nd s q)) <? W)%nat].
  - apply qf_go, qf_par, qf_par, qf_put; [|reflexivity]. apply qf_new; [apply C0|lia|reflexivity|reflexivity].
  - apply qf_go, qf_par, qf_put; [apply C0|reflexivity].
  - apply qf_go, qf_pars. apply qf_new; [|lia|reflexivity|reflexivity]. apply qf_put; [apply qf_par, C0|reflexivity].
Qed.
Lemma qf_out s t y r n ik rep p : quietf s (out_parent s t y r n ik rep p).
Proof.
  unfold out_parent. cbv zeta. destruct (match rep with Some _ => _ | None => _ end) as [ks cs]. apply qf_go.
  assert (C : quietf s (put (misplace (vput s p (v_mins (ver (nd s p)))) (negb (is_at n (upper ik (keys (nd s p))) (kids (nd s p))))) p
    (with_kk (nd (misplace (vput s p (v_mins (ver (nd s p)))) (negb (is_at n (upper ik (keys (nd s p))) (kids (nd s p))))) p) ks cs))).
  { apply qf_put; [apply qf_misp, qf_vput, qf_refl|reflexivity]. }
  destruct rep; [now apply qf_par|exact C].
Qed.

(* What a step can do to rows and links. *)
Inductive change (s : cst) (t : nat) (s' : cst) : Prop :=
| ch_quiet : quietf s s' -> change s t s'
| ch_rows n rs z p' v : (n < fr s)%nat -> In n (holds (pcs s t)) -> s' = go (put s n (with_ver (with_rows (nd s n) rs z) v)) t p' ->
    (forall y w, row_get y rs = Some w -> row_get y (rws (nd s n)) = Some w \/ exists o, pcs s t = WHave y o n \/ pcs s t = WReady y w n) -> change s t s'
| ch_split y w n : pcs s t = WHave y (OPut w) n -> s' = leaf_split s t y w n -> change s t s'
| ch_unlink y r n : pcs s t = DUnlink y r n -> step s t Go = Some s' -> change s t s'.

Lemma row_filter (P : Z -> bool) y w : forall l, row_get y (filter (fun r => P (fst r)) l) = Some w -> row_get y l = Some w.
Proof.
  induction l as [|[k x] l IH]; cbn [filter fst]; [discriminate|]. destruct (P k) eqn:E; cbn [row_get].
  - destruct (Z.eqb_spec k y); auto.
  - destruct (Z.eqb_spec k y) as [->|]; auto. intros H. exfalso. clear IH. induction l as [|[k x'] l IH]; cbn [filter fst] in H; [discriminate|].
    destruct (P k) eqn:E2; cbn [row_get] in H; auto. destruct (Z.eqb_spec k y) as [->|]; [congruence|auto].
Qed.
Lemma with_ver_id n : with_ver n (ver n) = n. Proof. now destruct n. Qed.
Lemma step_change s g t x s' : Inv s g -> step s t x = Some s' -> change s t s'.
Proof.
  intros (G & L & K & JA) ST. pose proof ST as ST0. pose proof (JA t) as J. assert (HF : forall a, In a (holds (pcs s t)) -> (a < fr s)%nat) by (intros a Ha; apply (proj1 L t a Ha)).
  revert ST. unfold step.
  destruct (pcs s t) as [|y o n|y o n|y o n v l u|y o n v c|y o n v c vc|y o n v|y o n v vi|y o n v vi gt|y o n v|y o n v r|y o n v|y o n v|y o n v vi|y o n v vi gt|y o n v|y o n
      |y o r|y o n|y o n r|y w tg n c sk h st|y w tg n c sk h st q|y w tg n c sk st q nc|y w tg n c h st q nc|y w tg c h st q nc|y w tg h st q nc|y w tg|y r n|y r n|y r n ik rep|y r n ik rep p|y r n p cur ik rik
      |y r n p cur p2 ik rik|y r n p cur p2 ik rik|y r n p p2 rik|y r n p ik|y r p ik|] eqn:E; intros ST; cbn [holds] in HF.
  19: { destruct o as [|w|]; [destruct x; discriminate ST| |]; destruct x; try discriminate ST.
    - injection ST as <-. apply ch_quiet, qf_vput, qf_refl.
    - destruct (_ && _); [discriminate ST|]. injection ST as <-. eapply (ch_rows s t _ n _ _ _ (ver (nd s n))); [apply HF; now left|rewrite E; now left|rewrite <- (with_ver_id (with_rows _ _ _)); reflexivity|].
      intros y0 w0. rewrite row_get_set. destruct (Z.eqb_spec y y0) as [->|]; [|auto]. intros _. right. exists (OPut w). left. exact E.
    - destruct (_ && _); [|discriminate ST]. injection ST as <-. now apply (ch_split s t _ y w n).
    - destruct (row_get y (rws (nd s n))) as [old|]; injection ST as <-; [|apply ch_quiet, qf_go, qf_refl].
      eapply (ch_rows s t _ n _ _ _ (ver (nd s n))); [apply HF; now left|rewrite E; now left|rewrite <- (with_ver_id (with_rows _ _ _)); reflexivity|].
      intros y0 w0 H. left. exact (row_filter (fun k => negb (k =? y)) y0 w0 _ H).
    - injection ST as <-. apply ch_quiet, qf_vput, qf_refl. }
  26: { destruct x; try discriminate ST; injection ST as <-; [|apply ch_quiet; now apply (qf_eq s s); [apply qf_refl|..]].
    eapply (ch_rows s t _ tg _ _ _ (ver (nd s tg))); [apply HF; now left|rewrite E; now left|rewrite <- (with_ver_id (with_rows _ _ _)); reflexivity|].
    intros y0 w0. rewrite row_get_set. destruct (Z.eqb_spec y y0) as [->|]; [|auto]. intros [= <-]. right. exists OGet. now right. }
  22: { destruct x; try discriminate ST. injection ST as <-. eapply (ch_rows s t _ n); [apply HF; right; now left|rewrite E; right; now left|reflexivity|].
    intros y0 w0 H. left. exact (row_filter (fun k => k <? sk) y0 w0 _ H). }
  26: { destruct x; try discriminate ST. now apply (ch_unlink s t s' y r n). }
  all: clear J HF ST0; apply ch_quiet.
  all: destruct x; try discriminate ST; try (destruct o; discriminate ST).
  all: repeat match type of ST with (if ?b then _ else _) = _ => destruct b; try discriminate ST | (match ?b with Some _ => _ | None => _ end) = _ => destruct b; try discriminate ST
      | (match ?o with OGet => _ | OPut _ => _ | ORem => _ end) = _ => destruct o; try discriminate ST | (let (_, _) := ?b in _) = _ => destruct b end; try (injection ST as <-).
  all: try apply qf_refl; try (apply qf_go, qf_refl); try (apply qf_go, qf_vput, qf_refl); try (apply qf_go, qf_if; [apply qf_refl|apply qf_unlock, qf_refl]).
  all: try apply qf_root; try apply qf_in; try apply qf_out; try (now apply qf_eq with (s1 := s); [apply qf_refl|..]).
  - destruct (par (nd s (rootp s))); [now apply qf_eq with (s1 := s); [apply qf_refl|..]|apply qf_refl].
  - destruct (same s n v); [apply qf_go, qf_refl|apply qf_go, qf_vput, qf_refl].
  - apply qf_go, qf_if; [apply qf_misp, qf_refl|]. apply qf_put; auto. apply qf_misp, qf_refl.
  - apply qf_go, qf_put; auto using qf_refl.
Qed.

Section Ch.
  Variables (s : cst) (g : gst) (t : nat) (x : choice) (s' : cst) (g' : gst).
  Hypothesis I : Inv s g.
  Hypothesis I' : Inv s' g'.
  Hypothesis ST : step s t x = Some s'.
  Hypothesis R : Rel s g s' g'.
  Hypothesis F : Frame s g s' g' t.
  Let G := proj1 I.
  Let GB := gi_l _ _ G.
  Let G' := proj1 I'.
  Let GB' := gi_l _ _ G'.
  Let JA := proj2 (proj2 (proj2 I)).

  (* A row a step adds to a leaf is one the leaf is responsible for. *)
  Lemma rows_new a y w : (a < fr s)%nat -> isl (nd s a) = true -> row_get y (rws (nd s' a)) = Some w -> row_get y (rws (nd s a)) = Some w \/ lo (nd s a) <= y < hh g a.
  Proof.
    intros Ha Hi H. pose proof (JA t) as J. destruct (step_change s g t x s' I ST) as [(_ & Q & _)|n rs z p' v Hn Hh E Q|y0 w0 n E0 E|y0 r n E0 E].
    - left. specialize (Q a Ha). unfold fld in Q. congruence.
    - subst s'. cbn [go put nd] in H. unfold setf in H. destruct (Nat.eqb_spec a n) as [->|N]; [|auto]. cbn [with_ver with_rows rws] in H.
      destruct (Q y w H) as [Q1|(o & [Q1|Q1])]; [auto| |]; rewrite Q1 in J; cbn [JI] in J; right; [destruct J as (_ & _ & _ & J & _)|destruct J as (_ & _ & J & _)]; exact J.
    - left. rewrite E in H. unfold leaf_split in H. cbv zeta in H. set (sk := split_key _ _ _ _) in H. clearbody sk. destruct (nxt (nd s n)) as [b|]; cbn [go put grow nd] in H; unfold setf in H;
        repeat match type of H with context[(?u =? ?v)%nat] => destruct (Nat.eqb_spec u v); subst; cbn [with_nxt with_prv rws] in H end; try lia; auto.
    - left. revert E. unfold step. rewrite E0. intros [= E]. rewrite <- E in H. destruct (prv (nd s n)) as [p|], (nxt (nd s n)) as [b|]; cbn [go put grow nd] in H; unfold setf in H;
        repeat match type of H with context[(?u =? ?v)%nat] => destruct (Nat.eqb_spec u v); subst; cbn [with_nxt with_prv rws] in H end; auto.
  Qed.

  (* A leaf just split: the new leaf is linked after it. *)
  Lemma split_link y w n : pcs s t = WHave y (OPut w) n -> s' = leaf_split s t y w n ->
    linked s' g' n /\ linked s' g' (fr s) /\ nxt (nd s' n) = Some (fr s) /\ nxt (nd s' (fr s)) = nxt (nd s n) /\ (n < fr s)%nat.
  Proof.
    intros E0 E. pose proof (JA t) as J. rewrite E0 in J. cbn [JI] in J. destruct J as (_ & _ & (Ln & Hy & Hd)). destruct Ln as (L1 & L2 & L3).
    destruct (gl_link _ _ GB n (conj L1 (conj L2 L3))) as (_ & K2 & K3 & K4 & _).
    assert (Nb : forall b, nxt (nd s n) = Some b -> b <> n /\ (b < fr s)%nat).
    { intros b Qb. destruct (K4 b Qb) as ((Q5 & _) & _). split; [|exact Q5]. intros ->. rewrite Qb in K3. cbn in K3. lia. }
    assert (A : nd s' n = with_nxt (nd s n) (Some (fr s)) /\ isl (nd s' (fr s)) = true /\ nxt (nd s' (fr s)) = nxt (nd s n) /\ fr s' = S (fr s)).
    { rewrite E. unfold leaf_split. cbv zeta. set (sk := split_key _ _ _ _). clearbody sk. destruct (nxt (nd s n)) as [b|] eqn:Qb; cbn [go put grow nd fr]; unfold setf.
      - destruct (Nb b eq_refl) as (Nb1 & Nb2).
        repeat match goal with |- context[(?u =? ?v)%nat] => destruct (Nat.eqb_spec u v); subst; try lia; try congruence end. repeat split.
      - repeat match goal with |- context[(?u =? ?v)%nat] => destruct (Nat.eqb_spec u v); subst; try lia; try congruence end. repeat split. }
    destruct A as (A1 & A2 & A3 & A4). assert (Ln' : linked s' g' n).
    { split; [lia|]. rewrite A1. split; [exact L2|]. destruct (ul g' n) eqn:U; [|reflexivity]. destruct (gl_leaf _ _ GB' n) as (_ & _ & _ & Q & _); [lia|rewrite A1; exact L2|]. specialize (Q U). rewrite A1 in Q. cbn in Q. congruence. }
    split; [exact Ln'|]. destruct (gl_link _ _ GB' n Ln') as (_ & _ & _ & Q4 & _). rewrite A1 in Q4. destruct (Q4 _ eq_refl) as (Q5 & _). split; [exact Q5|]. rewrite A1. auto.
  Qed.

  (* The keys up to the next leaf: what is added was absent. *)
  Lemma nxt_step a y : (a < fr s)%nat -> isl (nd s a) = true -> nlo s (nxt (nd s a)) <= y < nlo s' (nxt (nd s' a)) -> entry s y None.
  Proof.
    intros Ha Hi. assert (SAME : nxt (nd s' a) = nxt (nd s a) -> nlo s (nxt (nd s a)) <= y < nlo s' (nxt (nd s' a)) -> entry s y None).
    { intros E H. exfalso. rewrite E in H. destruct (nxt (nd s a)) as [b|] eqn:Q; cbn [nlo] in H; [|lia]. destruct (gl_leaf _ _ GB a Ha Hi) as (_ & _ & _ & _ & _ & K). destruct (K b Q) as (Kb & _).
      rewrite (fm_lo _ _ _ _ _ F b Kb) in H. lia. }
    destruct (step_change s g t x s' I ST) as [(_ & Q & _)|n rs z p' v Hn Hh E Q|y0 w0 n E0 E|y0 r n E0 E].
    - apply SAME. specialize (Q a Ha). unfold fld in Q. congruence.
    - apply SAME. rewrite E. cbn [go put nd]. unfold setf. now destruct (Nat.eqb_spec a n) as [->|N].
    - destruct (split_link y0 w0 n E0 E) as (Ln & Lc & E1 & E2 & Hn). destruct (Nat.eq_dec a n) as [->|N].
      + rewrite E1. cbn [nlo]. intros H. exfalso. destruct (gl_link _ _ GB' _ Lc) as (_ & K2 & K3 & _). rewrite E2 in K3. destruct (nxt (nd s n)) as [b|] eqn:Q; cbn [nlo] in *.
        * destruct (gl_leaf _ _ GB n Ha Hi) as (_ & _ & _ & _ & _ & K). destruct (K b Q) as (Kb & _). rewrite (fm_lo _ _ _ _ _ F b Kb) in K3. lia.
        * destruct (gl_leaf _ _ GB' (fr s) (proj1 Lc) (proj1 (proj2 Lc))) as (_ & _ & K & _). lia.
      + apply SAME. rewrite E. unfold leaf_split. cbv zeta. set (sk := split_key _ _ _ _). clearbody sk. destruct (nxt (nd s n)) as [b|]; cbn [go put grow nd]; unfold setf;
          repeat match goal with |- context[(?u =? ?v)%nat] => destruct (Nat.eqb_spec u v); subst; cbn [with_nxt with_prv nxt] end; try lia; try congruence; reflexivity.
    - pose proof (JA t) as J. rewrite E0 in J. cbn [JI] in J. destruct J as (Ln & Hl & Hd). destruct (gl_leaf _ _ GB n (proj1 Ln) (proj1 (proj2 Ln))) as (_ & _ & _ & _ & K5 & _). specialize (K5 Hd).
      destruct (gl_link _ _ GB n Ln) as (K1 & K2 & K3 & K4 & KP & _).
      revert E. unfold step. rewrite E0. intros [= E]. destruct (prv (nd s n)) as [p|] eqn:P.
      + destruct (KP p eq_refl) as (Lp & Np). destruct (Nat.eq_dec a p) as [->|N].
        * intros H. assert (Ea : nxt (nd s' p) = nxt (nd s n)).
          { rewrite <- E. destruct (nxt (nd s n)) as [b|]; cbn [go put nd]; unfold setf; repeat match goal with |- context[(?u =? ?v)%nat] => destruct (Nat.eqb_spec u v); subst; cbn [with_nxt with_prv nxt] end; try congruence; reflexivity. }
          rewrite Ea, Np in H. cbn [nlo] in H. assert (Eb : nlo s' (nxt (nd s n)) = nlo s (nxt (nd s n))).
          { destruct (nxt (nd s n)) as [b|] eqn:Qb; [|reflexivity]. cbn [nlo]. destruct (K4 b eq_refl) as (Lb & _). exact (fm_lo _ _ _ _ _ F b (proj1 Lb)). }
          rewrite Eb, <- K3 in H. pose proof (entry_hh s g G n y Ln H) as EE. now rewrite K5 in EE.
        * apply SAME. rewrite <- E. destruct (nxt (nd s n)) as [b|]; cbn [go put nd]; unfold setf; repeat match goal with |- context[(?u =? ?v)%nat] => destruct (Nat.eqb_spec u v); subst; cbn [with_nxt with_prv nxt] end; try congruence; reflexivity.
      + apply SAME. rewrite <- E. destruct (nxt (nd s n)) as [b|]; cbn [go put nd]; unfold setf; repeat match goal with |- context[(?u =? ?v)%nat] => destruct (Nat.eqb_spec u v); subst; cbn [with_nxt with_prv nxt] end; try congruence; reflexivity.
  Qed.

End Ch.

(* prev_ leads to smaller keys, even in leaves that have been unlinked. *)
Definition PV1 (s : cst) (a : nat) : Prop :=
  match prv (nd s a) with Some b => (b < fr s)%nat /\ isl (nd s b) = true /\ lo (nd s b) < lo (nd s a) | None => lo (nd s a) = 0 end.
Definition PV (s : cst) : Prop := forall a, (a < fr s)%nat -> isl (nd s a) = true -> PV1 s a.
Lemma PV_linked s g a : GL s g -> linked s g a -> PV1 s a.
Proof.
  intros GB La. destruct (gl_link _ _ GB a La) as (_ & _ & _ & _ & K5 & K6). unfold PV1. destruct (prv (nd s a)) as [b|] eqn:P; [|auto].
  destruct (K5 b eq_refl) as (Lb & Nb). destruct (gl_link _ _ GB b Lb) as (_ & Q2 & Q3 & _). rewrite Nb in Q3. cbn [nlo] in Q3. split; [apply Lb|]. split; [apply Lb|lia].
Qed.
Lemma PV_step s g t x s' g' : Inv s g -> Inv s' g' -> step s t x = Some s' -> Rel s g s' g' -> Frame s g s' g' t -> PV s -> PV s'.
Proof.
  intros I I' ST R F P a Ha Hi. destruct (ul g' a) eqn:U; [|apply (PV_linked s' g' a (gi_l _ _ (proj1 I'))); repeat split; auto].
  pose proof (rl_fr _ _ _ _ R) as Hfr. pose proof (gi_l _ _ (proj1 I)) as GB.
  assert (UP : forall b z, (b < fr s)%nat /\ isl (nd s b) = true /\ lo (nd s b) < z -> (b < fr s')%nat /\ isl (nd s' b) = true /\ lo (nd s' b) < z).
  { intros b z (Q1 & Q2 & Q3). split; [lia|]. rewrite (rl_isl _ _ _ _ R b Q1), (fm_lo _ _ _ _ _ F b Q1). auto. }
  assert (SAME : (a < fr s)%nat -> prv (nd s' a) = prv (nd s a) -> PV1 s' a).
  { intros Hs E. specialize (P a Hs). rewrite (rl_isl _ _ _ _ R a Hs) in Hi. specialize (P Hi). unfold PV1 in *. rewrite E, (fm_lo _ _ _ _ _ F a Hs). destruct (prv (nd s a)) as [b|]; [|exact P]. now apply UP. }
  destruct (step_change s g t x s' I ST) as [(_ & Q & Q2)|n rs z p' v Hn Hh E Q|y0 w0 n E0 E|y0 r n E0 E].
  - destruct (Nat.lt_ge_cases a (fr s)) as [H|H]; [|rewrite (Q2 a) in Hi by lia; discriminate Hi]. apply SAME; [exact H|]. specialize (Q a H). unfold fld in Q. congruence.
  - rewrite E in Ha. cbn in Ha. apply SAME; [exact Ha|]. rewrite E. cbn [go put nd]. unfold setf. now destruct (Nat.eqb_spec a n) as [->|N].
  - destruct (split_link s g t x s' g' I I' ST R F y0 w0 n E0 E) as (Ln & Lc & E1 & E2 & Hn).
    assert (Nc : a <> fr s) by (intros ->; destruct Lc as (_ & _ & Lc); congruence). assert (Ef : fr s' = S (fr s)) by (rewrite E; unfold leaf_split; destruct (nxt (nd s n)); reflexivity).
    assert (Nb : nxt (nd s n) <> Some a). { intros Q. destruct (gl_link _ _ (gi_l _ _ (proj1 I')) _ Lc) as (_ & _ & _ & K & _). rewrite E2 in K. destruct (K a Q) as ((_ & _ & K1) & _). congruence. }
    apply SAME; [lia|]. rewrite E. unfold leaf_split. cbv zeta. set (sk := split_key _ _ _ _). clearbody sk. destruct (nxt (nd s n)) as [b|]; cbn [go put grow nd]; unfold setf;
      repeat match goal with |- context[(?u =? ?v)%nat] => destruct (Nat.eqb_spec u v); subst; cbn [with_nxt with_prv prv] end; try lia; try congruence; reflexivity.
  - pose proof (proj2 (proj2 (proj2 I)) t) as J. rewrite E0 in J. cbn [JI] in J. destruct J as (Ln & Hl & Hd). destruct (gl_link _ _ GB n Ln) as (K1 & K2 & K3 & K4 & KP & K0).
    pose proof (PV_linked s g n GB Ln) as Pn. revert E. unfold step. rewrite E0. intros [= E]. assert (Ef : fr s' = fr s) by (rewrite <- E; destruct (prv (nd s n)), (nxt (nd s n)); reflexivity).
    destruct (prv (nd s n)) as [p|] eqn:Pp; [|now destruct (Hl (K0 eq_refl))]. unfold PV1 in Pn. rewrite Pp in Pn.
    destruct (nxt (nd s n)) as [b|] eqn:Nx.
    + destruct (Nat.eq_dec a b) as [->|N].
      * unfold PV1. assert (Q : prv (nd s' b) = Some p) by (rewrite <- E; cbn [go put nd]; now rewrite setf_same). rewrite Q, (fm_lo _ _ _ _ _ F b ltac:(lia)). cbn [nlo] in K3. apply UP. destruct Pn as (P1 & P2 & P3). repeat split; auto. lia.
      * apply SAME; [lia|]. rewrite <- E. cbn [go put nd]. unfold setf. repeat match goal with |- context[(?u =? ?v)%nat] => destruct (Nat.eqb_spec u v); subst; cbn [with_nxt with_prv prv] end; try congruence; reflexivity.
    + apply SAME; [lia|]. rewrite <- E. cbn [go put nd]. unfold setf. repeat match goal with |- context[(?u =? ?v)%nat] => destruct (Nat.eqb_spec u v); subst; cbn [with_nxt with_prv prv] end; try congruence; reflexivity.
Qed.
Lemma PV_start : PV start.
Proof. intros a Ha Hi. unfold PV1. cbn. reflexivity. Qed.
