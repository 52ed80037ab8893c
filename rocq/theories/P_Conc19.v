(* Concurrent layer: what each step does to the table. *)
From Verif Require Import Lib M_Tree M_Stampc P_Stampc1 M_Conc Spec_Conc P_Conc1 P_Conc2 P_Conc3 P_Conc4 P_Conc14 P_Conc15 P_Conc16 P_Conc16b P_Conc17 P_Conc18.

(* ---- which leaf shows a key ---- *)
Section Home.
  Variables (s : cst) (g : gst).
  Hypothesis G : GI s g.
  Let GB := gi_l _ _ G.
  Lemma home a y w : (a < fr s)%nat -> isl (nd s a) = true -> row_get y (rws (nd s a)) = Some w ->
    exists b, linked s g b /\ lo (nd s b) <= y < hh g b /\ row_get y (rws (nd s b)) = Some w /\ (b = a \/ us g a = Some b).
  Proof.
    intros Hf Hi Hr. destruct (gl_rows _ _ GB a Hf Hi) as (_ & R & _). specialize (R y ltac:(congruence)).
    assert (La : linked s g a).
    { split; [exact Hf|]. split; [exact Hi|]. destruct (ul g a) eqn:U; [|reflexivity]. destruct (gl_leaf _ _ GB a Hf Hi) as (_ & _ & _ & Q1 & Q2 & _). rewrite (Q2 (Q1 U)) in Hr. discriminate. }
    unfold rh in R. destruct (us g a) as [c|] eqn:U; [|exists a; auto 6].
    destruct (gl_us _ _ GB a c U) as (_ & Lc & Q1 & _ & _ & Q2). destruct (gl_link _ _ GB c Lc) as (Q3 & _).
    destruct (Z_lt_le_dec y (hh g a)) as [H|H]; [exists a; split; [exact La|]; split; [lia|]; auto|].
    exists c. split; [exact Lc|]. split; [lia|]. split; [rewrite <- Q2; [exact Hr|lia]|auto].
  Qed.
  Lemma home_one a b y : linked s g a -> linked s g b -> lo (nd s a) <= y < hh g a -> lo (nd s b) <= y < hh g b -> a = b.
  Proof. intros La Lb H1 H2. destruct (Nat.eq_dec a b) as [|N]; [assumption|]. destruct (gl_disj _ _ GB a b La Lb N); lia. Qed.
  Lemma entry_hh n y : linked s g n -> lo (nd s n) <= y < hh g n -> entry s y (row_get y (rws (nd s n))).
  Proof.
    intros Ln H w. split.
    - intros (a & A1 & A2 & A3). destruct (home a y w A1 A2 A3) as (b & B1 & B2 & B3 & _). now rewrite (home_one n b y Ln B1 H B2).
    - intros Q. exists n. split; [apply Ln|]. split; [apply Ln|exact Q].
  Qed.
  Lemma entry_rh n y : linked s g n -> lo (nd s n) <= y < rh g n -> entry s y (row_get y (rws (nd s n))).
  Proof.
    intros Ln H. unfold rh in H. destruct (us g n) as [c|] eqn:U; [|now apply entry_hh].
    destruct (gl_us _ _ GB n c U) as (_ & Lc & Q1 & _ & _ & Q2). destruct (gl_link _ _ GB c Lc) as (Q3 & _).
    destruct (Z_lt_le_dec y (hh g n)); [apply entry_hh; [exact Ln|lia]|]. rewrite Q2 by lia. apply entry_hh; [exact Lc|lia].
  Qed.
End Home.

(* ---- steps that leave the rows alone ---- *)
Definition calm (s s' : cst) : Prop := (fr s <= fr s')%nat /\ (forall a, (a < fr s)%nat -> isl (nd s' a) = isl (nd s a) /\ rws (nd s' a) = rws (nd s a)) /\
  (forall a, (fr s <= a < fr s')%nat -> isl (nd s' a) = false).
Lemma calm_refl s : calm s s. Proof. repeat split; auto; intros; lia. Qed.
Lemma calm_trans s1 s2 s3 : calm s1 s2 -> calm s2 s3 -> calm s1 s3.
Proof.
  intros (A1 & A2 & A3) (B1 & B2 & B3). split; [lia|]. split.
  - intros a Ha. destruct (A2 a Ha), (B2 a ltac:(lia)). split; congruence.
  - intros a Ha. destruct (Nat.lt_ge_cases a (fr s2)) as [H|H]; [|apply B3; lia]. rewrite (proj1 (B2 a H)). apply A3. lia.
Qed.
Lemma calm_has s s' : calm s s' -> forall y w, has s' y w <-> has s y w.
Proof.
  intros (A1 & A2 & A3) y w. split; intros (a & B1 & B2 & B3).
  - destruct (Nat.lt_ge_cases a (fr s)) as [H|H]; [|rewrite A3 in B2 by lia; discriminate]. destruct (A2 a H) as (C1 & C2). exists a. split; [exact H|]. split; congruence.
  - destruct (A2 a B1) as (C1 & C2). exists a. split; [lia|]. split; congruence.
Qed.
Lemma calm_eq s s1 s2 : calm s s1 -> nd s2 = nd s1 -> fr s2 = fr s1 -> calm s s2.
Proof. intros H E1 E2. unfold calm in *. now rewrite E1, E2. Qed.
Lemma calm_go s s1 t p : calm s s1 -> calm s (go s1 t p). Proof. intros H. now apply (calm_eq s s1). Qed.
Lemma calm_misp s s1 b : calm s s1 -> calm s (misplace s1 b). Proof. intros H. now apply (calm_eq s s1). Qed.
Lemma calm_put s s1 a x : calm s s1 -> isl x = isl (nd s1 a) -> rws x = rws (nd s1 a) -> calm s (put s1 a x).
Proof.
  intros H E1 E2. apply (calm_trans s s1 _ H). split; [cbn; lia|]. split; [|cbn; intros; lia]. intros b _. cbn [put nd]. unfold setf. destruct (Nat.eqb_spec b a) as [->|]; auto.
Qed.
Lemma calm_vput s s1 a v : calm s s1 -> calm s (vput s1 a v). Proof. intros H. unfold vput. apply calm_put; auto. Qed.
Lemma calm_unlock s s1 a : calm s s1 -> calm s (unlock s1 a). Proof. apply calm_vput. Qed.
Lemma calm_par s s1 a o : calm s s1 -> calm s (setpar s1 a o). Proof. intros H. unfold setpar. apply calm_put; auto. Qed.
Lemma calm_pars s q : forall l s1, calm s s1 -> calm s (setpars s1 l q).
Proof. induction l as [|[c|] l IH]; intros s1 H; cbn [setpars]; auto. apply IH. now apply calm_par. Qed.
Lemma calm_new s s1 a x : calm s s1 -> fr s1 = a -> isl x = false -> calm s (put (grow s1) a x).
Proof.
  intros H E1 E2. apply (calm_trans s s1 _ H). split; [cbn; lia|]. split.
  - intros b Hb. cbn [put nd grow]. unfold setf. destruct (Nat.eqb_spec b a); [lia|auto].
  - intros b Hb. cbn [put nd grow fr] in *. unfold setf. destruct (Nat.eqb_spec b a); [exact E2|lia].
Qed.
Lemma calm_if s (b : bool) s1 s2 : calm s s1 -> calm s s2 -> calm s (if b then s1 else s2). Proof. now destruct b. Qed.

Lemma calm_root s t y w tg n c sk h st : calm s (new_root s t y w tg n c sk h st).
Proof. unfold new_root. cbv zeta. apply calm_go, calm_par, calm_par, calm_new; auto using calm_refl. Qed.
Lemma calm_in s t y w tg n c sk h st q : calm s (in_parent s t y w tg n c sk h st q).
Proof.
  unfold in_parent. cbv zeta. assert (C0 : forall b, calm s (misplace (vput s q (v_mins (ver (nd s q)))) b)) by (intros b; apply calm_misp, calm_vput, calm_refl).
  destruct (S h <? ht (nd s q))%nat; [|destruct (length (keys (nd s q)) <? W)%nat].
  - apply calm_go, calm_par, calm_par, calm_put; [|reflexivity|reflexivity]. apply calm_new; auto.
  - apply calm_go, calm_par, calm_put; auto.
  - apply calm_go, calm_pars, calm_new; [|reflexivity|reflexivity]. apply calm_put; [|reflexivity|reflexivity]. apply calm_par, C0.
Qed.
Lemma calm_out s t y r n ik rep p : calm s (out_parent s t y r n ik rep p).
Proof.
  unfold out_parent. cbv zeta. assert (C0 : forall b, calm s (misplace (vput s p (v_mins (ver (nd s p)))) b)) by (intros b; apply calm_misp, calm_vput, calm_refl).
  destruct rep as [q|]; [apply calm_go, calm_par, calm_put; auto|]. destruct (upper ik (keys (nd s p)) =? 0)%nat; apply calm_go, calm_put; auto.
Qed.

(* ---- the steps that change a row ---- *)
Section Row.
  Variables (s : cst) (g : gst) (t : nat) (p : pct) (n : nat) (y : Z) (rs : rows) (z : Z) (p' : pct).
  Hypothesis G : GI s g.
  Hypothesis L : LI s.
  Hypothesis K : LK s g.
  Hypothesis E : pcs s t = p.
  Hypothesis Hn : In n (holds p).
  Hypothesis Hu : usof p = None.
  Hypothesis Ln : linked s g n.
  Hypothesis Hy : lo (nd s n) <= y < hh g n.
  Hypothesis Hrs : forall y', y' <> y -> row_get y' rs = row_get y' (rws (nd s n)).
  Let s' := go (put s n (with_rows (nd s n) rs z)) t p'.
  Lemma row_set_has : entry s' y (row_get y rs) /\ forall y' w, y' <> y -> (has s' y' w <-> has s y' w).
  Proof.
    assert (N : forall a, nd s' a = if (a =? n)%nat then with_rows (nd s n) rs z else nd s a) by reflexivity.
    split.
    - intros w. split.
      + intros (a & A1 & A2 & A3). rewrite N in A2, A3. destruct (Nat.eqb_spec a n) as [->|Na]; [exact A3|].
        destruct (home s g G a y w A1 A2 A3) as (b & B1 & B2 & B3 & B4). pose proof (home_one s g G n b y Ln B1 Hy B2) as Q. subst b. destruct B4 as [B4|B4]; [congruence|].
        pose proof (to_us s g t L K p n a E Hn B4). congruence.
      + intros Q. exists n. split; [apply Ln|]. rewrite N, Nat.eqb_refl. split; [apply Ln|exact Q].
    - intros y' w Ny. split; intros (a & A1 & A2 & A3).
      + rewrite N in A2, A3. exists a. split; [exact A1|]. destruct (Nat.eqb_spec a n) as [->|Na]; [|auto]. cbn [with_rows isl rws] in *. rewrite Hrs in A3 by exact Ny. auto.
      + exists a. split; [exact A1|]. rewrite N. destruct (Nat.eqb_spec a n) as [->|Na]; [|auto]. cbn [with_rows isl rws]. rewrite Hrs by exact Ny. auto.
  Qed.
End Row.

Lemma strip_has s g t y w tg n c sk st q nc z v p' : GI s g -> LK s g -> pcs s t = WStrip y w tg n c sk st q nc -> JI s g (WStrip y w tg n c sk st q nc) ->
  let s' := go (put s n (with_ver (with_rows (nd s n) (filter (fun r => fst r <? sk) (rws (nd s n))) z) v)) t p' in forall y' w', has s' y' w' <-> has s y' w'.
Proof.
  intros G K E J s' y' w'. cbn [JI] in J. destruct J as (_ & (_ & (Ln & Lc & Lo & _)) & _). pose proof (have_us s g t K _ n c E eq_refl) as U.
  destruct (gl_us _ _ (gi_l _ _ G) n c U) as (_ & _ & Q1 & Q4 & _ & Q2). destruct (gl_link _ _ (gi_l _ _ G) c Lc) as (Q3 & _). rewrite Lo in Q3.
  assert (Ncn : c <> n) by congruence.
  assert (N : forall a, nd s' a = if (a =? n)%nat then with_ver (with_rows (nd s n) (filter (fun r => fst r <? sk) (rws (nd s n))) z) v else nd s a) by reflexivity.
  split; intros (a & A1 & A2 & A3).
  - rewrite N in A2, A3. exists a. split; [exact A1|]. destruct (Nat.eqb_spec a n) as [->|Na]; [|auto]. split; [exact A2|]. cbn [with_ver with_rows rws] in A3. rewrite (row_get_filter (fun k => k <? sk)) in A3.
    destruct (y' <? sk); [exact A3|discriminate].
  - destruct (Nat.eq_dec a n) as [->|Na]; [|exists a; rewrite N; destruct (Nat.eqb_spec a n); [congruence|auto]]. destruct (Z_lt_le_dec y' sk) as [H|H].
    + exists n. split; [exact A1|]. rewrite N, Nat.eqb_refl. split; [exact A2|]. cbn [with_ver with_rows rws]. rewrite (row_get_filter (fun k => k <? sk)). apply Z.ltb_lt in H. now rewrite H.
    + exists c. split; [apply Lc|]. rewrite N. destruct (Nat.eqb_spec c n); [congruence|]. split; [apply Lc|]. rewrite <- Q2; [exact A3|lia].
Qed.

Lemma split_has s t y w n : (n < fr s)%nat -> isl (nd s n) = true -> (forall b, nxt (nd s n) = Some b -> b <> n /\ (b < fr s)%nat) -> forall y' w', has (leaf_split s t y w n) y' w' <-> has s y' w'.
Proof.
  intros Hf Hi Hb y' w'. unfold leaf_split. set (sk := split_key _ _ _ _). cbv zeta. set (xn := new_leaf _ _ _ _ _ _).
  assert (Nn : nd s (fr s) = nd s (fr s)) by reflexivity.
  match goal with |- has (go ?a _ _) _ _ <-> _ => set (s' := a) end.
  assert (F : fr s' = S (fr s)) by (unfold s'; destruct (nxt (nd s n)); reflexivity).
  assert (A : forall a, (a < fr s)%nat -> isl (nd s' a) = isl (nd s a) /\ rws (nd s' a) = rws (nd s a)).
  { intros a Ha. unfold s'. clearbody xn. clear sk F s'. destruct (nxt (nd s n)) as [b|]; [destruct (Hb b eq_refl)|]; clear Hb; cbn [put grow nd]; unfold setf.
    - destruct (Nat.eqb_spec n b); [congruence|]. destruct (Nat.eqb_spec b n); [congruence|]. destruct (Nat.eqb_spec b (fr s)); [lia|]. destruct (Nat.eqb_spec n (fr s)); [lia|].
      destruct (Nat.eqb_spec a n) as [->|N2]; [auto|]. destruct (Nat.eqb_spec a b) as [->|N1]; [auto|]. destruct (Nat.eqb_spec a (fr s)); [lia|auto].
    - destruct (Nat.eqb_spec n (fr s)); [lia|]. destruct (Nat.eqb_spec a n) as [->|N2]; [auto|]. destruct (Nat.eqb_spec a (fr s)); [lia|auto]. }
  assert (B : nd s' (fr s) = xn).
  { unfold s'. clearbody xn. clear sk F s' A. destruct (nxt (nd s n)) as [b|]; [destruct (Hb b eq_refl)|]; clear Hb; cbn [put grow nd]; unfold setf.
    - destruct (Nat.eqb_spec (fr s) n); [lia|]. destruct (Nat.eqb_spec (fr s) b); [lia|]. now rewrite Nat.eqb_refl.
    - destruct (Nat.eqb_spec (fr s) n); [lia|]. now rewrite Nat.eqb_refl. }
  assert (HE : forall tt pp, has (go s' tt pp) y' w' <-> has s' y' w') by (intros; unfold has; reflexivity). rewrite HE. clear HE.
  split; intros (a & A1 & A2 & A3).
  - rewrite F in A1. destruct (Nat.eq_dec a (fr s)) as [->|Na].
    + rewrite B in A3. unfold xn in A3. cbn [new_leaf rws] in A3. rewrite (row_get_filter (fun k => sk <=? k)) in A3. exists n. split; [exact Hf|]. split; [exact Hi|]. destruct (sk <=? y'); [exact A3|discriminate].
    + destruct (A a ltac:(lia)) as (C1 & C2). exists a. split; [lia|]. split; congruence.
  - destruct (A a A1) as (C1 & C2). exists a. split; [lia|]. split; congruence.
Qed.

(* ---- steps in terms of the table ---- *)
Definition commit (p : pct) (x : choice) : option (Z * op) :=
  match p, x with
  | WHave y (OPut w) _, Ins | WReady y w _, Go => Some (y, OPut w)
  | WHave y ORem _, Go => Some (y, ORem)
  | _, _ => None
  end.
Definition pre (p : pct) : option (Z * op) :=
  match p with
  | PRoot y o _ | PUp y o _ | PIn y o _ _ _ _ | PKid y o _ _ _ | PChk y o _ _ _ _ | PRe y o _ _ | PLast y o _ _ _ | PLastC y o _ _ _ _
  | PLeaf y o _ _ | PRead y o _ _ _ | PLocked y o _ _ | PAdv y o _ _ | PLLast y o _ _ _ | PLLastC y o _ _ _ _ | PWalk y o _ _ | PNext y o _
  | WHave y o _ => Some (y, o)
  | PDone y OGet _ => Some (y, OGet)
  | WUp y w _ _ _ _ _ _ | WIn y w _ _ _ _ _ _ _ | WStrip y w _ _ _ _ _ _ _ | WUnlN y w _ _ _ _ _ _ _ | WUnlC y w _ _ _ _ _ _ | WNext y w _ _ _ _ _ | WReady y w _ => Some (y, OPut w)
  | _ => None
  end.
Definition post (p : pct) : option (Z * op * option Z) :=
  match p with
  | WUnl y o _ r => Some (y, o, r)
  | PDone y OGet _ => None
  | PDone y o r => Some (y, o, r)
  | DMark y r _ | DUnlink y r _ | DUp y r _ _ _ | DIn y r _ _ _ _ | DRed y r _ _ _ _ _ | DRedU y r _ _ _ _ _ _ | DRedW y r _ _ _ _ _ _ | DRedE y r _ _ _ _ | DUnl y r _ _ _ | DNext y r _ _ => Some (y, ORem, r)
  | _ => None
  end.
(* The key is absent from the leaf that will get it. *)
Definition tgof (p : pct) : option (Z * nat) :=
  match p with
  | WUp y _ tg _ _ _ _ _ | WIn y _ tg _ _ _ _ _ _ | WStrip y _ tg _ _ _ _ _ _ | WUnlN y _ tg _ _ _ _ _ _ | WUnlC y _ tg _ _ _ _ _ | WNext y _ tg _ _ _ _ | WReady y _ tg => Some (y, tg)
  | _ => None
  end.
Definition AB (s : cst) (p : pct) : Prop := match tgof p with Some (y, tg) => row_get y (rws (nd s tg)) = None | None => True end.
Definition eff (o : op) : option Z := match o with OPut w => Some w | _ => None end.

Section Step.
  Variables (s : cst) (g : gst) (t : nat).
  Hypothesis I : Inv s g.
  Hypothesis HA : AB s (pcs s t).
  Let G := proj1 I.
  Let L := proj1 (proj2 I).
  Let K := proj1 (proj2 (proj2 I)).
  Let JA := proj2 (proj2 (proj2 I)).
  Lemma row_step p n y rs z p' : pcs s t = p -> In n (holds p) -> usof p = None -> linked s g n -> lo (nd s n) <= y < hh g n -> (forall y', y' <> y -> row_get y' rs = row_get y' (rws (nd s n))) ->
    let s' := go (put s n (with_rows (nd s n) rs z)) t p' in
    entry s y (row_get y (rws (nd s n))) /\ entry s' y (row_get y rs) /\ forall y' w, y' <> y -> (has s' y' w <-> has s y' w).
  Proof. intros E H1 H2 H3 H4 H5. split; [now apply (entry_hh s g G)|]. now apply (row_set_has s g t p n y rs z p' G L K). Qed.
  Lemma gone s' p : pcs (go s' t p) t = p. Proof. cbn. now rewrite setf_same. Qed.

  Lemma step_table x s' : step s t x = Some s' -> abnd s' = false ->
    match commit (pcs s t) x with
    | None => forall y w, has s' y w <-> has s y w
    | Some (y, o) => exists r, entry s y r /\ entry s' y (eff o) /\ (forall y' w, y' <> y -> (has s' y' w <-> has s y' w)) /\ post (pcs s' t) = Some (y, o, r) /\ o <> OGet /\ pre (pcs s t) = Some (y, o)
    end.
  Proof.
    intros ST A. pose proof (JA t) as J. pose proof HA as HB. revert ST J HB. unfold step.
    destruct (pcs s t) as [|y o n|y o n|y o n v l u|y o n v c|y o n v c vc|y o n v|y o n v vi|y o n v vi gt|y o n v|y o n v r|y o n v|y o n v|y o n v vi|y o n v vi gt|y o n v|y o n
      |y o r|y o n|y o n r|y w tg n c sk h st|y w tg n c sk h st q|y w tg n c sk st q nc|y w tg n c h st q nc|y w tg c h st q nc|y w tg h st q nc|y w tg|y r n|y r n|y r n ik rep|y r n ik rep p|y r n p cur ik rik
      |y r n p cur p2 ik rik|y r n p cur p2 ik rik|y r n p p2 rik|y r n p ik|y r p ik|] eqn:E; intros ST J HB.
    19: { (* WHave *) destruct o as [|w|]; [destruct x; discriminate ST| |].
      - destruct J as (Y & _ & (Ln & Hy & Hd)). destruct x; try discriminate ST; cbn [commit].
        + injection ST as <-. apply calm_has, calm_vput, calm_refl.
        + destruct (_ && _); [discriminate ST|]. injection ST as <-.
          edestruct (row_step _ n y (row_set y w (rws (nd s n))) (zk (nd s n)) (WUnl y (OPut w) n (row_get y (rws (nd s n)))) E) as (H1 & H2 & H3); [now left|reflexivity|exact Ln|exact Hy| |].
          { intros y' N. rewrite row_get_set. destruct (Z.eqb_spec y y'); [congruence|reflexivity]. }
          rewrite row_get_set, Z.eqb_refl in H2. eexists. split; [exact H1|]. split; [exact H2|]. split; [exact H3|]. rewrite gone. repeat split. discriminate.
        + destruct (is_none (row_get y (rws (nd s n))) && (W - 1 <=? length (rws (nd s n)))%nat) eqn:Q; [|discriminate ST]. injection ST as <-. apply split_has; [apply Ln|apply Ln|].
          intros b Qb. destruct (gl_link _ _ (gi_l _ _ G) n Ln) as (_ & Q2 & Q3 & Q4 & _). destruct (Q4 b Qb) as (Q5 & _). split; [|apply Q5]. intros ->. rewrite Qb in Q3. cbn in Q3. lia.
      - destruct J as (Y & _ & (Ln & Hy & Hd)). destruct x; try discriminate ST; cbn [commit].
        + destruct (row_get y (rws (nd s n))) as [old|] eqn:Q; injection ST as <-.
          * edestruct (row_step (WHave y ORem n) n y (row_del y (rws (nd s n))) (match row_del y (rws (nd s n)) with [] => y | _ => zk (nd s n) end) (if (length (row_del y (rws (nd s n))) =? 0)%nat && negb (is_none (prv (nd s n))) then DMark y (Some old) n else WUnl y ORem n (Some old))) as (H1 & H2 & H3); [exact E|now left|reflexivity|exact Ln|exact Hy| |].
            { intros y' N. rewrite row_get_del. destruct (Z.eqb_spec y y'); [congruence|reflexivity]. }
            rewrite row_get_del, Z.eqb_refl in H2. rewrite Q in H1. eexists. split; [exact H1|]. split; [exact H2|]. split; [exact H3|]. rewrite gone. split; [now destruct (_ && _)|]. split; [discriminate|reflexivity].
          * pose proof (entry_hh s g G n y Ln Hy) as H1. rewrite Q in H1. exists None. split; [exact H1|]. split; [exact H1|]. split; [reflexivity|]. rewrite gone. repeat split. discriminate.
        + injection ST as <-. apply calm_has, calm_vput, calm_refl. }
    26: { (* WReady *) destruct x; try discriminate ST; injection ST as <-; [|discriminate A]. cbn [commit]. destruct J as (Y & (Ln & Hy & Hd)). unfold AB in HB; cbn [tgof] in HB.
      edestruct (row_step _ tg y (row_set y w (rws (nd s tg))) (zk (nd s tg)) (WUnl y (OPut w) tg None) E) as (H1 & H2 & H3); [now left|reflexivity|exact Ln|exact Hy| |].
      { intros y' N. rewrite row_get_set. destruct (Z.eqb_spec y y'); [congruence|reflexivity]. }
      rewrite row_get_set, Z.eqb_refl in H2. rewrite HB in H1. eexists. split; [exact H1|]. split; [exact H2|]. split; [exact H3|]. rewrite gone. repeat split. discriminate. }
    22: { destruct x; try discriminate ST. injection ST as <-. cbn [commit]. apply (strip_has s g t y w tg n c sk st q nc); assumption. }
    all: clear J HB.
    all: replace (commit _ x) with (@None (Z * op)) by (destruct x; try reflexivity; try (destruct o; reflexivity)).
    all: destruct x; try discriminate ST; try (destruct o; discriminate ST).
    all: apply calm_has.
    all: repeat match type of ST with (if ?b then _ else _) = _ => destruct b; try discriminate ST | (match ?b with Some _ => _ | None => _ end) = _ => destruct b; try discriminate ST
      | (match ?o with OGet => _ | OPut _ => _ | ORem => _ end) = _ => destruct o; try discriminate ST | (let (_, _) := ?b in _) = _ => destruct b end; try (injection ST as <-).
    all: try apply calm_refl; try (apply calm_go, calm_refl); try (apply calm_go, calm_vput, calm_refl); try (apply calm_go, calm_if; [apply calm_refl|apply calm_unlock, calm_refl]).
    all: try apply calm_root; try apply calm_in; try apply calm_out; try (now apply calm_eq with (s1 := s); [apply calm_refl|..]).
    - destruct (par (nd s (rootp s))); [now apply calm_eq with (s1 := s); [apply calm_refl|..]|apply calm_refl].
    - destruct (same s n v); [apply calm_go, calm_refl|apply calm_go, calm_vput, calm_refl].
    - apply calm_go. assert (C : calm s (match prv (nd s n) with Some a => put s a (with_nxt (nd s a) (nxt (nd s n))) | None => s end)) by (destruct (prv (nd s n)); [apply calm_put; auto using calm_refl|apply calm_refl]).
      destruct (nxt (nd s n)); [|exact C]. apply calm_put; auto.
    - apply calm_go, calm_if; [apply calm_misp, calm_refl|]. apply calm_put; auto. apply calm_misp, calm_refl.
    - apply calm_go, calm_put; auto using calm_refl.
  Qed.

End Step.

(* ---- where a step takes its thread ---- *)
Lemma pcs_in s t y w tg n c sk h st q : exists q' nc, pcs (in_parent s t y w tg n c sk h st q) t = after_in y w tg n c sk h st q' nc.
Proof.
  unfold in_parent. cbv zeta. destruct (S h <? ht (nd s q))%nat; [|destruct (length (keys (nd s q)) <? W)%nat]; do 2 eexists; apply gone.
Qed.
Lemma pcs_out s t y r n ik rep p : exists p', pcs (out_parent s t y r n ik rep p) t = p' /\ post p' = Some (y, ORem, r) /\ tgof p' = None.
Proof.
  unfold out_parent. cbv zeta. destruct rep; [|destruct (upper ik (keys (nd s p)) =? 0)%nat]; (eexists; split; [apply gone|]); match goal with |- context[if ?b then _ else _] => destruct b end; split; reflexivity.
Qed.
Lemma pcs_split s t y w n : exists tg c sk st, pcs (leaf_split s t y w n) t = WUp y w tg n c sk 0 st. Proof. unfold leaf_split. cbv zeta. do 4 eexists. apply gone. Qed.
Lemma pcs_root s t y w tg n c sk h st : pcs (new_root s t y w tg n c sk h st) t = after_in y w tg n c sk h st None None. Proof. unfold new_root. apply gone. Qed.
Lemma pre_after y w tg n c sk h st q nc : pre (after_in y w tg n c sk h st q nc) = Some (y, OPut w) /\ tgof (after_in y w tg n c sk h st q nc) = Some (y, tg).
Proof. unfold after_in. destruct h; split; reflexivity. Qed.

Definition rdof (p : pct) : Prop := match p with PRead _ OGet _ _ _ | PDone _ OGet _ => True | _ => False end.
Definition nostart (x : choice) : Prop := forall y o, x <> Start y o.
Definition trans_of (s : cst) (t : nat) (x : choice) (p' : pct) : Prop :=
  match pre (pcs s t), post (pcs s t) with
  | Some (y, o), _ => nostart x /\ (commit (pcs s t) x = None -> pre p' = Some (y, o) \/ p' = Idle)
  | None, Some q => nostart x /\ commit (pcs s t) x = None /\ (post p' = Some q \/ p' = Idle \/ p' = PCrash)
  | None, None => commit (pcs s t) x = None /\ ((exists y o n, x = Start y o /\ p' = PRoot y o n) \/ (nostart x /\ p' = Idle))
  end.
Ltac cases ST := repeat match type of ST with (if ?b then _ else _) = _ => destruct b; try discriminate ST | (match ?b with Some _ => _ | None => _ end) = _ => destruct b; try discriminate ST
  | (match ?o with OGet => _ | OPut _ => _ | ORem => _ end) = _ => destruct o; try discriminate ST | (let (_, _) := ?b in _) = _ => destruct b end; try (injection ST as <-).
Lemma step_trans s t x s' : step s t x = Some s' -> abnd s' = false -> (forall y r, post (pcs s t) <> Some (y, OGet, r)) -> trans_of s t x (pcs s' t).
Proof.
  intros ST A HO. unfold trans_of. revert ST HO. unfold step.
  destruct (pcs s t) as [|y o n|y o n|y o n v l u|y o n v c|y o n v c vc|y o n v|y o n v vi|y o n v vi gt|y o n v|y o n v r|y o n v|y o n v|y o n v vi|y o n v vi gt|y o n v|y o n
      |y o r|y o n|y o n r|y w tg n c sk h st|y w tg n c sk h st q|y w tg n c sk st q nc|y w tg n c h st q nc|y w tg c h st q nc|y w tg h st q nc|y w tg|y r n|y r n|y r n ik rep|y r n ik rep p|y r n p cur ik rik
      |y r n p cur p2 ik rik|y r n p cur p2 ik rik|y r n p p2 rik|y r n p ik|y r p ik|] eqn:E; intros ST HO; destruct x; try discriminate ST; try (destruct o; discriminate ST); cbn [pre post];
    try (destruct o; try discriminate ST); cases ST; try discriminate A; unfold nostart; cbn [commit]; rewrite ?gone;
    try (split; [intros; discriminate|]; try intros _; try discriminate; auto; fail).
  all: try (split; [reflexivity|]; left; do 3 eexists; split; reflexivity).
  all: try (unfold enter; repeat match goal with |- context[if ?b then _ else _] => destruct b | |- context[match ?b with Some _ => _ | None => _ end] => destruct b end; rewrite ?gone; (split; [intros; discriminate|]; try intros _; try discriminate; auto; fail)).
  all: try (destruct (pcs_in s t y w tg n c sk h st q) as (q' & nc & ->); split; [intros; discriminate|]; intros _; left; apply pre_after).
  all: try (destruct (pcs_out s t y r n ik rep p) as (p' & -> & Q & _); split; [intros; discriminate|]; split; [reflexivity|]; now left).
  all: try (rewrite pcs_root; split; [intros; discriminate|]; intros _; left; apply pre_after).
  all: try (destruct (pcs_split s t y w n) as (tg & c & sk & st & ->); split; [intros; discriminate|]; intros _; left; reflexivity).
  all: try (split; [intros; discriminate|]; intros Q; discriminate Q).
  - split; [reflexivity|]. right. split; [intros; discriminate|]. destruct (par (nd s (rootp s))); exact E.
  - split; [intros; discriminate|]. intros _. left. cbn [vput put pcs]. now rewrite E.
  - split; [intros; discriminate|]. intros _. left. cbn [vput put pcs]. now rewrite E.
  - destruct (HO y r eq_refl).
Qed.
(* The result of a lookup is read from its leaf, and the leaf is looked at again. *)
Lemma step_read s t x s' y n v r : step s t x = Some s' -> pcs s' t = PRead y OGet n v r ->
  nd s' = nd s /\ fr s' = fr s /\ pcs s t = PLeaf y OGet n v /\ v_del v = false /\ (same s n v = true -> r = row_get y (rws (nd s n))).
Proof.
  intros ST E'. revert ST. unfold step. destruct (pcs s t) eqn:E; intros ST; destruct x; try discriminate ST; try (destruct o; discriminate ST); cases ST; rewrite ?gone in E'; try discriminate E'.
  all: try (unfold enter in E'; repeat match type of E' with context[if ?b then _ else _] => destruct b eqn:? | context[match ?b with Some _ => _ | None => _ end] => destruct b end; rewrite ?gone in E'; try discriminate E'; fail).
  all: try (cbn [vput put pcs reroot] in E'; congruence).
  all: try (match type of E' with context[in_parent ?s ?t ?y ?w ?tg ?n ?c ?sk ?h ?st ?q] => destruct (pcs_in s t y w tg n c sk h st q) as (q' & nc & Q); rewrite Q in E'; destruct h; discriminate E' end).
  all: try (match type of E' with context[out_parent ?s ?t ?y ?r ?n ?ik ?rep ?p] => destruct (pcs_out s t y r n ik rep p) as (p' & Q & Q2 & _); rewrite Q in E'; rewrite E' in Q2; discriminate Q2 end).
  all: try (rewrite pcs_root in E'; destruct h; discriminate E').
  all: try (match type of E' with context[leaf_split ?s ?t ?y ?w ?n] => destruct (pcs_split s t y w n) as (tg & c & sk & st & Q); rewrite Q in E'; discriminate E' end).
  - destruct (par (nd s (rootp s))); cbn [reroot pcs] in E'; congruence.
  - destruct (v_del v0) eqn:Dv; [discriminate E'|]. injection E' as -> -> -> -> E5. repeat split; auto. intros Q. now rewrite Q in E5.
Qed.
Lemma step_done s t x s' y r : step s t x = Some s' -> pcs s' t = PDone y OGet r -> (forall y r, post (pcs s t) <> Some (y, OGet, r)) -> exists n v, pcs s t = PRead y OGet n v r /\ same s n v = true.
Proof.
  intros ST E' HO. revert ST HO. unfold step. destruct (pcs s t) eqn:E; intros ST HO; destruct x; try discriminate ST; try (destruct o; discriminate ST); cases ST; rewrite ?gone in E'; try discriminate E'.
  all: try (unfold enter in E'; repeat match type of E' with context[if ?b then _ else _] => destruct b eqn:? | context[match ?b with Some _ => _ | None => _ end] => destruct b end; rewrite ?gone in E'; try discriminate E'; fail).
  all: try (cbn [vput put pcs reroot] in E'; congruence).
  all: try (match type of E' with context[in_parent ?s ?t ?y ?w ?tg ?n ?c ?sk ?h ?st ?q] => destruct (pcs_in s t y w tg n c sk h st q) as (q' & nc & Q); rewrite Q in E'; destruct h; discriminate E' end).
  all: try (match type of E' with context[out_parent ?s ?t ?y ?r ?n ?ik ?rep ?p] => destruct (pcs_out s t y r n ik rep p) as (p' & Q & Q2 & _); rewrite Q in E'; rewrite E' in Q2; discriminate Q2 end).
  all: try (rewrite pcs_root in E'; destruct h; discriminate E').
  all: try (match type of E' with context[leaf_split ?s ?t ?y ?w ?n] => destruct (pcs_split s t y w n) as (tg & c & sk & st & Q); rewrite Q in E'; discriminate E' end).
  - destruct (par (nd s (rootp s))); cbn [reroot pcs] in E'; congruence.
  - destruct (same s n v) eqn:Q; [|discriminate E']. injection E' as -> ->. eauto.
  - injection E' as -> -> ->. destruct (HO y r eq_refl).
Qed.
(* The key stays absent from the leaf that will get it. *)
Lemma AB_calm s s1 p1 y tg : calm s s1 -> (tg < fr s)%nat -> row_get y (rws (nd s tg)) = None -> tgof p1 = Some (y, tg) -> AB s1 p1.
Proof. intros (_ & C & _) F H Q. unfold AB. rewrite Q. now rewrite (proj2 (C tg F)). Qed.
Lemma AB_none s p : tgof p = None -> AB s p. Proof. intros H. unfold AB. now rewrite H. Qed.
Lemma AB_split s t y w n : row_get y (rws (nd s n)) = None -> (forall b, nxt (nd s n) = Some b -> (b < fr s)%nat) -> (n < fr s)%nat -> AB (leaf_split s t y w n) (pcs (leaf_split s t y w n) t).
Proof.
  intros H Hb Hn. unfold leaf_split. cbv zeta. rewrite gone. set (sk := split_key _ _ _ _). unfold AB. cbn [tgof].
  destruct (y <? sk) eqn:Q; destruct (nxt (nd s n)) as [b|]; cbn [go nd put grow]; unfold setf.
  - rewrite Nat.eqb_refl. cbn [with_nxt rws]. specialize (Hb b eq_refl). destruct (Nat.eqb_spec n b) as [Q2|Q2]; [rewrite <- Q2|]; cbn [with_prv rws]; (destruct (Nat.eqb_spec n (fr s)); [lia|exact H]).
  - rewrite Nat.eqb_refl. cbn [with_nxt rws]. destruct (Nat.eqb_spec n (fr s)); [lia|exact H].
  - specialize (Hb b eq_refl). destruct (Nat.eqb_spec (fr s) n); [lia|]. destruct (Nat.eqb_spec (fr s) b); [lia|]. rewrite Nat.eqb_refl. cbn [new_leaf rws]. rewrite (row_get_filter (fun k => sk <=? k)), H. now destruct (sk <=? y).
  - destruct (Nat.eqb_spec (fr s) n); [lia|]. rewrite Nat.eqb_refl. cbn [new_leaf rws]. rewrite (row_get_filter (fun k => sk <=? k)), H. now destruct (sk <=? y).
Qed.
Lemma step_AB s g t x s' : Inv s g -> AB s (pcs s t) -> step s t x = Some s' -> AB s' (pcs s' t).
Proof.
  intros (G & L & K & JA) HA ST. pose proof (JA t) as J. revert ST HA J. unfold step.
  destruct (pcs s t) as [|y o n|y o n|y o n v l u|y o n v c|y o n v c vc|y o n v|y o n v vi|y o n v vi gt|y o n v|y o n v r|y o n v|y o n v|y o n v vi|y o n v vi gt|y o n v|y o n
      |y o r|y o n|y o n r|y w tg n c sk h st|y w tg n c sk h st q|y w tg n c sk st q nc|y w tg n c h st q nc|y w tg c h st q nc|y w tg h st q nc|y w tg|y r n|y r n|y r n ik rep|y r n ik rep p|y r n p cur ik rik
      |y r n p cur p2 ik rik|y r n p cur p2 ik rik|y r n p p2 rik|y r n p ik|y r p ik|] eqn:E; intros ST HA J; destruct x; try discriminate ST; try (destruct o; discriminate ST).
  all: unfold AB in HA; cbn [tgof] in HA.
  all: try (assert (F : (tg < fr s)%nat) by (apply (proj1 L t tg); rewrite E; now left)).
  all: try (cases ST; apply AB_none; rewrite ?gone; try reflexivity; fail).
  all: try (cases ST; apply AB_none; rewrite ?gone; unfold enter; repeat match goal with |- context[if ?b then _ else _] => destruct b | |- context[match ?b with Some _ => _ | None => _ end] => destruct b end; rewrite ?gone; reflexivity).
  all: try (injection ST as <-; destruct (pcs_out s t y r n ik rep p) as (p' & -> & _ & Q); now apply AB_none).
  all: try (destruct o; try discriminate ST; cases ST; apply AB_none; cbn [vput put pcs]; rewrite E; reflexivity).
  all: try (cases ST; apply (AB_calm s _ _ y tg); auto using calm_go, calm_vput, calm_refl, calm_root, calm_in, calm_if, calm_unlock; rewrite ?gone, ?pcs_root; try apply pre_after; try reflexivity;
    try (destruct (pcs_in s t y w tg n c sk h st q) as (q' & nc & ->); apply pre_after); fail).
  - destruct (v_rt _); [discriminate ST|]. injection ST as <-. apply AB_none. destruct (par (nd s (rootp s))); cbn [reroot pcs]; now rewrite E.
  - destruct o; try discriminate ST. cbv zeta in ST. destruct (is_none (row_get y (rws (nd s n))) && (W - 1 <=? length (rws (nd s n)))%nat) eqn:Q; [|discriminate ST]. injection ST as <-. cbn [JI] in J.
    destruct J as (Y & _ & (Ln & Hy & Hd)). apply andb_true_iff in Q. destruct Q as (Q & _). apply AB_split; [now destruct (row_get y (rws (nd s n)))| |apply Ln].
    intros b Qb. destruct (gl_link _ _ (gi_l _ _ G) n Ln) as (_ & Q2 & Q3 & Q4 & _). destruct (Q4 b Qb) as (Q5 & _). apply Q5.
  - injection ST as <-. rewrite gone. unfold AB. cbn [tgof go nd put]. unfold setf. destruct (Nat.eqb_spec tg n) as [Q|Q]; [|exact HA]. cbn [with_ver with_rows rws]. rewrite (row_get_filter (fun k => k <? sk)), <- Q, HA. now destruct (y <? sk).
Qed.
