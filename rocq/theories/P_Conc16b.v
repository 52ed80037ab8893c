(* Concurrent layer: splits keep the invariant, in terms of the steps. *)
From Verif Require Import Lib M_Tree M_Stampc P_Stampc1 M_Conc P_Conc1 P_Conc2 P_Conc3 P_Conc4 P_Conc5 P_Conc6 P_Conc7 P_Conc8 P_Conc11 P_Conc12 P_Conc14 P_Conc15 P_Conc16.
From Coq Require Import Sorting.Sorted.

Ltac sp3 z a b d e := destruct (Nat.eqb_spec z a); [|destruct (Nat.eqb_spec z b); [|destruct (Nat.eqb_spec z d); [|destruct (Nat.eqb_spec z e)]]]; cbn [orb]; try subst z;
  repeat match goal with |- context[(?x =? ?y)%nat] => destruct (Nat.eqb_spec x y); cbn [orb] end; try reflexivity; try congruence.
Lemma in_misp s t y w tg n c sk h st q : misp (in_parent s t y w tg n c sk h st q) = false -> misp s = false /\ is_at n (upper sk (keys (nd s q))) (kids (nd s q)) = true.
Proof.
  unfold in_parent. set (b := is_at _ _ _). intros M. cut (misp s || negb b = false); [rewrite orb_false_iff, negb_false_iff; tauto|]. revert M.
  destruct (S h <? ht (nd s q))%nat; [exact (fun H => H)|]. destruct (length (keys (nd s q)) <? W)%nat; [exact (fun H => H)|]. cbv zeta.
  match goal with |- context[setpars ?a ?b ?d] => destruct (setpars_rest d b a) as (_ & _ & _ & Q & _) end. cbn [go misp]. rewrite Q. exact (fun H => H).
Qed.
(* The nodes after each of the cases of in_parent. *)
Lemma nd_put s a x z : nd (put s a x) z = if (z =? a)%nat then x else nd s z. Proof. reflexivity. Qed.
Lemma nd_spar s a o z : nd (setpar s a o) z = if (z =? a)%nat then with_par (nd s a) o else nd s z. Proof. reflexivity. Qed.
Lemma nd_gap s0 s q n c nn v x ks cs t p : nd s0 = nd (vput s q v) -> q <> n -> q <> c -> n <> c -> nn <> q -> nn <> n -> nn <> c -> forall z,
  nd (let s1 := put (grow s0) nn x in let s2 := put s1 q (with_kk (nd s1 q) ks cs) in go (setpar (setpar s2 c (Some nn)) n (Some nn)) t p) z =
  if (z =? nn)%nat then x else if (z =? q)%nat then with_kk (with_ver (nd s q) v) ks cs else if (z =? n)%nat then with_par (nd s n) (Some nn)
  else if (z =? c)%nat then with_par (nd s c) (Some nn) else nd s z.
Proof.
  intros E0 H1 H2 H3 H4 H5 H6 z. cbv zeta. change (nd (go ?a t p)) with (nd a). rewrite !nd_spar, !nd_put. change (nd (grow s0)) with (nd s0). rewrite !E0. unfold vput. rewrite !nd_put.
  rewrite !Nat.eqb_refl. apply Nat.eqb_neq in H1, H2, H3, H4, H5, H6. rewrite (Nat.eqb_sym c q), (Nat.eqb_sym n q), (Nat.eqb_sym c nn), (Nat.eqb_sym n nn), (Nat.eqb_sym q nn), H1, H2, H3, H4, H5, H6.
  apply Nat.eqb_neq in H1, H2, H3, H4, H5, H6.
  destruct (Nat.eqb_spec z n) as [->|N1]; [destruct (Nat.eqb_spec n nn); [congruence|]; destruct (Nat.eqb_spec n q); [congruence|reflexivity]|].
  destruct (Nat.eqb_spec z c) as [->|N2]; [destruct (Nat.eqb_spec c nn); [congruence|]; destruct (Nat.eqb_spec c q); [congruence|reflexivity]|].
  destruct (Nat.eqb_spec z q) as [->|N3]; [destruct (Nat.eqb_spec q nn); [congruence|reflexivity]|]. reflexivity.
Qed.
Lemma nd_room s0 s q c v ks cs t p : nd s0 = nd (vput s q v) -> q <> c -> forall z,
  nd (let s1 := put s0 q (with_kk (nd s0 q) ks cs) in go (setpar s1 c (Some q)) t p) z =
  if (z =? c)%nat then with_par (nd s c) (Some q) else if (z =? q)%nat then with_kk (with_ver (nd s q) v) ks cs else nd s z.
Proof.
  intros E0 H1 z. cbv zeta. change (nd (go ?a t p)) with (nd a). rewrite !nd_spar, !nd_put, !E0. unfold vput. rewrite !nd_put, !Nat.eqb_refl.
  destruct (Nat.eqb_spec c q); [congruence|]. destruct (Nat.eqb_spec z c); [reflexivity|]. destruct (Nat.eqb_spec z q); reflexivity.
Qed.
Lemma nd_full s0 s q c nr v x ks cs : nd s0 = nd (vput s q v) -> q <> c -> nr <> q -> nr <> c -> forall z,
  let s3 := (let s1 := setpar s0 c (Some q) in let s2 := put s1 q (with_kk (with_ver (nd s1 q) (v_mspl (ver (nd s1 q)))) ks cs) in put (grow s2) nr x) in
  nd s3 z = (if (z =? nr)%nat then x else if (z =? q)%nat then with_kk (with_ver (nd s q) (v_mspl v)) ks cs else if (z =? c)%nat then with_par (nd s c) (Some q) else nd s z).
Proof.
  intros E0 H1 H2 H3 z. cbv zeta. rewrite nd_put. change (nd (grow ?a)) with (nd a). rewrite !nd_put, !nd_spar, !E0. unfold vput. rewrite !nd_put, !Nat.eqb_refl.
  destruct (Nat.eqb_spec z nr); [reflexivity|]. destruct (Nat.eqb_spec q c); [congruence|]. destruct (Nat.eqb_spec c q); [congruence|]. destruct (Nat.eqb_spec z q); [reflexivity|]. destruct (Nat.eqb_spec z c); reflexivity.
Qed.

Section Core.
  Variables (s : cst) (g : gst) (t : nat).
  Hypothesis G : GI s g.
  Hypothesis L : LI s.
  Hypothesis K : LK s g.
  Hypothesis JA : forall t, JI s g (pcs s t).
  Let GA := gi_t _ _ G.
  Let GB := gi_l _ _ G.
  Let GC := gi_v _ _ G.

  Lemma in_ok y w tg n c sk h st q : pcs s t = WIn y w tg n c sk h st q -> JI s g (WIn y w tg n c sk h st q) ->
    misp (in_parent s t y w tg n c sk h st q) = false -> OK s g (in_parent s t y w tg n c sk h st q) t.
  Proof.
    intros E J M. cbn [JI] in J. destruct J as (Y & HS & Hqi & Hqn & Hqc).
    assert (Hp : WIn y w tg n c sk h st q = WUp y w tg n c sk h st \/ exists q0, WIn y w tg n c sk h st q = WIn y w tg n c sk h st q0) by (right; eauto).
    assert (Hq : In q (holds (WIn y w tg n c sk h st q))) by (cbn; tauto).
    destruct (sp_fr s t L _ y w tg n c sk h st E Hp) as (F1 & F2 & F3). destruct (my_fr s t L _ q E Hq) as (Hf & Hk). pose proof (sp_nc s g t G K _ y w tg n c sk h st E Hp) as Nnc.
    assert (Hat : nth (upper sk (keys (nd s q))) (kids (nd s q)) None = Some n).
    { apply is_at_iff. now apply in_misp in M. }
    assert (D1 : fr s <> q) by lia. assert (D2 : fr s <> n) by lia. assert (D3 : fr s <> c) by lia.
    unfold in_parent in *. clear M. cbv zeta. destruct (Nat.ltb_spec (S h) (ht (nd s q))) as [H1|H1].
    - (* a gap in the heights *)
      assert (Hpar : par (nd s n) = Some q) by exact (proj2 (gt_kid _ _ GA q n Hf Hqi (kid_in _ _ _ Hat))).
      match goal with |- context[put (grow ?s0) (fr s) ?x] => set (sa := s0); set (xn := x) end.
      match goal with |- context[with_kk _ ?a ?b] => set (cs := b); set (ks := a) end. set (pn := after_in _ _ _ _ _ _ _ _ _ _).
      pose proof (nd_gap sa s q n c (fr s) (v_mins (ver (nd s q))) xn ks cs t pn eq_refl Hqn Hqc Nnc D1 D2 D3) as ND. cbv zeta in ND.
      match type of ND with forall z, nd ?a z = _ => set (s' := a) in * end.
      assert (Ef : fr s' = S (fr s)) by reflexivity. assert (Er : rootp s' = rootp s) by reflexivity. assert (Ep : forall t0, pcs s' t0 = setf (pcs s) t pn t0) by reflexivity. clearbody s'.
      apply (up_ok s g t G L K JA _ y w tg n c sk h st E Hp Y HS (Some q) (upper sk (keys (nd s q))) s' Hpar); auto.
      + intros q0 Q. injection Q as <-. auto.
      + intros z. rewrite ND. clear - z. sp3 z (fr s) q n c.
      + intros z. rewrite ND. unfold is_po. clear - z. sp3 z (fr s) q n c.
      + intros z. rewrite ND. clear - z Hqn Hqc Nnc D1 D2 D3. sp3 z (fr s) q n c.
      + intros z. rewrite ND. clear - z. sp3 z (fr s) q n c.
      + intros z. rewrite ND. unfold is_po. clear - z Hqn Hqc. sp3 z (fr s) q n c.
      + intros z Hz. rewrite ND. clear - z Hz. sp3 z (fr s) q n c; repeat split; contradiction.
    - destruct (Nat.ltb_spec (length (keys (nd s q))) W) as [H2|H2].
      + match goal with |- context[put ?s0 q (with_kk _ ?a ?b)] => set (sa := s0); set (cs := b); set (ks := a) end. set (pn := after_in _ _ _ _ _ _ _ _ _ _).
        pose proof (nd_room sa s q c (v_mins (ver (nd s q))) ks cs t pn eq_refl Hqc) as ND. cbv zeta in ND.
        apply (room_ok s g t G L K JA _ y w tg n c sk h st E Hp Y HS q Hq Hqi Hqn Hqc Hat); try reflexivity. exact ND.
      + assert (Hmid : (1 <= (if (st =? 2)%nat then W else Nat.div (W + 1) 2) <= length (keys (nd s q)))%nat).
        { unfold W in *. change ((15 + 1) / 2)%nat with 8%nat. destruct (st =? 2)%nat; lia. }
        set (mid := if (st =? 2)%nat then W else Nat.div (W + 1) 2) in *. clearbody mid.
        set (ks := ins_at _ sk _). set (cs := ins_at _ (Some c) _).
        match goal with |- context[setpar ?s0 c (Some q)] => set (sm := s0) end. set (xn := new_inter _ _ _ _ _).
        pose proof (nd_full sm s q c (fr s) (v_mins (ver (nd s q))) xn (firstn mid ks) (firstn (S mid) cs) eq_refl Hqc D1 D3) as NF. cbv zeta in NF.
        match goal with |- context[go (setpars ?a ?b ?d) t _] => set (sa := a) in *; destruct (setpars_rest d b sa) as (R1 & R2 & R3 & R4 & R5); pose proof (setpars_nd d b sa) as ND end.
        set (s' := go _ t _). apply (full_ok s g t G L K JA _ y w tg n c sk h st E Hp Y HS q Hq Hqi Hqn Hqc Hat mid s' Hmid).
        * unfold s'. cbn [go fr]. rewrite R1. reflexivity.
        * unfold s'. cbn [go rootp]. rewrite R2. reflexivity.
        * intros t0. unfold s'. cbn [go pcs]. rewrite R3. reflexivity.
        * intros z. destruct (ND z) as (o & N1 & N2 & N3). exists o. unfold s'. cbn [go nd]. split; [|split; [exact N2|]].
          -- rewrite N1, NF. clear - z. sp3 z (fr s) q c c.
          -- intros Q. rewrite (N3 Q), NF. clear - z Hqc. sp3 z (fr s) q c c.
  Qed.

  (* ---- the leaf is split ---- *)
  Lemma leaf_ok y w n : pcs s t = WHave y (OPut w) n -> JI s g (WHave y (OPut w) n) -> row_get y (rws (nd s n)) = None -> (W - 1 <= length (rws (nd s n)))%nat ->
    OK s g (leaf_split s t y w n) t.
  Proof.
    intros E J Hg Hlen. cbn [JI] in J. destruct J as (Y & _ & (A & B & Hd)). assert (Hin : In n (holds (WHave y (OPut w) n))) by now left.
    destruct (my_fr s t L _ n E Hin) as (Hf & Hk). destruct (gl_rows _ _ GB n (proj1 A) (proj1 (proj2 A))) as (R1 & R2 & R3).
    assert (Un : us g n = None) by (apply (no_us s g t L K _ n E Hin); discriminate).
    assert (Rh : rh g n = hh g n) by (unfold rh; now rewrite Un). rewrite Rh in R2.
    set (sk := split_key (is_none (prv (nd s n))) (is_none (nxt (nd s n))) y (rws (nd s n))).
    destruct (split_key_gt (is_none (prv (nd s n))) (is_none (nxt (nd s n))) y (rws (nd s n)) Hg R1 Hlen) as (z & Z1 & Z2). fold sk in Z1.
    assert (S1 : lo (nd s n) < sk). { destruct Z2 as [->|Z2]; [lia|]. specialize (R2 z Z2). lia. }
    assert (S2 : sk < hh g n). { destruct (split_key_in (is_none (prv (nd s n))) (is_none (nxt (nd s n))) y (rws (nd s n))) as [Q|Q]; fold sk in Q; [lia|]. specialize (R2 sk Q). lia. }
    assert (Hnxt : forall b, nxt (nd s n) = Some b -> b <> n /\ (b < fr s)%nat).
    { intros b Q. destruct (gl_link _ _ GB n A) as (_ & Q2 & Q3 & Q4 & _). destruct (Q4 b Q) as (Q5 & _). split; [|apply Q5]. intros ->. rewrite Q in Q3. cbn in Q3. lia. }
    set (s' := leaf_split s t y w n).
    assert (AD : Adv s g s' (g_side g n (fr s) sk sk sk (setf (us g) n (Some (fr s))) (setf (ul g) (fr s) false)) t).
    { assert (Nf : n <> fr s) by lia. apply (lsplit_adv s g t n sk s' G A); auto.
      - apply (no_pd s g t L K _ n E Hin). discriminate.
      - apply (no_ze s g t L K _ n E Hin). discriminate.
      - intros x Q. pose proof (to_pd s g t L K _ n x E Hin Q) as Q2. discriminate.
      - intros x Q. pose proof (to_us s g t L K _ n x E Hin Q) as Q2. discriminate.
      - unfold s', leaf_split. cbn [go fr put grow]. destruct (nxt (nd s n)); reflexivity.
      - unfold s', leaf_split. cbn [go rootp put grow]. destruct (nxt (nd s n)); reflexivity.
      - unfold s', leaf_split. fold sk. destruct (nxt (nd s n)) as [b|] eqn:Q; [destruct (Hnxt b eq_refl)|]; pw.
      - intros x Hx. unfold s', leaf_split. fold sk. destruct (nxt (nd s n)) as [b|] eqn:Q; [destruct (Hnxt b eq_refl)|]; pw; repeat split.
      - intros x Hx. unfold s', leaf_split. fold sk. destruct (nxt (nd s n)) as [b|] eqn:Q; [destruct (Hnxt b eq_refl)|]; pw.
      - intros x Hx. unfold s', leaf_split. fold sk. destruct (nxt (nd s n)) as [b|] eqn:Q; [destruct (Hnxt b eq_refl)|]; pw.
      - apply (ze_leaf s g K JA).
      - intros t' a N Ha. split; [exact (proj1 (proj1 L t' a Ha))|]. intros ->. exact (my_own s t L _ n E Hin t' N Ha).
      - intros t' N. unfold s', leaf_split. destruct (nxt (nd s n)); cbn [go pcs put grow]; now rewrite setf_other. }
    set (c := fr s) in *. set (g' := g_side g n c sk sk sk (setf (us g) n (Some c)) (setf (ul g) c false)) in *.
    assert (Nnc : n <> c) by (unfold c; lia).
    match goal with _ := leaf_split s t y w n |- _ => idtac end.
    assert (Ep : exists st, forall t0, pcs s' t0 = setf (pcs s) t (WUp y w (if y <? sk then n else c) n c sk 0 st) t0).
    { unfold s', leaf_split. destruct (nxt (nd s n)); eexists; intros t0; reflexivity. }
    destruct Ep as (st & Ep).
    assert (Nn : forall f : cnode -> bool, (forall x o, f (with_nxt x o) = f x) -> (forall x o, f (with_prv x o) = f x) -> forall a, (a < fr s)%nat -> f (nd s' a) = f (nd s a)).
    { intros f H1 H2 a Ha. unfold s', leaf_split. destruct (nxt (nd s n)) as [b|]; pw; rewrite ?H1, ?H2; auto. }
    assert (Nl : lo (nd s' n) = lo (nd s n) /\ rws (nd s' n) = rws (nd s n)).
    { unfold s', leaf_split. fold sk. destruct (nxt (nd s n)) as [b|] eqn:Q; [destruct (Hnxt b eq_refl)|]; pw; repeat split. }
    assert (Nc : nd s' c = new_leaf (ver (nd s n)) sk (filter (fun r => sk <=? fst r) (rws (nd s n))) sk (nxt (nd s n)) (Some n)).
    { unfold s', leaf_split. fold sk. unfold c in *. destruct (nxt (nd s n)) as [b|] eqn:Q; [destruct (Hnxt b eq_refl)|]; pw. }
    assert (Fs : fr s' = S c) by (unfold s', leaf_split; cbn [go fr put grow]; destruct (nxt (nd s n)); reflexivity).
    assert (Ln : linked s' g' n).
    { split; [rewrite Fs; unfold c; lia|]. split; [rewrite (Nn isl); auto; apply A|]. cbn. rewrite setf_other by exact Nnc. apply A. }
    assert (Lc : linked s' g' c) by (split; [rewrite Fs; lia|]; split; [now rewrite Nc|]; cbn; now rewrite setf_same).
    apply (Adv_ok s g t L _ _ s' g' E AD Ep).
    - intros a Ha. assert (Hb : a = n \/ a = c) by (cbn [holds In] in Ha; destruct (y <? sk); intuition). destruct Hb as [->| ->].
      + split; [now left|]. split; [apply Ln|]. rewrite (Nn (fun x => v_lk (ver x))); auto.
      + split; [right; left; unfold c; lia|]. split; [apply Lc|]. rewrite Nc. exact Hk.
    - apply (LK_step s t _ L g g' s' K Ep).
      + apply (lnk_on s t _ pdof _ _ n c); [now rewrite E|reflexivity|reflexivity|]. apply (no_pd s g t L K _ n E Hin). discriminate.
      + apply (lnk_on s t _ usof _ _ n c); [now rewrite E|reflexivity|reflexivity|exact Un].
      + apply lnk_none; [now rewrite E|reflexivity|reflexivity].
      + apply ze_same; [apply K|]. left. now rewrite E.
    - cbn [JI]. split; [exact Y|]. split.
      + split; [|right]; unfold g', g_side; cbn [l0 sp]; rewrite setf_same; lia.
      + split; [exact Ln|]. split; [exact Lc|]. rewrite Nc. cbn [new_leaf lo ver]. split; [reflexivity|]. split; [reflexivity|]. destruct Nl as (N1 & N2). rewrite N1, N2.
        split; [|split; [|split; [exact Hd|]]].
        * unfold g', g_side. cbn [hh]. rewrite setf_other by congruence. rewrite setf_same. lia.
        * rewrite (Nn (fun x => v_del (ver x))); auto.
        * intros Q. exists z. split; [exact Z1|]. destruct Z2 as [->|Z2]; [lia|exact Z2].
  Qed.
End Core.
