(* Concurrent layer: splits of internodes and leaves. *)
From Verif Require Import Lib M_Tree M_Stampc P_Stampc1 M_Conc P_Conc1 P_Conc2 P_Conc3 P_Conc4 P_Conc5 P_Conc6 P_Conc7 P_Conc8 P_Conc9 P_Conc11.
From Coq Require Import Sorting.Sorted.

Section Isplit.
  Variables (s : cst) (g : gst) (t p mid : nat) (s' : cst).
  Let nr := fr s.
  Let K := keys (nd s p).
  Let C := kids (nd s p).
  Let Rk := skipn (S mid) C.
  Hypothesis G : GI s g.
  Hypothesis Hp : (p < fr s)%nat.
  Hypothesis Hpi : isl (nd s p) = false.
  Hypothesis Hlk : v_lk (ver (nd s p)) = true.
  Hypothesis Hpd : pd g p = None.
  Hypothesis Hnp : forall x, pd g x <> Some p.
  Hypothesis Hmid : (1 <= mid < length K)%nat.
  Hypothesis Ef : fr s' = S nr.
  Hypothesis Er : rootp s' = rootp s.
  Hypothesis Ei : forall x, isl (nd s' x) = if (x =? nr)%nat then false else isl (nd s x).
  Hypothesis Ev : forall x, ver (nd s' x) = if (x =? nr)%nat then v_nonroot (ver (nd s p)) else if (x =? p)%nat then v_mspl (ver (nd s p)) else ver (nd s x).
  Hypothesis Ekeys : forall x, keys (nd s' x) = if (x =? nr)%nat then skipn (S mid) K else if (x =? p)%nat then firstn mid K else keys (nd s x).
  Hypothesis Ekids : forall x, kids (nd s' x) = if (x =? nr)%nat then Rk else if (x =? p)%nat then firstn (S mid) C else kids (nd s x).
  Hypothesis Epar1 : par (nd s' nr) = None.
  Hypothesis Epar2 : forall x, In (Some x) Rk -> par (nd s' x) = Some nr.
  Hypothesis Epar3 : forall x, x <> nr -> ~ In (Some x) Rk -> par (nd s' x) = par (nd s x).
  Hypothesis El : forall x, (x < fr s)%nat -> lo (nd s' x) = lo (nd s x) /\ rws (nd s' x) = rws (nd s x) /\ zk (nd s' x) = zk (nd s x) /\ nxt (nd s' x) = nxt (nd s x) /\ prv (nd s' x) = prv (nd s x).
  Hypothesis Hze : forall a, ze g a = true -> (a < fr s)%nat /\ isl (nd s a) = true.
  Hypothesis Hh : forall t' a, t' <> t -> In a (holds (pcs s t')) -> (a < fr s)%nat /\ a <> p.
  Hypothesis Ep : forall t', t' <> t -> pcs s' t' = pcs s t'.
  Lemma isplit_adv : exists f, let g' := g_side g p nr (ll g f) (l0 g f) (nth mid K 0) (us g) (ul g) in Adv s g s' g' t /\ SK g' nr (nth mid K 0).
  Proof.
    pose proof G as [GA GB GC]. destruct (gt_int _ _ GA p Hp Hpi) as (k0 & tl & C1 & C2 & C3). fold K in C2. fold C in C1.
    pose proof (F2_len _ _ _ C2) as EL. assert (Hm2 : (mid < length K)%nat) by lia.
    destruct (F2_cut _ _ _ mid 0 None C2 Hm2) as (Q1 & f & Q2 & (F1 & F2) & F3). rewrite Q2 in Q1.
    assert (ER : Rk = Some f :: skipn (S mid) tl) by (unfold Rk; rewrite C1; exact Q1).
    assert (ECC : C = firstn (S mid) C ++ Rk) by (symmetry; apply firstn_skipn).
    assert (Hf : In (Some f) C) by (rewrite ECC, ER; apply in_or_app; right; now left).
    destruct (gt_kid _ _ GA p f Hp Hpi Hf) as (Hff & _).
    pose proof (kid_del _ _ _ _ G Hp Hpi Hf) as Hdel.
    pose proof (rp_some _ _ _ _ GA Hf) as Hrp. pose proof (gt_chain _ _ GA p Hp Hpi) as Ch. rewrite Hrp in Ch. cbn [subs app] in Ch. fold C in Ch.
    rewrite ECC, lkids_app in Ch. apply chain_app in Ch. destruct Ch as (z & Ch1 & Ch2).
    assert (Ez : z = ll g f). { rewrite ER in Ch2. cbn [lkids flat_map subs app chain] in Ch2. symmetry. apply Ch2. }
    subst z.
    assert (Le : forall l x, (forall o, In o l -> In o C) -> In x (lkids g l) -> ll g x <= hh g x).
    { intros l x Hl Hx. apply (lkids_le s g p GA Hp Hpi). destruct (in_lkids _ _ _ Hx) as (d & A & B). unfold lkids. apply in_flat_map. exists (Some d). split; [now apply Hl|].
      cbn [subs In]. destruct B as [->|B]; [now left|]. right. rewrite B. now left. }
    assert (L1 : forall o, In o (firstn (S mid) C) -> In o C) by (intros o; apply in_firstn).
    assert (L2 : forall o, In o Rk -> In o C) by (intros o; apply in_skipn).
    pose proof (chain_le _ _ _ _ (fun x => Le _ x L1) Ch1) as N1. pose proof (chain_le _ _ _ _ (fun x => Le _ x L2) Ch2) as N2.
    destruct (aft_num _ _ _ _ GA Hff F3) as (N3 & N4).
    assert (N5 : hh g f <= hh g p).
    { apply (chain_in g f _ _ _ (fun x => Le _ x L2) Ch2). rewrite ER. cbn [lkids flat_map subs app]. now left. }
    assert (Hfst : exists h, first_kid C = Some h /\ first_kid (firstn (S mid) C) = Some h /\ In (Some h) (firstn (S mid) C)).
    { rewrite C1. destruct k0 as [x|].
      - exists x. split; [reflexivity|]. split; [reflexivity|now left].
      - destruct mid as [|mid']; [lia|]. destruct tl as [|[x|] tl']; [cbn in EL; lia| |].
        + exists x. split; [reflexivity|]. split; [reflexivity|]. right. now left.
        + destruct (F2_in_r _ _ _ None C2 (or_introl eq_refl)) as (k & x & E & _). discriminate. }
    destruct Hfst as (h & A1 & A2 & A3). pose proof (gt_fst _ _ GA p h Hp Hpi A1) as A4.
    destruct (gt_kid _ _ GA p h Hp Hpi (L1 _ A3)) as (Hhf & _). pose proof (gt_num _ _ GA h Hhf) as (B1 & B2 & B3 & B4).
    assert (N6 : hh g h <= ll g f).
    { apply (chain_in g h _ _ _ (fun x => Le _ x L1) Ch1). apply in_flat_map. exists (Some h). split; [exact A3|now left]. }
    assert (N7 : sp g p < ll g f) by (unfold aft in A4; lia).
    pose proof (gt_nd _ _ GA p Hp Hpi) as ND. fold C in ND. rewrite ECC, ks_app in ND.
    exists f. intros g'.
    assert (P1 : (fr s <= fr s')%nat) by (rewrite Ef; unfold nr; lia).
    assert (E0 : forall x, (x < fr s)%nat -> (x =? nr)%nat = false) by (intros x Hx; apply Nat.eqb_neq; unfold nr; lia).
    assert (P2 : forall a, (a < fr s)%nat -> isl (nd s' a) = isl (nd s a)) by (intros a A; now rewrite Ei, (E0 a A)).
    assert (P3 : forall a, (fr s <= a < fr s')%nat -> isl (nd s' a) = false) by (intros a A; rewrite Ef in A; rewrite Ei; replace a with nr by (unfold nr in *; lia); now rewrite Nat.eqb_refl).
    assert (P4 : forall a, (a < fr s)%nat -> isl (nd s a) = true -> ver (nd s' a) = ver (nd s a) /\ lo (nd s' a) = lo (nd s a) /\
      rws (nd s' a) = rws (nd s a) /\ zk (nd s' a) = zk (nd s a) /\ nxt (nd s' a) = nxt (nd s a) /\ prv (nd s' a) = prv (nd s a)).
    { intros a A B. split; [|now apply El]. rewrite Ev, (E0 a A). destruct (Nat.eqb_spec a p) as [->|]; [congruence|reflexivity]. }
    assert (P5 : forall a, (a < fr s)%nat -> isl (nd s a) = true -> ll g' a = ll g a /\ hh g' a = hh g a /\ l0 g' a = l0 g a /\ sp g' a = sp g a).
    { intros a A B. unfold g', g_side. cbn [ll hh l0 sp]. unfold setf. rewrite (E0 a A). destruct (Nat.eqb_spec a p) as [->|]; [congruence|auto]. }
    assert (P6 : forall a, ze g a = true -> v_spl (ver (nd s' a)) = true).
    { intros a A. destruct (Hze a A) as (A5 & A6). rewrite Ev, (E0 a A5). destruct (Nat.eqb_spec a p) as [->|]; [congruence|]. now apply GB. }
    assert (HGL : GL s' g') by (apply (GL_tree s g s' g' P1 P2 P3 P4 P5 eq_refl eq_refl eq_refl P6 GB)).
    assert (Hbd : forall x, bd s g x -> bd s' g' x) by (intros x; apply lv_bd; auto).
    split.
    - apply (side_adv s g t p (ll g f) (l0 g f) (nth mid K 0) (v_mspl (ver (nd s p))) (v_nonroot (ver (nd s p))) (firstn (S mid) C) Rk (firstn mid K) (skipn (S mid) K) (us g) (ul g) s'); auto.
      + intros x E. destruct (gl_us _ _ GB _ _ E) as (_ & (_ & Q & _) & _). congruence.
      + lia.
      + now rewrite Hpi.
      + intros x Hx. now apply El.
      + intros x Hx _. now apply El.
      + intros x Hx. split; [exact Hpi|]. split; [now apply L2|]. unfold Rk in Hx. rewrite C1 in Hx. cbn [skipn] in Hx. apply in_skipn in Hx.
        destruct (F2_in_r _ _ _ _ C2 Hx) as (k & x' & E & Q & _). injection E as <-. lia.
      + intros _ x Hx. split; [now apply L1|]. intros Hx2. apply (nodup_app_x _ _ x ND); now apply in_ks.
      + intros _. split; [exact (nodup_app_l _ _ ND)|exact (nodup_app_r _ _ ND)].
      + intros _. rewrite C1. exists k0, (firstn mid tl). split; [reflexivity|]. split; [now apply F2_firstn|exact C3].
      + intros _. exists f, (skipn (S mid) tl). split; [exact ER|]. split; [now apply F2_skipn|]. split; [lia|exact F3].
      + intros _ x E. rewrite A2 in E. injection E as <-. exact A4.
      + intros _ tl' E. rewrite C1 in E. cbn [firstn] in E. injection E as -> _. exact (gv_n0 _ _ GC p tl Hp Hpi Hdel C1).
      + cbn. split; [exact Hlk|]. split; [exact Hlk|apply vmono_mspl].
      + discriminate.
      + congruence.
      + apply Hbd. now apply (gv_bd _ _ GC f).
    - split; unfold g', g_side; cbn [l0 sp]; unfold aft; cbn [ll sp]; rewrite !setf_same; [exact F2|right; lia].
  Qed.
End Isplit.

Section Lsplit.
  Variables (s : cst) (g : gst) (t n : nat) (sk : Z) (s' : cst).
  Let c := fr s.
  Hypothesis G : GI s g.
  Hypothesis Hl : linked s g n.
  Hypothesis Hlk : v_lk (ver (nd s n)) = true.
  Hypothesis Hdel : v_del (ver (nd s n)) = false.
  Hypothesis Hpd : pd g n = None.
  Hypothesis Hus : us g n = None.
  Hypothesis Hzn : ze g n = false.
  Hypothesis Hnp : forall x, pd g x <> Some n.
  Hypothesis Hun : forall x, us g x <> Some n.
  Hypothesis Hsk : lo (nd s n) < sk < hh g n.
  Hypothesis Ef : fr s' = S c.
  Hypothesis Er : rootp s' = rootp s.
  Hypothesis Ec : nd s' c = new_leaf (ver (nd s n)) sk (filter (fun r => sk <=? fst r) (rws (nd s n))) sk (nxt (nd s n)) (Some n).
  Hypothesis Eo : forall x, x <> c -> isl (nd s' x) = isl (nd s x) /\ ver (nd s' x) = ver (nd s x) /\ keys (nd s' x) = keys (nd s x) /\ kids (nd s' x) = kids (nd s x) /\
    par (nd s' x) = par (nd s x) /\ lo (nd s' x) = lo (nd s x) /\ rws (nd s' x) = rws (nd s x) /\ zk (nd s' x) = zk (nd s x).
  Hypothesis En : forall x, x <> c -> nxt (nd s' x) = if (x =? n)%nat then Some c else nxt (nd s x).
  Hypothesis Eb : forall x, x <> c -> prv (nd s' x) = match nxt (nd s n) with Some b => if (x =? b)%nat then Some c else prv (nd s x) | None => prv (nd s x) end.
  Hypothesis Hze : forall a, ze g a = true -> (a < fr s)%nat /\ isl (nd s a) = true.
  Hypothesis Hh : forall t' a, t' <> t -> In a (holds (pcs s t')) -> (a < fr s)%nat /\ a <> n.
  Hypothesis Ep : forall t', t' <> t -> pcs s' t' = pcs s t'.
  Let g' := g_side g n c sk sk sk (setf (us g) n (Some c)) (setf (ul g) c false).
  Lemma lsplit_adv : Adv s g s' g' t.
  Proof.
    pose proof G as [GA GB GC]. pose proof Hl as (Hn & Hni & Hul). destruct (gl_link _ _ GB n Hl) as (L1 & L2 & L3 & L4 & L5 & L6).
    destruct (gl_leaf _ _ GB n Hn Hni) as (M1 & M2 & M3 & M4 & M5 & M6). pose proof (gt_num _ _ GA n Hn) as (N1 & N2 & N3 & N4).
    assert (E0 : forall x, (x < fr s)%nat -> x <> c) by (unfold c; intros; lia).
    assert (E1 : forall x, (x < fr s)%nat -> (x =? c)%nat = false) by (intros x Hx; apply Nat.eqb_neq; auto).
    assert (Ecn : (c =? n)%nat = false) by (apply Nat.eqb_neq; unfold c; lia).
    assert (Lt : forall x, (x < S c)%nat -> x = c \/ (x < fr s)%nat) by (unfold c; intros; lia).
    assert (Eh : forall x, hh g' x = if (x =? n)%nat then sk else if (x =? c)%nat then hh g n else hh g x) by reflexivity.
    assert (Ell : forall x, ll g' x = if (x =? c)%nat then sk else ll g x) by reflexivity.
    assert (Eu : forall x, us g' x = if (x =? n)%nat then Some c else us g x) by reflexivity.
    assert (Euc : us g c = None).
    { destruct (us g c) as [d|] eqn:E; [|reflexivity]. destruct (gl_us _ _ GB _ _ E) as ((A & _) & _). unfold c in A. lia. }
    assert (Zc : ze g c = false). { destruct (ze g c) eqn:E; [|reflexivity]. destruct (Hze c E) as (A & _). unfold c in A. lia. }
    assert (Lk1 : forall x, linked s g x -> linked s' g' x).
    { intros x (A & B & D). split; [rewrite Ef; unfold c; lia|]. destruct (Eo x (E0 x A)) as (Q & _). split; [congruence|]. cbn. unfold setf. now rewrite (E1 x A). }
    assert (Lk2 : linked s' g' c) by (split; [rewrite Ef; lia|]; split; [now rewrite Ec|]; cbn; now rewrite setf_same).
    assert (Lk3 : forall x, linked s' g' x -> x = c \/ (x <> c /\ linked s g x)).
    { intros x (A & B & D). rewrite Ef in A. destruct (Lt x A) as [->|Hx]; [now left|]. right. split; [now apply E0|]. destruct (Eo x (E0 x Hx)) as (Q & _). cbn in D. unfold setf in D. rewrite (E1 x Hx) in D.
      split; [exact Hx|]. split; [congruence|exact D]. }
    assert (INF1 : hh g n <= INF). { rewrite L3. unfold nlo. destruct (nxt (nd s n)) as [b|] eqn:Q; [|lia]. destruct (L4 b eq_refl) as (Q1 & _). now apply (gl_leaf _ _ GB b (proj1 Q1) (proj1 (proj2 Q1))). }
    assert (RH : forall x, (x < fr s)%nat -> rh g' x = rh g x).
    { intros x Hx. unfold rh. rewrite Eu. destruct (Nat.eqb_spec x n) as [->|N].
      - rewrite Hus, Eh, Ecn, Nat.eqb_refl. reflexivity.
      - destruct (us g x) as [d|] eqn:E; rewrite Eh.
        + destruct (gl_us _ _ GB _ _ E) as (_ & (A & _) & _). rewrite (E1 d A). destruct (Nat.eqb_spec d n) as [->|_]; [destruct (Hun x E)|reflexivity].
        + rewrite (E1 x Hx). destruct (Nat.eqb_spec x n); [contradiction|reflexivity]. }
    assert (RHc : rh g' c = hh g n) by (unfold rh; rewrite Eu, Ecn, Euc, Eh, Ecn, Nat.eqb_refl; reflexivity).
    assert (RHn : rh g n = hh g n) by (unfold rh; now rewrite Hus).
    assert (HGL : GL s' g').
    { constructor.
      - intros x d. rewrite Eu. destruct (Nat.eqb_spec x n) as [->|N].
        + intros E. injection E as <-. split; [now apply Lk1|]. split; [exact Lk2|]. rewrite Eh, Ell, Eu, !Nat.eqb_refl, Ecn. split; [reflexivity|]. split; [exact Euc|].
          destruct (Eo n (E0 n Hn)) as (_ & Q & _ & _ & _ & _ & Q2 & _). rewrite Q, Q2, Ec. cbn [new_leaf rws]. split; [exact Hdel|].
          intros y Hy. rewrite (row_get_filter (fun z => sk <=? z)). apply Z.leb_le in Hy. now rewrite Hy.
        + intros E. destruct (gl_us _ _ GB _ _ E) as (A & B & D & F & I1 & I2). assert (Nd : d <> n) by (intros ->; exact (Hun x E)).
          destruct (Eo x (E0 x (proj1 A))) as (_ & Q1 & _ & _ & _ & _ & Q2 & _). destruct (Eo d (E0 d (proj1 B))) as (_ & _ & _ & _ & _ & _ & Q3 & _).
          rewrite Eh, Ell, Eu, Q1, Q2, Q3, (E1 x (proj1 A)), (E1 d (proj1 B)). destruct (Nat.eqb_spec x n); [contradiction|]. destruct (Nat.eqb_spec d n); [contradiction|].
          split; [now apply Lk1|]. split; [now apply Lk1|]. auto.
      - intros a. rewrite Ef. intros A. destruct (Lt a A) as [->|Ha].
        + intros _. rewrite Ec. cbn. rewrite !setf_same. split; [reflexivity|]. split; [reflexivity|]. split; [lia|]. split; [discriminate|]. split; [congruence|].
          intros b Hb. destruct (L4 b Hb) as (Q & _). apply Lk1 in Q. destruct Q as (Q1 & Q2 & _). rewrite Ef in Q1. auto.
        + destruct (Eo a (E0 a Ha)) as (Q1 & Q2 & _ & _ & _ & Q3 & Q4 & Q5). rewrite Q1, Q2, Q3, Q4, (En a (E0 a Ha)). intros B. destruct (gl_leaf _ _ GB a Ha B) as (C1 & C2 & C3 & C4 & C5 & C6).
          cbn [g' g_side l0 sp ul]. unfold setf. rewrite (E1 a Ha). do 5 (split; [assumption|]). intros b. destruct (Nat.eqb_spec a n) as [->|_].
          * intros E. injection E as <-. split; [lia|]. now rewrite Ec.
          * intros Hb. destruct (C6 b Hb) as (Q6 & Q7). destruct (Eo b (E0 b Q6)) as (Q8 & _). split; [unfold c; lia|congruence].
      - intros a A. destruct (Lk3 a A) as [->|(Nc & B)].
        + rewrite Ec. cbn [new_leaf lo nxt prv]. rewrite Ell, Eh, Ecn, Nat.eqb_refl. split; [reflexivity|]. split; [lia|]. split.
          * rewrite L3. unfold nlo. destruct (nxt (nd s n)) as [b|] eqn:Q; [|reflexivity]. destruct (L4 b eq_refl) as ((Q1 & _) & _). symmetry. now apply Eo, E0.
          * split; [|split; [|discriminate]].
            -- intros b Hb. destruct (L4 b Hb) as (Q1 & _). split; [now apply Lk1|]. rewrite (Eb b (E0 b (proj1 Q1))), Hb, Nat.eqb_refl. reflexivity.
            -- intros b E. injection E as <-. split; [now apply Lk1|]. rewrite (En n (E0 n Hn)), Nat.eqb_refl. reflexivity.
        + destruct (Eo a Nc) as (_ & _ & _ & _ & _ & Q3 & _). destruct (gl_link _ _ GB a B) as (C1 & C2 & C3 & C4 & C5 & C6).
          assert (Np : forall b, prv (nd s a) = Some b -> b = n -> nxt (nd s n) = Some a) by (intros b Hb ->; now apply C5).
          rewrite Q3, Ell, Eh, (En a Nc), (Eb a Nc), (E1 a (proj1 B)). split; [exact C1|]. destruct (Nat.eqb_spec a n) as [->|N].
          * split; [lia|]. split; [cbn; rewrite Ec; reflexivity|]. split; [intros b E; injection E as <-; split; [exact Lk2|now rewrite Ec]|].
            assert (Q : (match nxt (nd s n) with Some b => if (n =? b)%nat then Some c else prv (nd s n) | None => prv (nd s n) end) = prv (nd s n)).
            { destruct (nxt (nd s n)) as [b|] eqn:Q; [|reflexivity]. destruct (Nat.eqb_spec n b) as [<-|]; [|reflexivity]. cbn in L3. lia. }
            rewrite Q. split; [|exact C6]. intros b Hb. destruct (C5 b Hb) as (Q1 & Q2). split; [now apply Lk1|]. rewrite (En b (E0 b (proj1 Q1))).
            destruct (Nat.eqb_spec b n) as [->|_]; [|exact Q2]. rewrite Q2 in L3. cbn in L3. lia.
          * split; [exact C2|]. split; [|split; [|split]].
            -- rewrite C3. unfold nlo. destruct (nxt (nd s a)) as [b|] eqn:Q; [|reflexivity]. destruct (C4 b eq_refl) as ((Q1 & _) & _). symmetry. now apply Eo, E0.
            -- intros b Hb. destruct (C4 b Hb) as (Q1 & Q2). split; [now apply Lk1|]. rewrite (Eb b (E0 b (proj1 Q1))). destruct (nxt (nd s n)) as [e|] eqn:Q; [|exact Q2].
               destruct (Nat.eqb_spec b e) as [->|_]; [|exact Q2]. destruct (L4 e eq_refl) as (_ & Q4). congruence.
            -- intros b Hb. assert (D : (nxt (nd s n) = Some a /\ b = c) \/ (prv (nd s a) = Some b /\ nxt (nd s n) <> Some a)).
               { destruct (nxt (nd s n)) as [e|] eqn:Q; [|right; split; [exact Hb|discriminate]]. destruct (Nat.eqb_spec a e) as [->|]; [left; split; [reflexivity|congruence]|right; split; [exact Hb|congruence]]. }
               destruct D as [(D & ->)|(D & D2)]; [split; [exact Lk2|]; rewrite Ec; exact D|]. destruct (C5 b D) as (Q1 & Q2). split; [now apply Lk1|].
               rewrite (En b (E0 b (proj1 Q1))). destruct (Nat.eqb_spec b n) as [->|_]; [congruence|exact Q2].
            -- destruct (nxt (nd s n)) as [e|]; [|exact C6]. destruct (Nat.eqb_spec a e); [discriminate|exact C6].
      - intros a. rewrite Ef. intros A. destruct (Lt a A) as [->|Ha].
        + intros _. rewrite Ec. cbn [new_leaf lo rws zk]. rewrite RHc. destruct (gl_rows _ _ GB n Hn Hni) as (B1 & B2 & B3). split; [now apply sorted_filter|]. split.
          * intros y. rewrite (row_get_filter (fun z => sk <=? z)). destruct (Z.leb_spec sk y) as [Q|Q]; [|congruence]. intros Q2. specialize (B2 y Q2). lia.
          * intros _ _. lia.
        + destruct (Eo a (E0 a Ha)) as (Q1 & _ & _ & _ & _ & Q3 & Q4 & Q5). rewrite Q1, Q3, Q4, Q5, (RH a Ha). change (ze g' a) with (ze g a). now apply GB.
      - intros a A. change (ze g' a) with (ze g a) in A. destruct (Hze a A) as (Ha & _). destruct (Eo a (E0 a Ha)) as (_ & Q & _). rewrite Q. now apply GB.
      - intros a b A B. rewrite !Eh. destruct (Lk3 a A) as [->|(Na & A2)]; destruct (Lk3 b B) as [->|(Nb & B2)].
        + congruence.
        + intros N. rewrite Ec. destruct (Eo b Nb) as (_ & _ & _ & _ & _ & Q3 & _). rewrite Q3, Ecn, Nat.eqb_refl. cbn [new_leaf lo]. destruct (Nat.eqb_spec b n) as [->|Nx]; [right; lia|].
          destruct (Nat.eqb_spec b c); [contradiction|]. destruct (gl_disj _ _ GB n b Hl B2 (not_eq_sym Nx)); [left; lia|right; lia].
        + intros N. rewrite Ec. destruct (Eo a Na) as (_ & _ & _ & _ & _ & Q3 & _). rewrite Q3, Ecn, Nat.eqb_refl. cbn [new_leaf lo]. destruct (Nat.eqb_spec a n) as [->|Nx]; [left; lia|].
          destruct (Nat.eqb_spec a c); [contradiction|]. destruct (gl_disj _ _ GB n a Hl A2 (not_eq_sym Nx)); [right; lia|left; lia].
        + intros N. destruct (Eo a Na) as (_ & _ & _ & _ & _ & Q3 & _). destruct (Eo b Nb) as (_ & _ & _ & _ & _ & Q4 & _). rewrite Q3, Q4.
          destruct (Nat.eqb_spec a c); [contradiction|]. destruct (Nat.eqb_spec b c); [contradiction|]. pose proof (gl_disj _ _ GB a b A2 B2 N).
          destruct (Nat.eqb_spec a n) as [->|Na2]; destruct (Nat.eqb_spec b n) as [->|Nb2]; lia. }
    assert (Hbd : forall x, bd s g x -> bd s' g' x).
    { intros x. apply bd_same. intros a Ha. split; [now apply Lk1|]. apply Eo, E0, Ha. }
    assert (Hbm : bd s' g' sk) by (right; exists c; split; [exact Lk2|now rewrite Ec]).
    apply (side_adv s g t n sk sk sk (ver (nd s n)) (ver (nd s n)) (kids (nd s n)) [] (keys (nd s n)) [] (setf (us g) n (Some c)) (setf (ul g) c false) s'); auto; try congruence.
    - lia.
    - intros x. destruct (Nat.eqb_spec x (fr s)) as [->|N]; [fold c; rewrite Ec; cbn; auto|now apply Eo].
    - intros x. destruct (Nat.eqb_spec x (fr s)) as [->|N]; [fold c; rewrite Ec; reflexivity|]. destruct (Nat.eqb_spec x n) as [->|_]; now apply Eo.
    - intros x. destruct (Nat.eqb_spec x (fr s)) as [->|N]; [fold c; rewrite Ec; reflexivity|]. destruct (Nat.eqb_spec x n) as [->|_]; now apply Eo.
    - intros x. destruct (Nat.eqb_spec x (fr s)) as [->|N]; [fold c; rewrite Ec; reflexivity|]. destruct (Nat.eqb_spec x n) as [->|_]; now apply Eo.
    - fold c. now rewrite Ec.
    - intros x [].
    - intros x N _. now apply Eo.
    - intros x Hx. now apply Eo, E0.
    - intros x Hx _. now apply Eo, E0.
    - intros x [].
    - split; [exact Hlk|]. split; [exact Hlk|apply vmono_refl].
    - intros Q. rewrite setf_same. auto.
    - intros _. now rewrite setf_same.
    - intros x N. now apply setf_other.
    - intros x Hx. apply setf_other. now apply E0.
  Qed.
End Lsplit.
