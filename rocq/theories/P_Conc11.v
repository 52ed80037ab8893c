(* Concurrent layer: a node gets a new right neighbour. *)
From Verif Require Import Lib M_Tree M_Stampc P_Stampc1 M_Conc P_Conc1 P_Conc2 P_Conc3 P_Conc4 P_Conc5 P_Conc6 P_Conc7 P_Conc8 P_Conc9.

(* n keeps [ll, m), the new node c has [m, hh). *)
Definition g_side (g : gst) (n c : nat) (m l0c spc : Z) (us' : nat -> option nat) (ul' : nat -> bool) : gst :=
  MkG (setf (l0 g) c l0c) (setf (ll g) c m) (setf (setf (hh g) c (hh g n)) n m) (setf (sp g) c spc) (setf (pd g) n (Some c)) us' (rp g) ul' (ze g).

Section Side.
  Variables (s : cst) (g : gst) (t n : nat) (m l0c spc : Z) (v' vc : cver) (Lk Rk : list (option nat)) (Lks Rks : list Z)
            (us' : nat -> option nat) (ul' : nat -> bool) (s' : cst).
  Hypothesis G : GI s g.
  Let c := fr s.
  Let g' := g_side g n c m l0c spc us' ul'.
  Hypothesis Hn : (n < fr s)%nat.
  Hypothesis Hpd : pd g n = None.
  Hypothesis Hnp : forall x, pd g x <> Some n.
  Hypothesis Hun : forall x, us g x <> Some n.
  Hypothesis Hm : ll g n <= m <= hh g n /\ sp g n < m /\ 0 < l0c /\ spc <= m /\ spc < hh g n.
  Hypothesis Ef : fr s' = S c.
  Hypothesis Er : rootp s' = rootp s.
  Hypothesis Ei : forall x, isl (nd s' x) = if (x =? c)%nat then isl (nd s n) else isl (nd s x).
  Hypothesis Ev : forall x, ver (nd s' x) = if (x =? c)%nat then vc else if (x =? n)%nat then v' else ver (nd s x).
  Hypothesis Ekeys : forall x, keys (nd s' x) = if (x =? c)%nat then Rks else if (x =? n)%nat then Lks else keys (nd s x).
  Hypothesis Ekids : forall x, kids (nd s' x) = if (x =? c)%nat then Rk else if (x =? n)%nat then Lk else kids (nd s x).
  Hypothesis Epar1 : par (nd s' c) = None.
  Hypothesis Epar2 : forall x, In (Some x) Rk -> par (nd s' x) = Some c.
  Hypothesis Epar3 : forall x, x <> c -> ~ In (Some x) Rk -> par (nd s' x) = par (nd s x).
  Hypothesis Elo : forall x, (x < fr s)%nat -> lo (nd s' x) = lo (nd s x).
  Hypothesis Erws : forall x, (x < fr s)%nat -> x <> n -> rws (nd s' x) = rws (nd s x).
  (* the two halves of an internode *)
  Hypothesis HR : forall x, In (Some x) Rk -> isl (nd s n) = false /\ In (Some x) (kids (nd s n)) /\ 0 < l0 g x.
  Hypothesis HL : isl (nd s n) = false -> forall x, In (Some x) Lk -> In (Some x) (kids (nd s n)) /\ ~ In (Some x) Rk.
  Hypothesis HLnd : isl (nd s n) = false -> NoDup (ks Lk) /\ NoDup (ks Rk).
  Hypothesis HLi : isl (nd s n) = false -> exists k0 tl, Lk = k0 :: tl /\ Forall2 (kok g) Lks tl /\ (forall x, k0 = Some x -> l0 g x <= l0 g n).
  Hypothesis HRi : isl (nd s n) = false -> exists f tl, Rk = Some f :: tl /\ Forall2 (kok g) Rks tl /\ l0 g f <= l0c /\ aft g spc f.
  Hypothesis HLc : isl (nd s n) = false -> chain g (ll g n) (lkids g Lk) m /\ chain g m (lkids g Rk) (hh g n) /\ rp g n = None.
  Hypothesis HLf : isl (nd s n) = false -> forall f, first_kid Lk = Some f -> aft g (sp g n) f.
  Hypothesis HL0 : isl (nd s n) = false -> forall tl, Lk = None :: tl -> 0 < l0 g n.
  Hypothesis Hvi : isl (nd s n) = false -> v_spl v' = true /\ v_del v' = false /\ v_del vc = false.
  Hypothesis Hvl : v_lk v' = true /\ v_lk vc = true /\ vmono (ver (nd s n)) v'.
  Hypothesis Hvs : v_spl v' = false -> v_spl (ver (nd s n)) = false /\ v_rt v' = v_rt (ver (nd s n)) /\ us' n = Some c /\ us g n = None.
  Hypothesis Hus1 : isl (nd s n) = true -> us' n = Some c.
  Hypothesis Hus2 : forall x, x <> n -> us' x = us g x.
  Hypothesis Hul : forall x, (x < fr s)%nat -> ul' x = ul g x.
  Hypothesis HGL : GL s' g'.
  Hypothesis Hbd : forall x, bd s g x -> bd s' g' x.
  Hypothesis Hbm : bd s' g' m.

  Let GA := gi_t _ _ G.
  Let GB := gi_l _ _ G.
  Let GC := gi_v _ _ G.
  Lemma sd_lt x : (x < S c)%nat -> x = c \/ (x < fr s)%nat. Proof. unfold c. intros. lia. Qed.
  Lemma sd_e x : (x < fr s)%nat -> (x =? c)%nat = false. Proof. intros H. apply Nat.eqb_neq. unfold c. lia. Qed.
  Lemma sd_l0 x : l0 g' x = if (x =? c)%nat then l0c else l0 g x. Proof. reflexivity. Qed.
  Lemma sd_ll x : ll g' x = if (x =? c)%nat then m else ll g x. Proof. reflexivity. Qed.
  Lemma sd_hh x : hh g' x = if (x =? n)%nat then m else if (x =? c)%nat then hh g n else hh g x. Proof. reflexivity. Qed.
  Lemma sd_sp x : sp g' x = if (x =? c)%nat then spc else sp g x. Proof. reflexivity. Qed.
  Lemma sd_pd x : pd g' x = if (x =? n)%nat then Some c else pd g x. Proof. reflexivity. Qed.
  Lemma sd_cn : (c =? n)%nat = false. Proof. apply Nat.eqb_neq. unfold c. lia. Qed.
  Lemma sd_pdc : pd g c = None.
  Proof. destruct (pd g c) as [d|] eqn:E; [|reflexivity]. destruct (gt_pd _ _ GA _ _ E) as (A & _). destruct (Nat.lt_irrefl _ A). Qed.
  Lemma sd_rpc : rp g c = None.
  Proof. destruct (rp g c) as [d|] eqn:E; [|reflexivity]. destruct (gt_rp _ _ GA _ _ E) as (A & _). destruct (Nat.lt_irrefl _ A). Qed.
  Lemma sd_ehi x : (x < fr s)%nat -> ehi g' x = ehi g x.
  Proof.
    intros Hx. unfold ehi. rewrite sd_pd. destruct (Nat.eqb_spec x n) as [->|N].
    - rewrite sd_hh, sd_cn, Nat.eqb_refl, Hpd. reflexivity.
    - destruct (pd g x) as [e|] eqn:E; rewrite sd_hh.
      + destruct (gt_pd _ _ GA _ _ E) as (_ & A & _). rewrite (sd_e e A). destruct (Nat.eqb_spec e n) as [->|]; [destruct (Hnp x E)|reflexivity].
      + rewrite (sd_e x Hx). destruct (Nat.eqb_spec x n); [contradiction|reflexivity].
  Qed.
  Lemma sd_aft k x : (x < fr s)%nat -> aft g k x -> aft g' k x.
  Proof. intros Hx. unfold aft. now rewrite sd_ll, sd_sp, (sd_e x Hx). Qed.
  Lemma sd_kok k x : (x < fr s)%nat -> kok g k (Some x) -> kok g' k (Some x).
  Proof. intros Hx (y & E & A & B). injection E as <-. exists x. rewrite sd_l0, (sd_e x Hx). split; [reflexivity|]. split; [exact A|now apply sd_aft]. Qed.
  (* In every list of children n is followed by c. *)
  Lemma sd_ch b : forall l a, (forall x, In (Some x) l -> (x < fr s)%nat) -> chain g a (lkids g l) b -> chain g' a (lkids g' l) b.
  Proof.
    induction l as [|o l IH]; intros a Hl; [exact (fun H => H)|]. change (lkids ?gg (o :: l)) with (subs gg o ++ lkids gg l). intros C.
    apply chain_app in C. destruct C as (z & C1 & C2). apply chain_app. exists z.
    assert (IH' : chain g' z (lkids g' l) b) by (apply IH; [intros x Hx; apply Hl; now right|exact C2]). split; [|exact IH'].
    destruct o as [x|]; [|exact C1]. assert (Hx : (x < fr s)%nat) by (apply Hl; now left). destruct (chain_subs _ _ _ _ C1) as (-> & ->).
    rewrite <- (sd_ehi x Hx). replace (ll g x) with (ll g' x) by (rewrite sd_ll, (sd_e x Hx); reflexivity). apply chain_subs_i.
    intros d. rewrite sd_pd. destruct (Nat.eqb_spec x n) as [->|N].
    - intros E. injection E as <-. rewrite sd_hh, sd_ll, !Nat.eqb_refl. reflexivity.
    - intros E. destruct (gt_pd _ _ GA _ _ E) as (_ & A & B & _). rewrite sd_hh, sd_ll, (sd_e x Hx), (sd_e d A). destruct (Nat.eqb_spec x n); [contradiction|exact B].
  Qed.
  Lemma sd_Rfr x : In (Some x) Rk -> (x < fr s)%nat /\ par (nd s x) = Some n /\ isl (nd s n) = false.
  Proof. intros H. destruct (HR x H) as (A & B & _). destruct (gt_kid _ _ GA _ _ Hn A B). auto. Qed.
  Lemma sd_par x q : (x < fr s)%nat -> par (nd s x) = Some q -> q <> n -> par (nd s' x) = Some q.
  Proof.
    intros Hx E N. rewrite Epar3; [exact E|intros Q; pose proof (sd_e x Hx) as Q2; rewrite Q, Nat.eqb_refl in Q2; discriminate|].
    intros Q. destruct (sd_Rfr x Q) as (_ & Q2 & _). congruence.
  Qed.
  Lemma sd_parn x : (x < fr s)%nat -> par (nd s x) = None -> par (nd s' x) = None.
  Proof.
    intros Hx E. rewrite Epar3; [exact E|intros Q; pose proof (sd_e x Hx) as Q2; rewrite Q, Nat.eqb_refl in Q2; discriminate|].
    intros Q. destruct (sd_Rfr x Q) as (_ & Q2 & _). congruence.
  Qed.
  Lemma sd_parb x q : (x < fr s)%nat -> par (nd s' x) = Some q -> (q = c /\ In (Some x) Rk) \/ par (nd s x) = Some q.
  Proof.
    intros Hx. destruct (in_dec Nat.eq_dec x (ks Rk)) as [H|H]; rewrite in_ks in H.
    - rewrite (Epar2 x H). intros E. injection E as <-. now left.
    - rewrite Epar3; [auto|intros Q; pose proof (sd_e x Hx) as Q2; rewrite Q, Nat.eqb_refl in Q2; discriminate|exact H].
  Qed.
  Lemma sd_parc x : (x < fr s)%nat -> par (nd s' x) = None -> par (nd s x) = None.
  Proof.
    intros Hx. destruct (in_dec Nat.eq_dec x (ks Rk)) as [H|H]; rewrite in_ks in H.
    - rewrite (Epar2 x H). discriminate.
    - rewrite Epar3; [auto|intros Q; pose proof (sd_e x Hx) as Q2; rewrite Q, Nat.eqb_refl in Q2; discriminate|exact H].
  Qed.

  Lemma sd_GT : GT s' g'.
  Proof.
    pose proof GA as [H1 H2 H3 H4 H5 H6 H7 H8 H9 H10 H11]. pose proof sd_cn as Ecn.
    assert (Hcc : (c <? S c)%nat = true) by (apply Nat.ltb_lt; lia).
    constructor.
    - intros a p. rewrite Ef. intros A. destruct (sd_lt a A) as [->|Ha]; [rewrite Epar1; discriminate|]. intros E. destruct (sd_parb a p Ha E) as [(-> & Q)|Q].
      + destruct (HR a Q) as (Q1 & _ & Q2). rewrite Ei, !sd_l0, Nat.eqb_refl, (sd_e a Ha). split; [lia|]. split; [exact Q1|lia].
      + destruct (H1 a p Ha Q) as (B & C & D). rewrite Ei, !sd_l0, (sd_e a Ha), (sd_e p B). split; [unfold c; lia|auto].
    - intros p x. rewrite Ef, Ei, Ekids. intros A. destruct (sd_lt p A) as [->|Hp].
      + rewrite Nat.eqb_refl. intros _ Q. destruct (sd_Rfr x Q) as (B & _). split; [unfold c; lia|auto].
      + rewrite (sd_e p Hp). intros B. destruct (Nat.eqb_spec p n) as [->|N].
        * intros Q. destruct (HL B x Q) as (Q1 & Q2). destruct (H2 n x Hn B Q1) as (C & D). split; [unfold c; lia|]. rewrite Epar3; [exact D|unfold c; lia|exact Q2].
        * intros Q. destruct (H2 p x Hp B Q) as (C & D). split; [unfold c; lia|]. now apply sd_par.
    - intros p. rewrite Ef, Ei, Ekids. intros A. destruct (sd_lt p A) as [->|Hp].
      + rewrite Nat.eqb_refl. intros B. now apply HLnd.
      + rewrite (sd_e p Hp). intros B. destruct (Nat.eqb_spec p n) as [->|N]; [now apply HLnd|auto].
    - intros p. rewrite Ef, Ei, Ekids, Ekeys. intros A. destruct (sd_lt p A) as [->|Hp].
      + rewrite Nat.eqb_refl. intros B. destruct (HRi B) as (f & tl & C1 & C2 & C3 & _). exists (Some f), tl. split; [exact C1|]. split.
        * revert C2. apply F2_impl. intros k o Ho Q. pose proof Q as (x & -> & _). apply sd_kok; [|exact Q]. apply (sd_Rfr x). rewrite C1. now right.
        * intros x E. injection E as <-. rewrite !sd_l0, Nat.eqb_refl, (sd_e f); [exact C3|]. apply (sd_Rfr f). rewrite C1. now left.
      + rewrite (sd_e p Hp). intros B. destruct (Nat.eqb_spec p n) as [->|N].
        * destruct (HLi B) as (k0 & tl & C1 & C2 & C3). assert (Lf : forall x, In (Some x) Lk -> (x < fr s)%nat) by (intros x Q; apply (H2 n x Hn B), (HL B x Q)).
          exists k0, tl. split; [exact C1|]. split.
          -- revert C2. apply F2_impl. intros k o Ho Q. pose proof Q as (x & -> & _). apply sd_kok; [|exact Q]. apply Lf. rewrite C1. now right.
          -- intros x E. rewrite !sd_l0, (sd_e n Hn), (sd_e x); [auto|]. apply Lf. rewrite C1, E. now left.
        * destruct (H4 p Hp B) as (k0 & tl & C1 & C2 & C3). assert (Lf : forall x, In (Some x) (kids (nd s p)) -> (x < fr s)%nat) by (intros x Q; apply (H2 p x Hp B Q)).
          exists k0, tl. split; [exact C1|]. split.
          -- revert C2. apply F2_impl. intros k o Ho Q. pose proof Q as (x & -> & _). apply sd_kok; [|exact Q]. apply Lf. rewrite C1. now right.
          -- intros x E. rewrite !sd_l0, (sd_e p Hp), (sd_e x); [auto|]. apply Lf. rewrite C1, E. now left.
    - intros p. rewrite Ef, Ei, Ekids. intros A. change (rp g' p) with (rp g p). rewrite sd_ll, sd_hh. destruct (sd_lt p A) as [->|Hp].
      + rewrite Nat.eqb_refl, Ecn. intros B. destruct (HLc B) as (_ & C & _). rewrite sd_rpc. cbn [subs app]. apply sd_ch; [|exact C]. intros x Q. apply (sd_Rfr x Q).
      + rewrite (sd_e p Hp). intros B. destruct (Nat.eqb_spec p n) as [->|N].
        * destruct (HLc B) as (C & _ & D). rewrite D. cbn [subs app]. apply sd_ch; [|exact C]. intros x Q. apply (H2 n x Hn B), (HL B x Q).
        * pose proof (H5 p Hp B) as C. change (subs ?gg (rp g p) ++ lkids ?gg ?l) with (lkids gg (rp g p :: l)) in *. apply sd_ch; [|exact C].
          intros x [Q|Q]; [now apply (H7 p x Q)|now apply (H2 p x Hp B)].
    - intros p f. rewrite Ef, Ei, Ekids, sd_sp. intros A. destruct (sd_lt p A) as [->|Hp].
      + rewrite Nat.eqb_refl. intros B. destruct (HRi B) as (h & tl & C1 & _ & _ & C2). rewrite C1. cbn [first_kid]. intros E. injection E as <-. apply sd_aft; [|exact C2].
        apply (sd_Rfr h). rewrite C1. now left.
      + rewrite (sd_e p Hp). intros B. destruct (Nat.eqb_spec p n) as [->|N]; intros Q.
        * apply sd_aft; [|now apply HLf]. apply (H2 n f Hn B), (HL B f). now apply first_in.
        * apply sd_aft; [|now apply H6]. apply (H2 p f Hp B). now apply first_in.
    - intros p r E. change (rp g' p) with (rp g p) in E. destruct (H7 p r E) as (A & B & C & D & F & I1 & I2).
      assert (N : p <> n) by (intros ->; destruct (HLc B) as (_ & _ & Q); congruence).
      rewrite Ef, Ei, Ekids, !sd_l0, sd_sp, (sd_e p A), (sd_e r D). destruct (Nat.eqb_spec p n); [contradiction|].
      split; [unfold c; lia|]. split; [exact B|]. split; [exact C|]. split; [unfold c; lia|]. split; [now apply sd_par|]. split; [exact I1|now apply sd_aft].
    - intros x d. rewrite sd_pd. destruct (Nat.eqb_spec x n) as [->|N].
      + intros E. injection E as <-. rewrite Ef, sd_hh, sd_ll, sd_pd, sd_l0, !Ei, !Nat.eqb_refl, Ecn, (sd_e n Hn), sd_pdc. repeat split; auto; try (unfold c; lia).
      + intros E. destruct (H8 x d E) as (A & B & C & D & F & I1 & I2). assert (Nd : d <> n) by (intros ->; exact (Hnp x E)).
        rewrite Ef, sd_hh, sd_ll, sd_pd, sd_l0, !Ei, (sd_e x A), (sd_e d B). destruct (Nat.eqb_spec x n); [contradiction|]. destruct (Nat.eqb_spec d n); [contradiction|].
        split; [unfold c; lia|]. split; [unfold c; lia|]. split; [exact C|]. split; [exact D|]. split; [now apply sd_parn|auto].
    - intros a. rewrite Ef. intros A B. destruct (sd_lt a A) as [->|Ha]; [left; exists n; rewrite sd_pd, Nat.eqb_refl; reflexivity|].
      rewrite sd_l0, (sd_e a Ha), (sd_ehi a Ha). destruct (H9 a Ha (sd_parc a Ha B)) as [(x & Q)|Q]; [|now right]. left. exists x. rewrite sd_pd.
      destruct (Nat.eqb_spec x n) as [->|_]; [congruence|exact Q].
    - rewrite Ef, Er, sd_l0. destruct H10 as (A & B). rewrite (sd_e _ A). split; [unfold c; lia|exact B].
    - intros a. rewrite Ef, sd_l0, sd_ll, sd_hh, sd_sp. intros A. pose proof (H11 n Hn). destruct (sd_lt a A) as [->|Ha].
      + rewrite Nat.eqb_refl, Ecn. lia.
      + rewrite (sd_e a Ha). destruct (Nat.eqb_spec a n) as [->|_]; [lia|now apply H11].
  Qed.
  Lemma sd_rh x : (x < fr s)%nat -> v_spl (ver (nd s' x)) = false -> rh g' x = rh g x.
  Proof.
    intros Hx. rewrite Ev, (sd_e x Hx). unfold rh. change (us g' x) with (us' x). destruct (Nat.eqb_spec x n) as [->|N].
    - intros Q. destruct (Hvs Q) as (_ & _ & Q1 & Q2). rewrite Q1, Q2, sd_hh, sd_cn, Nat.eqb_refl. reflexivity.
    - intros _. rewrite (Hus2 x N). destruct (us g x) as [d|] eqn:E; rewrite sd_hh.
      + destruct (gl_us _ _ GB _ _ E) as (_ & (A & _) & _). rewrite (sd_e d A). destruct (Nat.eqb_spec d n) as [->|_]; [destruct (Hun x E)|reflexivity].
      + rewrite (sd_e x Hx). destruct (Nat.eqb_spec x n); [contradiction|reflexivity].
  Qed.
  Lemma sd_GV : GV s' g'.
  Proof.
    pose proof GC as [H1 H2 H3 H4 H5 H6 H7]. pose proof sd_cn as Ecn. constructor.
    - intros x d. rewrite sd_pd. destruct (Nat.eqb_spec x n) as [->|N].
      + intros E. injection E as <-. rewrite Ei, Ev, (sd_e n Hn), Nat.eqb_refl. change (us g' n) with (us' n). split; [exact Hus1|intros Q; now apply Hvi].
      + intros E. destruct (gt_pd _ _ GA _ _ E) as (A & _). rewrite Ei, Ev, (sd_e x A). destruct (Nat.eqb_spec x n); [contradiction|]. change (us g' x) with (us' x). rewrite (Hus2 x N).
        exact (H1 x d E).
    - intros a. rewrite Ef, sd_ll, sd_hh. intros A. destruct (sd_lt a A) as [->|Ha].
      + rewrite Nat.eqb_refl, Ecn. split; [exact Hbm|now apply Hbd, H2].
      + rewrite (sd_e a Ha). destruct (H2 a Ha). destruct (Nat.eqb_spec a n) as [->|_]; split; auto.
    - intros a. rewrite Ef, Ev. intros A. destruct (sd_lt a A) as [->|Ha]; [rewrite Nat.eqb_refl; intros _; apply Hvl|].
      rewrite (sd_e a Ha). destruct (Nat.eqb_spec a n) as [->|_]; [intros _; apply Hvl|now apply H3].
    - intros a. rewrite Ef, sd_l0. intros A. destruct (sd_lt a A) as [->|Ha]; [rewrite Nat.eqb_refl; lia|]. rewrite (sd_e a Ha). intros B C D.
      rewrite (sd_rh a Ha D). rewrite Ev, (sd_e a Ha) in B, D. destruct (Nat.eqb_spec a n) as [->|_]; [|now apply H4].
      destruct (Hvs D) as (Q1 & Q2 & _). apply H4; auto. congruence.
    - intros a. rewrite Ef. intros A B C D. destruct (sd_lt a A) as [->|Ha]; [destruct (C n); rewrite sd_pd, Nat.eqb_refl; reflexivity|].
      rewrite sd_pd in D. destruct (Nat.eqb_spec a n) as [->|N]; [discriminate|]. rewrite Ev, (sd_e a Ha). destruct (Nat.eqb_spec a n); [contradiction|].
      apply H5; auto; [now apply sd_parc|]. intros x Q. apply (C x). rewrite sd_pd. destruct (Nat.eqb_spec x n) as [->|_]; [congruence|exact Q].
    - intros p tl. rewrite Ef, Ei, Ev, Ekids, sd_l0. intros A. destruct (sd_lt p A) as [->|Hp].
      + rewrite Nat.eqb_refl. lia.
      + rewrite (sd_e p Hp). intros B. destruct (Nat.eqb_spec p n) as [->|_]; [intros _; now apply HL0|now apply H6].
    - intros p. rewrite Ef, Ei, Ev, Ekids. intros A. destruct (sd_lt p A) as [->|Hp].
      + rewrite Nat.eqb_refl. intros B. destruct (Hvi B) as (_ & _ & Q). congruence.
      + rewrite (sd_e p Hp). intros B. destruct (Nat.eqb_spec p n) as [->|_]; [destruct (Hvi B) as (_ & Q & _); congruence|now apply H7].
  Qed.
  Lemma sd_Rel : Rel s g s' g'.
  Proof.
    constructor.
    - rewrite Ef. unfold c. lia.
    - intros a A. now rewrite Ei, (sd_e a A).
    - intros a A. rewrite sd_l0, (sd_e a A). lia.
    - intros a A. rewrite sd_l0, (sd_e a A). lia.
    - intros a A. rewrite Ev, (sd_e a A). destruct (Nat.eqb_spec a n) as [->|_]; [apply Hvl|apply vmono_refl].
    - intros a A B Q. apply B. now apply sd_parc.
    - intros a A B. rewrite (sd_rh a A B). lia.
    - intros a A B. rewrite Ev, Ekeys, Ekids, (sd_e a A). destruct (Nat.eqb_spec a n) as [->|_].
      + destruct (Hvi B) as (Q & _). unfold v_dirty. rewrite Q, orb_true_r. discriminate.
      + intros _. split; [reflexivity|]. split; [reflexivity|]. intros x Hx. destruct (gt_kid _ _ GA a x A B Hx) as (Q & _). rewrite (sd_ehi x Q). lia.
  Qed.
  Lemma sd_Frame : (forall t' a, t' <> t -> In a (holds (pcs s t')) -> (a < fr s)%nat /\ a <> n) -> (forall t', t' <> t -> pcs s' t' = pcs s t') -> Frame s g s' g' t.
  Proof.
    intros Hh Ep. constructor.
    - intros t' a N H. destruct (Hh t' a N H) as (A & B). rewrite Ev, Ekeys, Ekids, Erws, sd_l0, sd_ll, sd_hh, sd_sp, (sd_e a A) by assumption.
      destruct (Nat.eqb_spec a n); [contradiction|]. change (ul g' a) with (ul' a). rewrite (Hul a A). repeat split; auto; lia.
    - intros t' a x N H Hx Hp. destruct (Hh t' a N H) as (A & B). split; [now apply sd_par|]. rewrite sd_ll, sd_sp, (sd_e x Hx). lia.
    - exact Elo.
    - exact Ep.
  Qed.
  Lemma side_adv : (forall t' a, t' <> t -> In a (holds (pcs s t')) -> (a < fr s)%nat /\ a <> n) -> (forall t', t' <> t -> pcs s' t' = pcs s t') -> Adv s g s' g' t.
  Proof. intros A B. split; [constructor; [apply sd_GT|exact HGL|apply sd_GV]|]. split; [apply sd_Rel|now apply sd_Frame]. Qed.
End Side.
