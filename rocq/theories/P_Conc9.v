(* Concurrent layer: removal from, redirection in, and emptying of an internode. *)
From Verif Require Import Lib M_Tree M_Stampc P_Stampc1 M_Conc P_Conc1 P_Conc2 P_Conc3 P_Conc4 P_Conc5 P_Conc6 P_Conc7 P_Conc8.

Lemma kid_del s g p x : GI s g -> (p < fr s)%nat -> isl (nd s p) = false -> In (Some x) (kids (nd s p)) -> v_del (ver (nd s p)) = false.
Proof.
  intros [GA GB GC] Hp Hpi Hin. destruct (v_del (ver (nd s p))) eqn:E; [|reflexivity]. rewrite (gv_dk _ _ GC p Hp Hpi E) in Hin. destruct Hin as [Q|[]]. discriminate.
Qed.
Lemma pd_par s g m e : GT s g -> pd g m = Some e -> par (nd s e) = None.
Proof. intros G E. now destruct (gt_pd _ _ G _ _ E) as (_ & _ & _ & _ & Q & _). Qed.

(* rep = Some r *)
Section OutSome.
  Variables (s : cst) (g : gst) (t n r p : nat) (kp : nat) (s' : cst).
  Hypothesis G : GI s g.
  Hypothesis Hrp : rp g n = Some r.
  Hypothesis Hpd : pd g n = None.
  Hypothesis Hpar : par (nd s n) = Some p.
  Hypothesis Hat : nth kp (kids (nd s p)) None = Some n.
  Hypothesis Hlk : v_lk (ver (nd s p)) = true.
  Hypothesis Hne : p <> n.
  Hypothesis HC : chg s s' t p (v_mins (ver (nd s p))) (keys (nd s p)) (set_at kp (Some r) (kids (nd s p))) (Some r).
  Hypothesis Hm : forall t', t' <> t -> ~ In p (holds (pcs s t')) /\ ~ In n (holds (pcs s t')).
  Hypothesis Hze : forall a, ze g a = true -> (a < fr s)%nat /\ isl (nd s a) = true.
  Let g' := g_one g p n (l0 g p) (sp g p) (hh g n) (pd g) (setf (rp g) n None).
  Lemma os_l0 x : l0 g' x = l0 g x. Proof. cbn. unfold setf. destruct (Nat.eqb_spec x p) as [->|]; reflexivity. Qed.
  Lemma os_sp x : sp g' x = sp g x. Proof. cbn. unfold setf. destruct (Nat.eqb_spec x p) as [->|]; reflexivity. Qed.
  Lemma os_ll x : x <> n -> ll g' x = ll g x. Proof. intros N. cbn. now apply setf_other. Qed.
  Lemma outsome_adv : Adv s g s' g' t /\ 0 <= l0 g r.
  Proof.
    pose proof G as [GA GB GC]. pose proof HC as (Ef & Er & Ei & Ev & Ekeys & Ekids & Epar & El & Ep).
    destruct (gt_rp _ _ GA _ _ Hrp) as (Hn & Hni & Hnk & Hr & Hrpar & Hrl & Hra).
    destruct (gt_par _ _ GA n p Hn Hpar) as (Hp & Hpi & Hl0p). destruct (gt_par _ _ GA r n Hr Hrpar) as (_ & _ & Hl0n).
    assert (Nrn : r <> n) by congruence.
    pose proof (kid_in _ _ _ Hat) as Hin. pose proof (rp_some _ _ _ _ GA Hin) as Hrpp. pose proof (kid_del _ _ _ _ G Hp Hpi Hin) as Hdel.
    assert (Hrk : ~ In (Some r) (kids (nd s p))) by (intros Q; destruct (gt_kid _ _ GA _ _ Hp Hpi Q); congruence).
    pose proof (gt_num _ _ GA p Hp) as (N1 & N2 & N3 & N4). pose proof (gt_num _ _ GA n Hn) as (M1 & M2 & M3 & M4). pose proof (gt_num _ _ GA r Hr) as (R1 & R2 & R3 & R4).
    destruct (gt_int _ _ GA p Hp Hpi) as (k0 & tl & C1 & C2 & C3).
    pose proof (gt_chain _ _ GA n Hn Hni) as Cn. rewrite Hrp, Hnk in Cn. change (lkids g [None]) with (@nil nat) in Cn. rewrite app_nil_r in Cn.
    destruct (chain_subs _ _ _ _ Cn) as (Q1 & Q2).
    assert (At : forall k, aft g k n -> aft g' k r).
    { intros k Hk. unfold aft. rewrite os_sp, os_ll by exact Nrn. pose proof (aft_tr g k n r Hk Hra). unfold aft in H. lia. }
    assert (Ao : forall k x, aft g k x -> aft g' k x).
    { intros k x. unfold aft. rewrite os_sp. destruct (Nat.eq_dec x n) as [->|N]; [cbn; rewrite setf_same; lia|rewrite os_ll by exact N; auto]. }
    assert (Ko : forall k o, kok g k o -> kok g' k o).
    { intros k o (x & E & A & B). exists x. rewrite os_l0. split; [exact E|]. split; [exact A|now apply Ao]. }
    pose proof (gt_nd _ _ GA p Hp Hpi) as ND. rewrite (kid_split _ _ _ Hat), ks_app in ND. cbn [ks flat_map o2l app] in ND. apply nodup_mid in ND. destruct ND as (D1 & D2 & D3).
    assert (P1 : forall x q, par (nd s' x) = Some q -> par (nd s x) = Some q \/ (q = p /\ (l0 g' x = 0 -> l0 g' p = 0))).
    { intros x q. rewrite Epar. destruct (Nat.eqb_spec x r) as [->|N]; [|auto]. intros E. injection E as <-. right. split; [reflexivity|]. rewrite !os_l0. auto. }
    assert (P2 : forall x, par (nd s' x) = None -> par (nd s x) = None) by (intros x; rewrite Epar; destruct (Nat.eqb_spec x r); [discriminate|auto]).
    assert (P3 : forall x q, (x < fr s)%nat -> par (nd s x) = Some q -> q <> p -> q <> n -> pd g x = pd g x /\ par (nd s' x) = Some q).
    { intros x q A B D F. rewrite Epar. destruct (Nat.eqb_spec x r) as [->|N]; [congruence|]. auto. }
    assert (P4 : forall m e, pd g m = Some e -> pd g m = Some e /\ par (nd s' e) = None).
    { intros m e E. split; [exact E|]. rewrite Epar. pose proof (pd_par _ _ _ _ GA E). destruct (Nat.eqb_spec e r) as [->|_]; [congruence|assumption]. }
    assert (P5 : forall m e, pd g m = Some e -> par (nd s' e) = None -> pd g m = Some e) by auto.
    assert (P6 : forall x, par (nd s x) = None -> pd g x = pd g x) by auto.
    assert (P6' : forall q, q <> p -> q <> n -> setf (rp g) n None q = rp g q) by (intros; now apply setf_other).
    assert (P7 : forall x, In (Some x) (set_at kp (Some r) (kids (nd s p))) -> (x < fr s)%nat /\ par (nd s' x) = Some p).
    { intros x Hx. apply in_set in Hx. rewrite Epar. destruct (Nat.eqb_spec x r) as [->|N]; [auto|]. destruct Hx as [Hx|Hx]; [congruence|]. now apply GA. }
    assert (P8 : NoDup (ks (set_at kp (Some r) (kids (nd s p))))).
    { unfold set_at. rewrite ks_app. cbn [ks flat_map o2l app].
      apply nodup_ins; [exact D3| |]; intros Q; apply in_ks in Q; apply Hrk; [exact (in_firstn _ _ _ Q)|exact (in_skipn _ _ _ Q)]. }
    assert (P9 : exists k1 tl1, set_at kp (Some r) (kids (nd s p)) = k1 :: tl1 /\ Forall2 (kok g') (keys (nd s p)) tl1 /\ (forall x, k1 = Some x -> l0 g' x <= l0 g' p)).
    { assert (Fk : Forall2 (kok g') (keys (nd s p)) tl) by (revert C2; apply F2_impl; intros k o _; apply Ko).
      clear HC Hin Hrpp Hrk P7 P8 D1 D2 D3 Ekids. revert Hat. rewrite C1. generalize kp. intros [|i] Hat'; cbn [nth] in Hat'.
      - exists (Some r), tl. split; [reflexivity|]. split; [exact Fk|]. intros x E. injection E as <-. rewrite !os_l0. pose proof (C3 n Hat'). lia.
      - exists k0, (set_at i (Some r) tl). split; [reflexivity|]. split; [|intros x E; rewrite !os_l0; now apply C3].
        apply F2_set_r; [exact Fk| |exact (nth_some_lt _ _ _ Hat')]. intros k _ Hk. pose proof (F2_at _ _ _ _ _ None C2 Hk) as Kok. rewrite Hat' in Kok.
        destruct Kok as (x & E & K1 & K2). injection E as <-. exists r. split; [reflexivity|]. rewrite os_l0. split; [|now apply At]. lia. }
    assert (P10 : chain g' (ll g p) (subs g' (setf (rp g) n None p) ++ lkids g' (set_at kp (Some r) (kids (nd s p)))) (hh g p)).
    { pose proof (gt_chain _ _ GA p Hp Hpi) as C. rewrite setf_other by exact Hne. rewrite Hrpp in *. cbn [subs app] in *.
      rewrite (kid_split _ _ _ Hat), lkids_app in C. unfold set_at. rewrite lkids_app.
      change (lkids ?gg (Some ?a :: ?r)) with (subs gg (Some a) ++ lkids gg r) in *. apply chain_app in C. destruct C as (z1 & C4 & C5). apply chain_app in C5. destruct C5 as (z2 & C5 & C6).
      destruct (chain_subs _ _ _ _ C5) as (-> & ->). unfold ehi in C6. rewrite Hpd in C6.
      assert (Lk : forall l, (forall o, In o l -> In o (kids (nd s p))) -> ~ In n (ks l) -> forall a b, chain g a (lkids g l) b -> chain g' a (lkids g' l) b).
      { intros l Hl Hnl a b Hc. change (lkids g' l) with (lkids g l). revert Hc. apply chain_ext. intros x Hx. split; [|reflexivity]. apply os_ll. intros ->.
        destruct (in_lkids _ _ _ Hx) as (d & A & [E|E]); [subst d; apply Hnl; now apply in_ks|]. pose proof (pd_par _ _ _ _ GA E). congruence. }
      apply chain_app. exists (ll g n). split; [apply Lk; [intros o; apply in_firstn|exact D1|exact C4]|]. apply chain_app. exists (hh g n). split.
      - change (subs g' (Some r)) with (subs g (Some r)). revert Cn. apply chain_ext. intros x Hx. split; [|reflexivity]. apply os_ll. intros ->. cbn [subs In] in Hx.
        destruct Hx as [Hx|Hx]; [contradiction|]. destruct (pd g r) as [e|] eqn:E; [|destruct Hx]. destruct Hx as [->|[]]. pose proof (pd_par _ _ _ _ GA E). congruence.
      - apply Lk; [intros o; apply in_skipn|exact D2|exact C6]. }
    assert (P11 : forall f, first_kid (set_at kp (Some r) (kids (nd s p))) = Some f -> aft g' (sp g p) f).
    { intros f. pose proof (gt_fst _ _ GA p) as F6. clear HC Hin Hrpp Hrk P7 P8 D1 D2 D3 Ekids P9 P10. revert Hat F6. rewrite C1. generalize kp. intros [|[|i]]; cbn [nth].
      - intros -> F6 E. injection E as <-. apply At, F6; auto.
      - destruct tl as [|k1 tl']; [discriminate|]. cbn [nth]. intros -> F6. cbn [set_at firstn skipn app first_kid] in *. destruct k0 as [x|]; intros E; injection E as <-; [apply Ao|apply At]; apply F6; auto.
      - intros Hat' F6. cbn [set_at firstn skipn app first_kid] in *. destruct k0 as [x|]; [intros E; injection E as <-; apply Ao, F6; auto|].
        destruct tl as [|[x|] tl']; cbn [firstn skipn app] in *; [destruct i; discriminate|intros E; injection E as <-; apply Ao, F6; auto|discriminate]. }
    assert (P12 : forall tl, v_del (v_mins (ver (nd s p))) = false -> set_at kp (Some r) (kids (nd s p)) = None :: tl -> 0 < l0 g p).
    { intros tl' _ E. apply (gv_n0 _ _ GC p tl Hp Hpi Hdel). rewrite C1 in *. f_equal. clear - E. revert E. generalize kp. intros [|i] E; [discriminate|]. now injection E. }
    assert (P13 : forall a, ze g a = true -> a <> p) by (intros a Q ->; destruct (Hze p Q); congruence).
    assert (P14 : forall r0, setf (rp g) n None p = Some r0 -> set_at kp (Some r) (kids (nd s p)) = [None] /\ (r0 < fr s)%nat /\ par (nd s' r0) = Some p /\ l0 g' r0 <= l0 g' p /\ aft g' (sp g' p) r0).
    { intros r0. rewrite setf_other by exact Hne. congruence. }
    assert (P15 : n <> p -> par (nd s n) = Some p /\ kids (nd s n) = [None] /\ setf (rp g) n None n = None /\ hh g n = hh g n) by (intros _; rewrite setf_same; auto).
    split; [|exact R1]. split; [|split].
    - eapply on_GI with (v' := v_mins (ver (nd s p))); eauto; cbn; try congruence; try (split; [exact Hlk|]; split; [apply vmono_mins|reflexivity]); try lia.
    - eapply on_Rel with (v' := v_mins (ver (nd s p))); eauto; cbn; try congruence; try (split; [exact Hlk|]; split; [apply vmono_mins|reflexivity]); try lia.
    - eapply on_Frame with (v' := v_mins (ver (nd s p))); eauto; cbn; try congruence; try (split; [exact Hlk|]; split; [apply vmono_mins|reflexivity]); try lia.
  Qed.
End OutSome.

(* rep = None *)
Section OutNone.
  Variables (s : cst) (g : gst) (t n p : nat) (kp : nat) (s' : cst).
  Hypothesis G : GI s g.
  Hypothesis Hw : ll g n = hh g n.
  Hypothesis Hl : 0 < l0 g n.
  Hypothesis Hpd : pd g n = None.
  Hypothesis Hn : (n < fr s)%nat.
  Hypothesis Hpar : par (nd s n) = Some p.
  Hypothesis Hat : nth kp (kids (nd s p)) None = Some n.
  Hypothesis Hlk : v_lk (ver (nd s p)) = true.
  Let K' := if (kp =? 0)%nat then keys (nd s p) else del_at (kp - 1) (keys (nd s p)).
  Let C' := if (kp =? 0)%nat then set_at 0 None (kids (nd s p)) else del_at kp (kids (nd s p)).
  Hypothesis HC : chg s s' t p (v_mins (ver (nd s p))) K' C' None.
  Hypothesis Hm : forall t', t' <> t -> ~ In p (holds (pcs s t')).
  Hypothesis Hze : forall a, ze g a = true -> (a < fr s)%nat /\ isl (nd s a) = true.
  Let g' := g_pr g p (pd g) (rp g).
  Lemma outnone_adv : Adv s g s' g' t.
  Proof.
    pose proof G as [GA GB GC]. pose proof HC as (Ef & Er & Ei & Ev & Ekeys & Ekids & Epar & El & Ep).
    destruct (gt_par _ _ GA n p Hn Hpar) as (Hp & Hpi & Hl0p).
    pose proof (kid_in _ _ _ Hat) as Hin. pose proof (rp_some _ _ _ _ GA Hin) as Hrpp. pose proof (kid_del _ _ _ _ G Hp Hpi Hin) as Hdel.
    pose proof (gt_num _ _ GA p Hp) as (N1 & N2 & N3 & N4). pose proof (gt_num _ _ GA n Hn) as (M1 & M2 & M3 & M4).
    destruct (gt_int _ _ GA p Hp Hpi) as (k0 & tl & C1 & C2 & C3).
    pose proof (gt_nd _ _ GA p Hp Hpi) as ND. rewrite (kid_split _ _ _ Hat), ks_app in ND. cbn [ks flat_map o2l app] in ND. apply nodup_mid in ND. destruct ND as (D1 & D2 & D3).
    assert (EC : C' = firstn kp (kids (nd s p)) ++ (if (kp =? 0)%nat then [None] else []) ++ skipn (S kp) (kids (nd s p))).
    { unfold C'. destruct (Nat.eqb_spec kp 0) as [->|_]; reflexivity. }
    assert (InC : forall x, In (Some x) C' -> In (Some x) (kids (nd s p))).
    { intros x. rewrite EC, !in_app_iff. intros [H|[H|H]]; [exact (in_firstn _ _ _ H)| |exact (in_skipn _ _ _ H)]. destruct (kp =? 0)%nat; [destruct H as [H|[]]; discriminate|destruct H]. }
    assert (Ek : ks C' = ks (firstn kp (kids (nd s p))) ++ ks (skipn (S kp) (kids (nd s p)))).
    { rewrite EC, !ks_app. destruct (kp =? 0)%nat; reflexivity. }
    assert (Elk : forall g0, lkids g0 C' = lkids g0 (firstn kp (kids (nd s p))) ++ lkids g0 (skipn (S kp) (kids (nd s p)))).
    { intros g0. rewrite EC, !lkids_app. destruct (kp =? 0)%nat; reflexivity. }
    assert (Hadj : forall f, nth (S kp) (kids (nd s p)) None = Some f -> ll g f = hh g n).
    { intros f Hf. pose proof (kid_adj _ _ _ _ _ _ GA Hp Hpi Hat Hf) as Q. unfold ehi in Q. rewrite Hpd in Q. auto. }
    assert (P1 : forall x q, par (nd s' x) = Some q -> par (nd s x) = Some q \/ (q = p /\ (l0 g' x = 0 -> l0 g' p = 0))) by (intros x q; rewrite Epar; auto).
    assert (P2 : forall x, par (nd s' x) = None -> par (nd s x) = None) by (intros x; rewrite Epar; auto).
    assert (P3 : forall x q, (x < fr s)%nat -> par (nd s x) = Some q -> q <> p -> q <> p -> pd g x = pd g x /\ par (nd s' x) = Some q) by (intros x q; rewrite Epar; auto).
    assert (P4 : forall m e, pd g m = Some e -> pd g m = Some e /\ par (nd s' e) = None) by (intros m e E; rewrite Epar; split; [exact E|exact (pd_par _ _ _ _ GA E)]).
    assert (P5 : forall m e, pd g m = Some e -> par (nd s' e) = None -> pd g m = Some e) by auto.
    assert (P6 : forall x, par (nd s x) = None -> pd g x = pd g x) by auto.
    assert (P7 : forall x, In (Some x) C' -> (x < fr s)%nat /\ par (nd s' x) = Some p) by (intros x Hx; rewrite Epar; apply GA; auto).
    assert (P8 : NoDup (ks C')) by (rewrite Ek; exact D3).
    assert (P9 : exists k1 tl1, C' = k1 :: tl1 /\ Forall2 (kok g') K' tl1 /\ (forall x, k1 = Some x -> l0 g' x <= l0 g' p)).
    { assert (Fk : Forall2 (kok g') (keys (nd s p)) tl) by (revert C2; apply F2_impl; intros k o _; apply gp_kok).
      unfold C', K'. rewrite C1. destruct (Nat.eqb_spec kp 0) as [E|N].
      - exists None, tl. split; [reflexivity|]. split; [exact Fk|discriminate].
      - assert (E : kp = S (kp - 1)) by lia. rewrite E. replace (S (kp - 1) - 1)%nat with (kp - 1)%nat by lia. exists k0, (del_at (kp - 1) tl). split; [reflexivity|].
        split; [now apply F2_del|]. intros x Q. unfold g'. rewrite !gp_l0. now apply C3. }
    assert (P10 : chain g' (ll g p) (subs g' (rp g p) ++ lkids g' C') (hh g p)).
    { apply gp_ch. pose proof (gt_chain _ _ GA p Hp Hpi) as C. rewrite Hrpp in *. cbn [subs app] in *. rewrite Elk.
      rewrite (kid_split _ _ _ Hat), lkids_app in C. change (lkids g (Some n :: ?r)) with (subs g (Some n) ++ lkids g r) in C. cbn [subs] in C. rewrite Hpd in C. cbn [o2l app] in C.
      apply chain_app in C. destruct C as (z & C4 & C5). cbn [chain] in C5. destruct C5 as (C5 & C6). apply chain_app. exists z. split; [exact C4|]. rewrite <- C5, Hw. exact C6. }
    assert (P11 : forall f, first_kid C' = Some f -> aft g' (sp g p) f).
    { intros f E. apply gp_aft. pose proof (gt_fst _ _ GA p) as F6. clear HC Hin Hrpp P7 P8 D1 D2 D3 Ekids P9 P10 EC InC Ek Elk. revert E Hat Hadj F6. unfold C'. rewrite C1. generalize kp. intros [|[|i]]; cbn [nth Nat.eqb].
      - intros E -> Hadj F6. cbn [set_at firstn skipn app first_kid] in E. destruct tl as [|k1 tl']; [discriminate|]. destruct k1 as [x|]; [|discriminate]. injection E as ->.
        pose proof (Hadj f eq_refl). pose proof (F6 n Hp Hpi eq_refl) as Q. unfold aft in *. lia.
      - intros E Hat' Hadj F6. destruct tl as [|k1 tl']; [discriminate|]. cbn [nth] in Hat'. subst k1. cbn [del_at firstn skipn app first_kid] in E. destruct k0 as [x|].
        + injection E as ->. apply F6; auto.
        + destruct tl' as [|[x|] tl']; try discriminate. injection E as ->. pose proof (Hadj f eq_refl). pose proof (F6 n Hp Hpi eq_refl) as Q. unfold aft in *. lia.
      - intros E Hat' _ F6. apply F6; auto. rewrite <- E. destruct tl as [|k1 tl']; [destruct i; discriminate|]. reflexivity. }
    assert (P12 : forall tl, v_del (v_mins (ver (nd s p))) = false -> C' = None :: tl -> 0 < l0 g p).
    { intros tl' _ E. unfold C' in E. rewrite C1 in *. destruct (Nat.eqb_spec kp 0) as [E0|N0].
      - rewrite E0 in Hat. cbn [nth] in Hat. pose proof (C3 n Hat). lia.
      - apply (gv_n0 _ _ GC p tl Hp Hpi Hdel). rewrite C1. f_equal. replace kp with (S (kp - 1)) in E by lia. now injection E. }
    assert (P13 : forall a, ze g a = true -> a <> p) by (intros a Q ->; destruct (Hze p Q); congruence).
    assert (P14 : forall r0, rp g p = Some r0 -> C' = [None] /\ (r0 < fr s)%nat /\ par (nd s' r0) = Some p /\ l0 g' r0 <= l0 g' p /\ aft g' (sp g' p) r0) by (intros r0; congruence).
    assert (P15 : forall t', t' <> t -> ~ In p (holds (pcs s t')) /\ ~ In p (holds (pcs s t'))) by auto.
    split; [|split].
    - eapply on_GI with (v' := v_mins (ver (nd s p))); eauto; cbn; try congruence; try (split; [exact Hlk|]; split; [apply vmono_mins|reflexivity]); try lia.
    - eapply on_Rel with (v' := v_mins (ver (nd s p))); eauto; cbn; try congruence; try (split; [exact Hlk|]; split; [apply vmono_mins|reflexivity]); try lia.
    - eapply on_Frame with (v' := v_mins (ver (nd s p))); eauto; cbn; try congruence; try (split; [exact Hlk|]; split; [apply vmono_mins|reflexivity]); try lia.
  Qed.
End OutNone.
