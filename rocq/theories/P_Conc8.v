(* Concurrent layer: insertion into, removal from, and redirection in an internode. *)
From Verif Require Import Lib M_Tree M_Stampc P_Stampc1 M_Conc P_Conc1 P_Conc2 P_Conc3 P_Conc4 P_Conc5 P_Conc6 P_Conc7.

Definition Adv (s : cst) (g : gst) (s' : cst) (g' : gst) (t : nat) : Prop := GI s' g' /\ Rel s g s' g' /\ Frame s g s' g' t.
Lemma Rel_trans s g s1 g1 s2 g2 : Rel s g s1 g1 -> Rel s1 g1 s2 g2 ->
  (forall a, (a < fr s)%nat -> (v_spl (ver (nd s2 a)) = false -> v_spl (ver (nd s1 a)) = false) /\ (v_dirty (ver (nd s2 a)) = false -> v_dirty (ver (nd s1 a)) = false)) ->
  Rel s g s2 g2.
Proof.
  intros [A1 A2 A3 A4 A5 A6 A7 A8] [B1 B2 B3 B4 B5 B6 B7 B8] V. constructor.
  - lia.
  - intros a H. rewrite B2 by lia. auto.
  - intros a H. pose proof (A3 a H). assert (H1 : (a < fr s1)%nat) by lia. pose proof (B3 a H1). lia.
  - intros a H C. apply B4; [lia|auto].
  - intros a H. apply (vmono_trans _ _ _ (A5 a H)). apply B5. lia.
  - intros a H C. apply B6; [lia|auto].
  - intros a H C. destruct (V a H) as (V1 & _). pose proof (A7 a H (V1 C)). assert (H1 : (a < fr s1)%nat) by lia. pose proof (B7 a H1 C). lia.
  - intros a H C D. destruct (V a H) as (_ & V1). destruct (A8 a H C (V1 D)) as (E1 & E2 & E3). assert (H1 : (a < fr s1)%nat) by lia.
    assert (C1 : isl (nd s1 a) = false) by (rewrite A2; auto). destruct (B8 a H1 C1 D) as (F1 & F2 & F3). split; [congruence|]. split; [congruence|].
    intros c Hc. pose proof (E3 c Hc). rewrite <- E2 in Hc. pose proof (F3 c Hc). lia.
Qed.
Lemma Frame_trans s g s1 g1 s2 g2 t : (fr s <= fr s1)%nat -> Frame s g s1 g1 t -> Frame s1 g1 s2 g2 t -> Frame s g s2 g2 t.
Proof.
  intros Hf [A1 A2 A3 A4] [B1 B2 B3 B4]. constructor.
  - intros t' a N H. destruct (A1 t' a N H) as (E1 & E2 & E3 & E4 & E5 & E6 & E7 & E8 & E9 & E10). assert (H1 : In a (holds (pcs s1 t'))) by (rewrite A4; auto).
    destruct (B1 t' a N H1) as (F1 & F2 & F3 & F4 & F5 & F6 & F7 & F8 & F9 & F10). repeat split; try congruence; try lia.
  - intros t' a c N H Hc Hp. destruct (A2 t' a c N H Hc Hp) as (E1 & E2 & E3). assert (H1 : In a (holds (pcs s1 t'))) by (rewrite A4; auto).
    assert (Hc1 : (c < fr s1)%nat) by lia. destruct (B2 t' a c N H1 Hc1 E1) as (F1 & F2 & F3). repeat split; try congruence; lia.
  - intros a H. rewrite B3 by lia. auto.
  - intros t' N. rewrite B4 by exact N. auto.
Qed.

(* s' is s with p changed, and the parent of q if any. *)
Definition chg (s s' : cst) (t p : nat) (v' : cver) (K' : list Z) (C' : list (option nat)) (qo : option nat) : Prop :=
  fr s' = fr s /\ rootp s' = rootp s /\ (forall x, isl (nd s' x) = isl (nd s x)) /\
  (forall x, ver (nd s' x) = if (x =? p)%nat then v' else ver (nd s x)) /\
  (forall x, keys (nd s' x) = if (x =? p)%nat then K' else keys (nd s x)) /\
  (forall x, kids (nd s' x) = if (x =? p)%nat then C' else kids (nd s x)) /\
  (forall x, par (nd s' x) = match qo with Some q => if (x =? q)%nat then Some p else par (nd s x) | None => par (nd s x) end) /\
  (forall x, lo (nd s' x) = lo (nd s x) /\ rws (nd s' x) = rws (nd s x) /\ zk (nd s' x) = zk (nd s x) /\ nxt (nd s' x) = nxt (nd s x) /\ prv (nd s' x) = prv (nd s x)) /\
  (forall t', t' <> t -> pcs s' t' = pcs s t').

(* Nothing but pd and rp changes in the ghost. *)
Definition g_pr (g : gst) (p : nat) (pd' rp' : nat -> option nat) : gst := g_one g p p (l0 g p) (sp g p) (ll g p) pd' rp'.
Section Gpr.
  Variables (g : gst) (p : nat) (pd' rp' : nat -> option nat).
  Let g' := g_pr g p pd' rp'.
  Lemma gp_l0 x : l0 g' x = l0 g x. Proof. cbn. unfold setf. destruct (Nat.eqb_spec x p) as [->|]; reflexivity. Qed.
  Lemma gp_ll x : ll g' x = ll g x. Proof. cbn. unfold setf. destruct (Nat.eqb_spec x p) as [->|]; reflexivity. Qed.
  Lemma gp_sp x : sp g' x = sp g x. Proof. cbn. unfold setf. destruct (Nat.eqb_spec x p) as [->|]; reflexivity. Qed.
  Lemma gp_aft k x : aft g k x -> aft g' k x. Proof. unfold aft. now rewrite gp_ll, gp_sp. Qed.
  Lemma gp_kok k o : kok g k o -> kok g' k o. Proof. intros (x & E & A & B). exists x. rewrite gp_l0. split; [exact E|]. split; [exact A|now apply gp_aft]. Qed.
  Lemma gp_ch a l b : chain g a l b -> chain g' a l b. Proof. apply chain_ext. intros c _. split; [apply gp_ll|reflexivity]. Qed.
End Gpr.

Lemma ins_at_S {A} (x : A) i k l : ins_at (S i) x (k :: l) = k :: ins_at i x l. Proof. reflexivity. Qed.
Lemma first_ins (i : nat) (x : option nat) l n : nth i l None = Some n -> first_kid (ins_at (S i) x l) = first_kid l.
Proof.
  destruct l as [|k0 l]; [destruct i; discriminate|]. rewrite ins_at_S. destruct i as [|i]; cbn [nth].
  - intros ->. reflexivity.
  - destruct l as [|k1 l]; [destruct i; discriminate|]. rewrite ins_at_S. reflexivity.
Qed.
Lemma firstn_S_nth {A} (d : A) : forall l i, (i < length l)%nat -> firstn (S i) l = firstn i l ++ [nth i l d].
Proof. induction l as [|x l IH]; intros [|i] H; cbn [length] in H; try lia; [reflexivity|]. cbn [firstn nth app]. f_equal. apply (IH i). lia. Qed.

Section Plain.
  Variables (s : cst) (g : gst) (t n c p : nat) (sk : Z) (kp : nat) (v' : cver) (s' : cst).
  Hypothesis G : GI s g.
  Hypothesis Hpd : pd g n = Some c.
  Hypothesis Hinj : forall m, pd g m = Some c -> m = n.
  Hypothesis Hpar : par (nd s n) = Some p.
  Hypothesis Hat : nth kp (kids (nd s p)) None = Some n.
  Hypothesis Hlk : v_lk (ver (nd s p)) = true.
  Hypothesis Hne : p <> n /\ p <> c.
  Hypothesis HS : SK g c sk.
  Hypothesis HC : chg s s' t p (v_mins (ver (nd s p))) (ins_at kp sk (keys (nd s p))) (ins_at (S kp) (Some c) (kids (nd s p))) (Some c).
  Hypothesis Hm : forall t', t' <> t -> ~ In p (holds (pcs s t')).
  Hypothesis Hze : forall a, ze g a = true -> (a < fr s)%nat /\ isl (nd s a) = true.
  Let g' := g_pr g p (setf (pd g) n None) (rp g).
  Lemma plain_adv : Adv s g s' g' t.
  Proof.
    pose proof G as [GA GB GC]. pose proof HC as (Ef & Er & Ei & Ev & Ekeys & Ekids & Epar & El & Ep).
    destruct (gt_pd _ _ GA _ _ Hpd) as (Hn & Hc & Hhc & Hpc & Hparc & Hl0c & _). assert (Nnc : n <> c) by congruence.
    destruct (gt_par _ _ GA n p Hn Hpar) as (Hp & Hpi & _). destruct HS as (S1 & S2). destruct Hne as (Np1 & Np2).
    pose proof (kid_in _ _ _ Hat) as Hin. pose proof (rp_some _ _ _ _ GA Hin) as Hrp.
    assert (Hdel : v_del (ver (nd s p)) = false).
    { destruct (v_del (ver (nd s p))) eqn:E; [|reflexivity]. rewrite (gv_dk _ _ GC p Hp Hpi E) in Hin. destruct Hin as [Q|[]]. discriminate. }
    assert (Hcn : ~ In (Some c) (kids (nd s p))) by (intros Q; destruct (gt_kid _ _ GA _ _ Hp Hpi Q); congruence).
    pose proof (gt_num _ _ GA p Hp) as (N1 & N2 & N3 & N4).
    destruct (gt_int _ _ GA p Hp Hpi) as (k0 & tl & C1 & C2 & C3).
    assert (P1 : forall x q, par (nd s' x) = Some q -> par (nd s x) = Some q \/ (q = p /\ (l0 g' x = 0 -> l0 g' p = 0))).
    { intros x q. rewrite Epar. destruct (Nat.eqb_spec x c) as [->|N]; [|auto]. intros E. injection E as <-. right. split; [reflexivity|]. unfold g'. rewrite gp_l0. lia. }
    assert (P2 : forall x, par (nd s' x) = None -> par (nd s x) = None) by (intros x; rewrite Epar; destruct (Nat.eqb_spec x c); [discriminate|auto]).
    assert (P3 : forall x q, (x < fr s)%nat -> par (nd s x) = Some q -> q <> p -> q <> p -> setf (pd g) n None x = pd g x /\ par (nd s' x) = Some q).
    { intros x q A B D _. rewrite Epar. destruct (Nat.eqb_spec x c) as [->|N]; [congruence|]. split; [|exact B]. apply setf_other. congruence. }
    assert (P4 : forall m e, setf (pd g) n None m = Some e -> pd g m = Some e /\ par (nd s' e) = None).
    { intros m e. unfold setf. destruct (Nat.eqb_spec m n) as [->|N]; [discriminate|]. intros E. split; [exact E|]. rewrite Epar.
      destruct (Nat.eqb_spec e c) as [->|_]; [destruct (N (Hinj m E))|]. now destruct (gt_pd _ _ GA _ _ E) as (_ & _ & _ & _ & Q & _). }
    assert (P5 : forall m e, pd g m = Some e -> par (nd s' e) = None -> setf (pd g) n None m = Some e).
    { intros m e E. rewrite Epar. destruct (Nat.eqb_spec e c) as [->|N]; [discriminate|]. intros _. rewrite setf_other; [exact E|]. congruence. }
    assert (P6 : forall x, par (nd s x) = None -> setf (pd g) n None x = pd g x) by (intros x E; apply setf_other; congruence).
    assert (P7 : forall x, In (Some x) (ins_at (S kp) (Some c) (kids (nd s p))) -> (x < fr s)%nat /\ par (nd s' x) = Some p).
    { intros x Hx. apply in_ins in Hx. rewrite Epar. destruct (Nat.eqb_spec x c) as [->|N]; [auto|]. destruct Hx as [Hx|Hx]; [congruence|]. now apply GA. }
    assert (P8 : NoDup (ks (ins_at (S kp) (Some c) (kids (nd s p))))).
    { pose proof (gt_nd _ _ GA p Hp Hpi) as ND. rewrite <- (firstn_skipn (S kp) (kids (nd s p))), ks_app in ND. unfold ins_at. rewrite ks_app. cbn [ks flat_map o2l app].
      apply nodup_ins; [exact ND| |]; intros Q; apply in_ks in Q; apply Hcn; [exact (in_firstn _ _ _ Q)|exact (in_skipn _ _ _ Q)]. }
    assert (P9 : exists k1 tl1, ins_at (S kp) (Some c) (kids (nd s p)) = k1 :: tl1 /\ Forall2 (kok g') (ins_at kp sk (keys (nd s p))) tl1 /\ (forall x, k1 = Some x -> l0 g' x <= l0 g' p)).
    { rewrite C1, ins_at_S. exists k0, (ins_at kp (Some c) tl). split; [reflexivity|]. split.
      - apply F2_ins; [revert C2; apply F2_impl; intros k o _; apply gp_kok|]. apply gp_kok. exists c. split; [reflexivity|]. split; [lia|exact S2].
      - intros x E. unfold g'. rewrite !gp_l0. now apply C3. }
    assert (P10 : chain g' (ll g p) (subs g' (rp g p) ++ lkids g' (ins_at (S kp) (Some c) (kids (nd s p)))) (hh g p)).
    { apply gp_ch. pose proof (gt_chain _ _ GA p Hp Hpi) as C. rewrite Hrp in *. cbn [subs app] in *.
      assert (E : lkids g' (ins_at (S kp) (Some c) (kids (nd s p))) = lkids g (kids (nd s p))); [|rewrite E; exact C].
      pose proof (gt_nd _ _ GA p Hp Hpi) as ND. rewrite (kid_split _ _ _ Hat), ks_app in ND. cbn [ks flat_map o2l app] in ND. apply nodup_mid in ND. destruct ND as (D1 & D2 & _).
      unfold ins_at. rewrite (firstn_S_nth None _ _ (nth_some_lt _ _ _ Hat)), Hat. rewrite !lkids_app. rewrite (kid_split _ _ _ Hat) at 3. rewrite lkids_app.
      assert (Ex : forall l, ~ In n (ks l) -> lkids g' l = lkids g l).
      { intros l Hl. apply lkids_ext. intros x Hx. cbn. apply setf_other. intros ->. apply Hl. now apply in_ks. }
      change (lkids ?gg (Some ?a :: ?r)) with (subs gg (Some a) ++ lkids gg r). rewrite !Ex by assumption. rewrite <- app_assoc. f_equal. rewrite app_assoc. f_equal.
      cbn [lkids flat_map subs]. unfold g', g_pr, g_one. cbn [pd]. rewrite setf_same, setf_other by congruence. rewrite Hpd, Hpc. reflexivity. now apply Ex. }
    assert (P11 : forall f, first_kid (ins_at (S kp) (Some c) (kids (nd s p))) = Some f -> aft g' (sp g p) f).
    { intros f. rewrite (first_ins _ _ _ _ Hat). intros E. apply gp_aft. now apply (gt_fst _ _ GA). }
    assert (P12 : forall tl, v_del (v_mins (ver (nd s p))) = false -> ins_at (S kp) (Some c) (kids (nd s p)) = None :: tl -> 0 < l0 g p).
    { intros tl' _. rewrite C1, ins_at_S. intros E. injection E as -> _. exact (gv_n0 _ _ GC p tl Hp Hpi Hdel C1). }
    assert (P13 : forall a, ze g a = true -> a <> p) by (intros a Q ->; destruct (Hze p Q); congruence).
    assert (P14 : forall r, rp g p = Some r -> ins_at (S kp) (Some c) (kids (nd s p)) = [None] /\ (r < fr s)%nat /\ par (nd s' r) = Some p /\ l0 g' r <= l0 g' p /\ aft g' (sp g' p) r) by (intros r; congruence).
    split; [|split].
    - eapply on_GI with (v' := v_mins (ver (nd s p))); eauto; cbn; try congruence; try (split; [exact Hlk|]; split; [apply vmono_mins|reflexivity]); try lia.
    - eapply on_Rel with (v' := v_mins (ver (nd s p))); eauto; cbn; try congruence; try (split; [exact Hlk|]; split; [apply vmono_mins|reflexivity]); try lia.
    - eapply on_Frame with (v' := v_mins (ver (nd s p))); eauto; cbn; try congruence; try (split; [exact Hlk|]; split; [apply vmono_mins|reflexivity]); try lia.
  Qed.
End Plain.
