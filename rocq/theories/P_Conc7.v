(* Concurrent layer: one locked internode changes. *)
From Verif Require Import Lib M_Tree M_Stampc P_Stampc1 M_Conc P_Conc1 P_Conc2 P_Conc3 P_Conc4 P_Conc5 P_Conc6.

(* p is the internode; d another whose range becomes empty, or p. *)
Definition g_one (g : gst) (p d : nat) (a0 b0 z : Z) (pd' rp' : nat -> option nat) : gst :=
  MkG (setf (l0 g) p a0) (setf (ll g) d z) (hh g) (setf (sp g) p b0) pd' (us g) rp' (ul g) (ze g).

Section One.
  Variables (s : cst) (g : gst) (t p d : nat) (a0 b0 z : Z) (pd' rp' : nat -> option nat) (v' : cver) (K' : list Z) (C' : list (option nat)) (s' : cst).
  Hypothesis G : GI s g.
  Let g' := g_one g p d a0 b0 z pd' rp'.
  Hypothesis Hp : (p < fr s)%nat.
  Hypothesis Hpi : isl (nd s p) = false.
  Hypothesis Hplk : v_lk (ver (nd s p)) = true.
  Hypothesis Hdi : (d < fr s)%nat /\ isl (nd s d) = false.
  Hypothesis Hz : d = p -> z = ll g p.
  Hypothesis Hd : d <> p -> par (nd s d) = Some p /\ kids (nd s d) = [None] /\ rp' d = None /\ z = hh g d.
  Hypothesis Ef : fr s' = fr s.
  Hypothesis Er : rootp s' = rootp s.
  Hypothesis Ei : forall x, isl (nd s' x) = isl (nd s x).
  Hypothesis Ev : forall x, ver (nd s' x) = if (x =? p)%nat then v' else ver (nd s x).
  Hypothesis Ekeys : forall x, keys (nd s' x) = if (x =? p)%nat then K' else keys (nd s x).
  Hypothesis Ekids : forall x, kids (nd s' x) = if (x =? p)%nat then C' else kids (nd s x).
  Hypothesis El : forall x, lo (nd s' x) = lo (nd s x) /\ rws (nd s' x) = rws (nd s x) /\ zk (nd s' x) = zk (nd s x) /\ nxt (nd s' x) = nxt (nd s x) /\ prv (nd s' x) = prv (nd s x).
  (* the version *)
  Hypothesis Hv1 : v_lk v' = true /\ vmono (ver (nd s p)) v' /\ v_rt v' = v_rt (ver (nd s p)).
  Hypothesis Hv2 : v_spl (ver (nd s p)) = true -> v_spl v' = true.
  Hypothesis Hv3 : par (nd s p) = None -> v_spl v' = v_spl (ver (nd s p)).
  Hypothesis Hv4 : v_del v' = false -> v_del (ver (nd s p)) = false.
  Hypothesis Hv6 : v_del v' = true -> C' = [None].
  Hypothesis Hv5 : v_dirty v' = false -> length K' = length (keys (nd s p)) /\ C' = kids (nd s p) /\ pd' = pd g.
  (* the numbers *)
  Hypothesis Ha : 0 <= a0 <= l0 g p /\ (0 < l0 g p -> 0 < a0).
  Hypothesis Hb : sp g p <= b0 <= ll g p /\ b0 < hh g p.
  (* parents *)
  Hypothesis Hpar1 : forall x q, par (nd s' x) = Some q -> par (nd s x) = Some q \/ (q = p /\ (l0 g' x = 0 -> l0 g' p = 0)).
  Hypothesis Hpar2 : forall x, par (nd s' x) = None -> par (nd s x) = None.
  Hypothesis Hpar3 : forall x q, (x < fr s)%nat -> par (nd s x) = Some q -> q <> p -> q <> d -> pd' x = pd g x /\ par (nd s' x) = Some q.
  (* pending neighbours *)
  Hypothesis Hpd1 : forall m e, pd' m = Some e -> pd g m = Some e /\ par (nd s' e) = None.
  Hypothesis Hpd2 : forall m e, pd g m = Some e -> par (nd s' e) = None -> pd' m = Some e.
  Hypothesis Hpd3 : forall x, par (nd s x) = None -> pd' x = pd g x.
  (* replacements *)
  Hypothesis Hrp1 : forall q, q <> p -> q <> d -> rp' q = rp g q.
  Hypothesis Hrp2 : forall r, rp' p = Some r -> C' = [None] /\ (r < fr s)%nat /\ par (nd s' r) = Some p /\ l0 g' r <= l0 g' p /\ aft g' (sp g' p) r.
  (* the node itself *)
  Hypothesis Hkid : forall c, In (Some c) C' -> (c < fr s)%nat /\ par (nd s' c) = Some p.
  Hypothesis Hnd : NoDup (ks C').
  Hypothesis Hint : exists k0 tl, C' = k0 :: tl /\ Forall2 (kok g') K' tl /\ (forall c, k0 = Some c -> l0 g' c <= l0 g' p).
  Hypothesis Hch : chain g' (ll g p) (subs g' (rp' p) ++ lkids g' C') (hh g p).
  Hypothesis Hfst : forall f, first_kid C' = Some f -> aft g' b0 f.
  Hypothesis Hn0 : forall tl, v_del v' = false -> C' = None :: tl -> 0 < a0.
  Hypothesis Hze : forall a, ze g a = true -> a <> p.

  Let GA := gi_t _ _ G.
  Let GB := gi_l _ _ G.
  Let GC := gi_v _ _ G.
  Lemma on_l0 x : l0 g' x = if (x =? p)%nat then a0 else l0 g x. Proof. reflexivity. Qed.
  Lemma on_ll x : ll g' x = if (x =? d)%nat then z else ll g x. Proof. reflexivity. Qed.
  Lemma on_sp x : sp g' x = if (x =? p)%nat then b0 else sp g x. Proof. reflexivity. Qed.
  Lemma on_z : ll g d <= z <= hh g d /\ (z = ll g d \/ z = hh g d).
  Proof.
    destruct (Nat.eq_dec d p) as [E|N].
    - pose proof (Hz E) as E2. rewrite <- E in E2. destruct (gt_num _ _ GA d (proj1 Hdi)) as (_ & A & _). rewrite E2. split; [lia|now left].
    - destruct (Hd N) as (_ & _ & _ & ->). destruct (gt_num _ _ GA d (proj1 Hdi)) as (_ & A & _). split; [lia|now right].
  Qed.
  Lemma on_aft k x : aft g k x -> aft g' k x.
  Proof.
    unfold aft. rewrite on_ll, on_sp. pose proof on_z. destruct (Nat.eqb_spec x d) as [E|_]; destruct (Nat.eqb_spec x p) as [E2|_]; rewrite ?E2 in *; rewrite ?E in *; lia.
  Qed.
  Lemma on_l0le x : l0 g' x <= l0 g x /\ (0 < l0 g x -> 0 < l0 g' x) /\ (l0 g x = 0 -> l0 g' x = 0).
  Proof. rewrite on_l0. destruct (Nat.eqb_spec x p) as [->|_]; lia. Qed.
  Lemma on_kok k o : kok g k o -> kok g' k o.
  Proof. intros (x & E & A & B). exists x. split; [exact E|]. pose proof (on_l0le x). split; [lia|]. now apply on_aft. Qed.
  Lemma on_lln x : par (nd s x) = None -> ll g' x = ll g x.
  Proof.
    intros H. rewrite on_ll. destruct (Nat.eqb_spec x d) as [->|_]; [|reflexivity]. destruct (Nat.eq_dec d p) as [E|N]; [rewrite (Hz E); congruence|].
    destruct (Hd N). congruence.
  Qed.
  Lemma on_llp x q : (x < fr s)%nat -> par (nd s x) = Some q -> q <> p -> ll g' x = ll g x.
  Proof.
    intros Hx H Hq. rewrite on_ll. destruct (Nat.eqb_spec x d) as [->|_]; [|reflexivity]. destruct (Nat.eq_dec d p) as [E|N]; [rewrite (Hz E); congruence|].
    destruct (Hd N). congruence.
  Qed.
  Lemma on_ehi x : par (nd s x) = None -> ehi g' x = ehi g x.
  Proof. intros H. unfold ehi. change (pd g' x) with (pd' x). now rewrite (Hpd3 x H). Qed.
  Lemma on_q a l b q : q <> p -> q <> d -> (forall x, In x l -> (x < fr s)%nat /\ (par (nd s x) = Some q \/ par (nd s x) = None)) -> chain g a l b -> chain g' a l b.
  Proof.
    intros N1 N2 H. apply chain_ext. intros x Hx. split; [|reflexivity]. destruct (H x Hx) as (A & [B|B]); [now apply (on_llp x q)|now apply on_lln].
  Qed.

  Lemma on_GT : GT s' g'.
  Proof.
    pose proof GA as [H1 H2 H3 H4 H5 H6 H7 H8 H9 H10 H11].
    assert (Dk : d <> p -> forall c, ~ In (Some c) (kids (nd s d))).
    { intros N c. destruct (Hd N) as (_ & E & _). rewrite E. intros [Q|[]]. discriminate. }
    constructor.
    - intros a q. rewrite Ef, Ei. intros A B. destruct (Hpar1 a q B) as [C|(-> & C)]; [|auto].
      destruct (H1 a q A C) as (D & E & F). split; [exact D|]. split; [exact E|]. intros Q. apply on_l0le, F. pose proof (on_l0le a). pose proof (H11 a A). lia.
    - intros q c. rewrite Ef, Ei, Ekids. intros A B. destruct (Nat.eqb_spec q p) as [->|N]; [apply Hkid|]. intros C. destruct (H2 q c A B C) as (D & E). split; [exact D|].
      destruct (Nat.eq_dec q d) as [->|N2]; [destruct (Dk N c C)|]. now apply Hpar3.
    - intros q. rewrite Ef, Ei, Ekids. intros A B. destruct (Nat.eqb_spec q p) as [->|N]; [exact Hnd|auto].
    - intros q. rewrite Ef, Ei, Ekids, Ekeys. intros A B. destruct (Nat.eqb_spec q p) as [->|N]; [exact Hint|].
      destruct (H4 q A B) as (k0 & tl & C1 & C2 & C3). exists k0, tl. split; [exact C1|]. split.
      + revert C2. apply F2_impl. intros k o _. apply on_kok.
      + intros c Q. specialize (C3 c Q). pose proof (on_l0le c). rewrite (on_l0 q). destruct (Nat.eqb_spec q p); [contradiction|lia].
    - intros q. rewrite Ef, Ei, Ekids. intros A B. destruct (Nat.eqb_spec q p) as [->|N].
      + rewrite on_ll. destruct (Nat.eqb_spec p d) as [E|_]; [rewrite (Hz (eq_sym E))|]; exact Hch.
      + change (hh g' q) with (hh g q). change (rp g' q) with (rp' q). destruct (Nat.eq_dec q d) as [->|N2].
        * destruct (Hd N) as (_ & E & F & I1). rewrite E, F, on_ll, Nat.eqb_refl, I1. reflexivity.
        * rewrite on_ll. destruct (Nat.eqb_spec q d); [contradiction|]. rewrite (Hrp1 q N N2).
          assert (Ex : lkids g' (kids (nd s q)) = lkids g (kids (nd s q))).
          { apply lkids_ext. intros c Hc. destruct (H2 q c A B Hc) as (D & E). now apply (Hpar3 c q). }
          rewrite Ex. pose proof (H5 q A B) as C.
          assert (Es : subs g' (rp g q) = subs g (rp g q)).
          { destruct (rp g q) as [r|] eqn:E; [|reflexivity]. destruct (H7 q r E) as (_ & _ & _ & R1 & R2 & _). cbn [subs]. change (pd g' r) with (pd' r). now rewrite (proj1 (Hpar3 r q R1 R2 N N2)). }
          rewrite Es. apply (on_q _ _ _ q N N2); [|exact C]. intros x Hx. apply in_app_or in Hx. destruct Hx as [Hx|Hx].
          { destruct (rp g q) as [r|] eqn:E; [|destruct Hx]. destruct (H7 q r E) as (_ & _ & _ & R1 & R2 & _). cbn [subs In] in Hx. destruct Hx as [<-|Hx]; [auto|].
            destruct (pd g r) as [e|] eqn:Ed; [|destruct Hx]. destruct Hx as [<-|[]]. destruct (H8 _ _ Ed) as (_ & Q1 & _ & _ & Q2 & _). auto. }
          { destruct (in_lkids _ _ _ Hx) as (c & D & [->|E]); [destruct (H2 q c A B D); auto|]. destruct (H8 _ _ E) as (_ & Q1 & _ & _ & Q2 & _). auto. }
    - intros q f. rewrite Ef, Ei, Ekids, on_sp. intros A B. destruct (Nat.eqb_spec q p) as [->|N]; [apply Hfst|]. intros C. apply on_aft. now apply H6.
    - intros q r E. rewrite Ef, Ei, Ekids. change (rp' q = Some r) in E. destruct (Nat.eqb_spec q p) as [->|N].
      + destruct (Hrp2 r E) as (Q1 & Q2 & Q3 & Q4 & Q5). auto 10.
      + destruct (Nat.eq_dec q d) as [->|N2]; [destruct (Hd N) as (_ & _ & Q & _); congruence|]. rewrite (Hrp1 q N N2) in E.
        destruct (H7 q r E) as (A & B & C & D & F & I1 & I2). split; [exact A|]. split; [exact B|]. split; [exact C|]. split; [exact D|]. split; [now apply Hpar3|].
        pose proof (on_l0le r). rewrite (on_l0 q), on_sp. destruct (Nat.eqb_spec q p); [contradiction|]. split; [lia|now apply on_aft].
    - intros m e E. change (pd' m = Some e) in E. destruct (Hpd1 m e E) as (E2 & Q). destruct (H8 m e E2) as (A & B & C & D & F & I1 & I2).
      rewrite Ef, !Ei. change (hh g' m) with (hh g m). change (pd g' e) with (pd' e). split; [exact A|]. split; [exact B|]. split; [now rewrite on_lln|].
      split; [|split; [exact Q|split; [now apply on_l0le|exact I2]]]. rewrite Hpd3 by exact F. exact D.
    - intros a. rewrite Ef. intros A B. pose proof (Hpar2 a B) as B2. destruct (H9 a A B2) as [(m & C)|(C & D)].
      + left. exists m. exact (Hpd2 m a C B).
      + right. rewrite (on_ehi a B2). split; [now apply on_l0le|exact D].
    - rewrite Ef, Er. destruct H10 as (A & B). split; [exact A|now apply on_l0le].
    - intros a. rewrite Ef. intros A. destruct (H11 a A) as (B1 & B2 & B3 & B4). rewrite on_l0, on_ll, on_sp. change (hh g' a) with (hh g a). pose proof on_z.
      destruct (Nat.eqb_spec a d) as [E|N1]; destruct (Nat.eqb_spec a p) as [E2|N2].
      + assert (E3 : d = p) by congruence. pose proof (Hz E3). rewrite E2 in *. lia.
      + rewrite E in *. lia.
      + rewrite E2 in *. lia.
      + lia.
  Qed.
  Lemma on_P3 : forall a, (a < fr s)%nat -> isl (nd s a) = true -> ver (nd s' a) = ver (nd s a) /\ lo (nd s' a) = lo (nd s a) /\
      rws (nd s' a) = rws (nd s a) /\ zk (nd s' a) = zk (nd s a) /\ nxt (nd s' a) = nxt (nd s a) /\ prv (nd s' a) = prv (nd s a).
  Proof. intros a A B. split; [|apply El]. rewrite Ev. destruct (Nat.eqb_spec a p) as [->|]; [congruence|reflexivity]. Qed.
  Lemma on_P4 : forall a, (a < fr s)%nat -> isl (nd s a) = true -> ll g' a = ll g a /\ hh g' a = hh g a /\ l0 g' a = l0 g a /\ sp g' a = sp g a.
  Proof.
    intros a A B. rewrite on_ll, on_l0, on_sp. destruct (Nat.eqb_spec a d) as [->|]; [destruct Hdi; congruence|]. destruct (Nat.eqb_spec a p) as [->|]; [congruence|auto].
  Qed.
  Lemma on_P5 : forall a, ze g a = true -> v_spl (ver (nd s' a)) = true.
  Proof. intros a A. rewrite Ev. pose proof (Hze a A). destruct (Nat.eqb_spec a p); [contradiction|]. now apply GB. Qed.
  Lemma on_fr : (fr s <= fr s')%nat. Proof. rewrite Ef. apply le_n. Qed.
  Lemma on_new : forall a, (fr s <= a < fr s')%nat -> isl (nd s' a) = false. Proof. intros a H. rewrite Ef in H. lia. Qed.
  Lemma on_GL : GL s' g'.
  Proof. apply (GL_tree s g s' g' on_fr (fun a _ => Ei a) on_new on_P3 on_P4 eq_refl eq_refl eq_refl on_P5 GB). Qed.
  Lemma on_bd x : bd s g x -> bd s' g' x.
  Proof. apply lv_bd; auto using on_fr, on_new, on_P3, on_P4, on_P5. Qed.
  Lemma on_GV : GV s' g'.
  Proof.
    pose proof GC as [H1 H2 H3 H4 H5 H6 H7]. constructor.
    - intros m e E. change (pd' m = Some e) in E. destruct (Hpd1 m e E) as (E2 & _). destruct (H1 m e E2) as (A & B). rewrite Ei, Ev. split; [exact A|].
      intros C. specialize (B C). destruct (Nat.eqb_spec m p) as [->|_]; auto.
    - intros a. rewrite Ef. intros A. destruct (H2 a A) as (B & C). split; [|now apply on_bd]. rewrite on_ll. destruct (Nat.eqb_spec a d) as [->|_]; [|now apply on_bd].
      destruct on_z as (_ & [Q|Q]); rewrite Q; now apply on_bd.
    - intros a. rewrite Ef, Ev. intros A. destruct (Nat.eqb_spec a p) as [->|_]; [intros _; apply Hv1|now apply H3].
    - intros a. rewrite Ef, Ev. intros A B C D. change (rh g' a) with (rh g a). assert (C2 : l0 g a = 0) by (pose proof (on_l0le a); pose proof (gt_num _ _ GA a A); lia).
      destruct (Nat.eqb_spec a p) as [->|_]; [|now apply H4]. destruct Hv1 as (_ & _ & Q). apply H4; [exact A|congruence|exact C2|].
      destruct (v_spl (ver (nd s p))) eqn:E; [|reflexivity]. specialize (Hv2 eq_refl). congruence.
    - intros a. rewrite Ef. intros A B C D. pose proof (Hpar2 a B) as B2. change (pd g' a) with (pd' a) in D. rewrite (Hpd3 a B2) in D.
      destruct (H5 a A B2) as (Q1 & Q2); [intros m Q; apply (C m); exact (Hpd2 m a Q B)|exact D|]. rewrite Ev. destruct (Nat.eqb_spec a p) as [->|_]; [|auto].
      destruct Hv1 as (_ & _ & Q). split; [congruence|]. rewrite (Hv3 B2). exact Q2.
    - intros q tl. rewrite Ef, Ei, Ev, Ekids, on_l0. intros A B. destruct (Nat.eqb_spec q p) as [->|_]; [apply Hn0|now apply H6].
    - intros q. rewrite Ef, Ei, Ev, Ekids. intros A B. destruct (Nat.eqb_spec q p) as [->|_]; [exact Hv6|now apply H7].
  Qed.
  Lemma on_GI : GI s' g'. Proof. constructor; [apply on_GT|apply on_GL|apply on_GV]. Qed.
  Lemma on_Rel : Rel s g s' g'.
  Proof.
    constructor.
    - apply on_fr.
    - intros a _. apply Ei.
    - intros a _. apply on_l0le.
    - intros a _. apply on_l0le.
    - intros a _. rewrite Ev. destruct (Nat.eqb_spec a p) as [->|_]; [apply Hv1|apply vmono_refl].
    - intros a _ A B. exact (A (Hpar2 a B)).
    - intros a _ _. change (rh g' a) with (rh g a). lia.
    - intros a A B. rewrite Ev, Ekeys, Ekids. destruct (Nat.eqb_spec a p) as [->|N].
      + intros C. destruct (Hv5 C) as (D & E & F). split; [exact D|]. split; [exact E|]. intros c _. unfold ehi. change (pd g' c) with (pd' c). rewrite F. cbn. lia.
      + intros C. split; [reflexivity|]. split; [reflexivity|]. intros c Hc. unfold ehi. change (pd g' c) with (pd' c). destruct (gt_kid _ _ GA a c A B Hc) as (Q1 & Q2).
        destruct (Nat.eq_dec a d) as [->|N2].
        * destruct (Hd N) as (_ & E & _). rewrite E in Hc. destruct Hc as [Hc|[]]. discriminate.
        * rewrite (proj1 (Hpar3 c a Q1 Q2 N N2)). cbn. lia.
  Qed.
  Lemma on_Frame : (forall t', t' <> t -> ~ In p (holds (pcs s t')) /\ ~ In d (holds (pcs s t'))) -> (forall t', t' <> t -> pcs s' t' = pcs s t') -> Frame s g s' g' t.
  Proof.
    intros Hm Ep. constructor.
    - intros t' a N H. assert (Np : a <> p) by (intros ->; exact (proj1 (Hm t' N) H)). assert (Nd : a <> d) by (intros ->; exact (proj2 (Hm t' N) H)).
      rewrite Ev, Ekeys, Ekids, on_l0, on_ll, on_sp. destruct (Nat.eqb_spec a p); [contradiction|]. destruct (Nat.eqb_spec a d); [contradiction|].
      destruct (El a) as (_ & Q & _). rewrite Q. repeat split; auto; cbn; lia.
    - intros t' a x N H Hx Hp'. assert (Np : a <> p) by (intros ->; exact (proj1 (Hm t' N) H)). assert (Nd : a <> d) by (intros ->; exact (proj2 (Hm t' N) H)).
      split; [now apply Hpar3|]. rewrite (on_llp x a Hx Hp' Np). split; [lia|]. rewrite on_sp. destruct (Nat.eqb_spec x p) as [->|_]; lia.
    - intros a _. apply El.
    - exact Ep.
  Qed.
End One.
