(* Concurrent layer: a leaf leaves the list. *)
From Verif Require Import Lib M_Tree M_Stampc P_Stampc1 M_Conc P_Conc1 P_Conc2 P_Conc3 P_Conc4 P_Conc5 P_Conc6 P_Conc7 P_Conc8 P_Conc9.

(* The range of n is given to its neighbour: the bound a becomes b everywhere. *)
Definition sg (a b x : Z) : Z := if x =? a then b else x.
Definition g_unl (g : gst) (n : nat) (a b : Z) : gst :=
  MkG (l0 g) (fun x => sg a b (ll g x)) (fun x => sg a b (hh g x)) (sp g) (pd g) (us g) (rp g) (setf (ul g) n true) (ze g).

Section Unl.
  Variables (s : cst) (g : gst) (t n : nat) (s' : cst).
  Hypothesis G : GI s g.
  Hypothesis Hl : linked s g n.
  Hypothesis H0 : lo (nd s n) <> 0.
  Hypothesis Hdel : v_del (ver (nd s n)) = true.
  Hypothesis Hus : us g n = None.
  Hypothesis Hun : forall x, us g x <> Some n.
  Hypothesis Ef : fr s' = fr s.
  Hypothesis Er : rootp s' = rootp s.
  Hypothesis Eo : forall x, isl (nd s' x) = isl (nd s x) /\ ver (nd s' x) = ver (nd s x) /\ keys (nd s' x) = keys (nd s x) /\ kids (nd s' x) = kids (nd s x) /\
    par (nd s' x) = par (nd s x) /\ lo (nd s' x) = lo (nd s x) /\ rws (nd s' x) = rws (nd s x) /\ zk (nd s' x) = zk (nd s x).
  Hypothesis En : forall x, nxt (nd s' x) = match prv (nd s n) with Some a => if (x =? a)%nat then nxt (nd s n) else nxt (nd s x) | None => nxt (nd s x) end.
  Hypothesis Eb : forall x, prv (nd s' x) = match nxt (nd s n) with Some b => if (x =? b)%nat then prv (nd s n) else prv (nd s x) | None => prv (nd s x) end.
  Hypothesis Hh : forall t' a, t' <> t -> In a (holds (pcs s t')) -> a <> n.
  Hypothesis Ep : forall t', t' <> t -> pcs s' t' = pcs s t'.
  Let A := lo (nd s n).
  Let B := hh g n.
  Let f := sg A B.
  Let g' := g_unl g n A B.
  Lemma unlink_adv : Adv s g s' g' t /\ ll g' n = hh g' n /\ ul g' n = true.
  Proof.
    pose proof G as [GA GB GC]. pose proof Hl as (Hn & Hni & Hul). destruct (gl_link _ _ GB n Hl) as (L1 & L2 & L3 & L4 & L5 & L6). fold A in L1, L2, L6. fold B in L2, L3.
    assert (Lf : forall a, linked s g a -> lo (nd s a) <= INF) by (intros a Q; now apply (gl_leaf _ _ GB a (proj1 Q) (proj1 (proj2 Q)))).
    assert (IB : B <= INF). { rewrite L3. unfold nlo. destruct (nxt (nd s n)) as [b|] eqn:Q; [|lia]. now apply Lf, L4. }
    assert (Fge : forall x, x <= f x) by (intros x; unfold f, sg; destruct (Z.eqb_spec x A); lia).
    assert (Fi : f INF = INF) by (unfold f, sg; destruct (Z.eqb_spec INF A); lia).
    assert (Fa : f A = B) by (unfold f, sg; now rewrite Z.eqb_refl).
    assert (Fb : f B = B) by (unfold f, sg; destruct (Z.eqb_spec B A); [lia|reflexivity]).
    assert (Far : forall a, linked s g a -> a <> n -> (B <= lo (nd s a) \/ lo (nd s a) < A) /\ (B <= lo (nd s a) \/ hh g a <= A) /\ f (lo (nd s a)) = lo (nd s a)).
    { intros a Q N. destruct (gl_link _ _ GB a Q) as (_ & Q2 & _). pose proof (gl_disj _ _ GB n a Hl Q (not_eq_sym N)) as Q3. fold A B in Q3.
      split; [lia|]. split; [lia|]. unfold f, sg. destruct (Z.eqb_spec (lo (nd s a)) A); [lia|reflexivity]. }
    assert (Bd : forall x, bd s g x -> A < x -> B <= x).
    { intros x [->|(a & Q1 & Q2)] Hx; [exact IB|]. destruct (Nat.eq_dec a n) as [->|N]; [fold A in Q2; lia|]. destruct (Far a Q1 N) as (Q3 & _). lia. }
    assert (Fm : forall x y, bd s g y -> x <= y -> f x <= f y).
    { intros x y Hy Hxy. pose proof (Bd y Hy). unfold f, sg. destruct (Z.eqb_spec x A); destruct (Z.eqb_spec y A); lia. }
    destruct (prv (nd s n)) as [p|] eqn:Epv; [|destruct (H0 (L6 eq_refl))].
    destruct (L5 p eq_refl) as (Lp & Np). destruct (gl_link _ _ GB p Lp) as (P1 & P2 & P3 & P4 & P5 & P6). rewrite Np in P3. cbn [nlo] in P3. fold A in P3.
    assert (Npn : p <> n) by (intros E; rewrite E in P2, P3; fold A B in P2, P3; lia).
    assert (Nnb : forall b, nxt (nd s n) = Some b -> b <> n) by (intros b E E2; rewrite E, E2 in L3; cbn in L3; fold A in L3; lia).
    assert (Lk1 : forall x, linked s g x -> x <> n -> linked s' g' x).
    { intros x (Q1 & Q2 & Q3) N. destruct (Eo x) as (E & _). split; [lia|]. split; [congruence|]. cbn. now rewrite setf_other. }
    assert (Lk2 : forall x, linked s' g' x -> linked s g x /\ x <> n).
    { intros x (Q1 & Q2 & Q3). destruct (Eo x) as (E & _). cbn in Q3. assert (N : x <> n) by (intros ->; rewrite setf_same in Q3; discriminate). rewrite setf_other in Q3 by exact N.
      split; [|exact N]. split; [lia|]. split; [congruence|exact Q3]. }
    assert (Elo : forall x, lo (nd s' x) = lo (nd s x)) by (intros x; apply Eo).
    assert (Bd2 : forall x, bd s g x -> bd s' g' (f x)).
    { intros x [->|(a & Q1 & Q2)]; [left; exact Fi|]. destruct (Nat.eq_dec a n) as [->|N].
      - fold A in Q2. rewrite <- Q2, Fa. rewrite L3. unfold nlo. destruct (nxt (nd s n)) as [b|] eqn:Q; [|now left]. right. exists b. destruct (L4 b eq_refl) as (Q3 & _).
        split; [apply Lk1; [exact Q3|exact (Nnb b eq_refl)]|apply Elo].
      - destruct (Far a Q1 N) as (_ & _ & Q3). rewrite <- Q2, Q3. right. exists a. split; [now apply Lk1|apply Elo]. }
    assert (Aft : forall k x, aft g k x -> aft g' k x).
    { intros k x. unfold aft. change (ll g' x) with (f (ll g x)). change (sp g' x) with (sp g x). pose proof (Fge (ll g x)). lia. }
    assert (Kok : forall k o, kok g k o -> kok g' k o) by (intros k o (x & E & Q1 & Q2); exists x; split; [exact E|]; split; [exact Q1|now apply Aft]).
    assert (Ehi : forall x, ehi g' x = f (ehi g x)) by (intros x; unfold ehi; change (pd g' x) with (pd g x); now destruct (pd g x)).
    assert (Rh : forall x, rh g' x = f (rh g x)) by (intros x; unfold rh; change (us g' x) with (us g x); now destruct (us g x)).
    assert (Lks : forall l, lkids g' l = lkids g l) by reflexivity.
    assert (Hfr : fr s' = fr s) by exact Ef.
    split.
    2:{ change (f (ll g n) = f B /\ setf (ul g) n true n = true). rewrite L1, Fa, Fb, setf_same. auto. }
    split; [constructor|split].
    - (* GT *) pose proof GA as [H1 H2 H3 H4 H5 H6 H7 H8 H9 H10 H11]. constructor.
      + intros a q. destruct (Eo a) as (_ & _ & _ & _ & E & _). destruct (Eo q) as (E2 & _). rewrite Hfr, E, E2. apply H1.
      + intros q c. destruct (Eo q) as (E1 & _ & _ & E2 & _). destruct (Eo c) as (_ & _ & _ & _ & E3 & _). rewrite Hfr, E1, E2, E3. apply H2.
      + intros q. destruct (Eo q) as (E1 & _ & _ & E2 & _). rewrite Hfr, E1, E2. apply H3.
      + intros q. destruct (Eo q) as (E1 & _ & E3 & E2 & _). rewrite Hfr, E1, E2, E3. intros Q1 Q2. destruct (H4 q Q1 Q2) as (k0 & tl & C1 & C2 & C3). exists k0, tl. split; [exact C1|].
        split; [|exact C3]. revert C2. apply F2_impl. intros k o _. apply Kok.
      + intros q. destruct (Eo q) as (E1 & _ & _ & E2 & _). rewrite Hfr, E1, E2. intros Q1 Q2. exact (chain_map g g' f (fun _ => eq_refl) (fun _ => eq_refl) _ _ _ (H5 q Q1 Q2)).
      + intros q h. destruct (Eo q) as (E1 & _ & _ & E2 & _). rewrite Hfr, E1, E2. intros Q1 Q2 Q3. apply Aft. now apply H6.
      + intros q r E. destruct (H7 q r E) as (Q1 & Q2 & Q3 & Q4 & Q5 & Q6 & Q7). destruct (Eo q) as (E1 & _ & _ & E2 & _). destruct (Eo r) as (_ & _ & _ & _ & E3 & _). rewrite Hfr, E1, E2, E3.
        split; [exact Q1|]. split; [exact Q2|]. split; [exact Q3|]. split; [exact Q4|]. split; [exact Q5|]. split; [exact Q6|now apply Aft].
      + intros x c E. destruct (H8 x c E) as (Q1 & Q2 & Q3 & Q4 & Q5 & Q6 & Q7). destruct (Eo x) as (E1 & _). destruct (Eo c) as (E2 & _ & _ & _ & E3 & _). rewrite Hfr, E1, E2, E3.
        change (hh g' x) with (f (hh g x)). change (ll g' c) with (f (ll g c)). rewrite Q3. auto 10.
      + intros a. destruct (Eo a) as (_ & _ & _ & _ & E & _). rewrite Hfr, E, Ehi. intros Q1 Q2. destruct (H9 a Q1 Q2) as [Q3|(Q3 & Q4)]; [now left|]. right. rewrite Q4. auto.
      + rewrite Hfr, Er. exact H10.
      + intros a. rewrite Hfr. intros Q1. destruct (H11 a Q1) as (Q2 & Q3 & Q4 & Q5). change (hh g' a) with (f (hh g a)). change (ll g' a) with (f (ll g a)). change (l0 g' a) with (l0 g a). change (sp g' a) with (sp g a).
        pose proof (Fge (ll g a)). pose proof (Fge (hh g a)). destruct (gv_bd _ _ GC a Q1) as (_ & Q6). pose proof (Fm _ _ Q6 Q3). lia.
    - (* GL *) constructor.
      + intros x c E. destruct (gl_us _ _ GB _ _ E) as (Q1 & Q2 & Q3 & Q4 & Q5 & Q6). destruct (Eo x) as (_ & E1 & _ & _ & _ & _ & E2 & _). destruct (Eo c) as (_ & _ & _ & _ & _ & _ & E3 & _).
        rewrite E1, E2, E3. change (hh g' x) with (f (hh g x)). change (ll g' c) with (f (ll g c)). split; [apply Lk1; [exact Q1|intros ->; congruence]|].
        split; [apply Lk1; [exact Q2|intros ->; exact (Hun x E)]|]. split; [congruence|]. split; [exact Q4|]. split; [exact Q5|]. intros y Hy. apply Q6. pose proof (Fge (ll g c)). lia.
      + intros a. destruct (Eo a) as (E1 & E2 & _ & _ & _ & E3 & E4 & _). rewrite Hfr, E1, E2, E3, E4. intros Q1 Q2. destruct (gl_leaf _ _ GB a Q1 Q2) as (C1 & C2 & C3 & C4 & C5 & C6).
        split; [exact C1|]. split; [exact C2|]. split; [exact C3|]. split.
        { cbn. unfold setf. destruct (Nat.eqb_spec a n) as [->|_]; auto. }
        split; [exact C5|]. intros b. rewrite En. destruct (Eo b) as (E5 & _). rewrite E5. destruct (Nat.eqb_spec a p) as [->|_]; [|apply C6]. intros Hb. destruct (L4 b Hb) as ((Q3 & Q4 & _) & _). auto.
      + intros a Ha. destruct (Lk2 a Ha) as (Q1 & N). destruct (gl_link _ _ GB a Q1) as (C1 & C2 & C3 & C4 & C5 & C6). destruct (Far a Q1 N) as (_ & _ & Q3).
        rewrite Elo. change (hh g' a) with (f (hh g a)). change (ll g' a) with (f (ll g a)). rewrite C1, Q3. split; [reflexivity|]. pose proof (Fge (hh g a)). split; [lia|].
        rewrite En, Eb. split; [|split; [|split]].
        * destruct (Nat.eqb_spec a p) as [->|N2].
          -- rewrite P3, Fa, L3. unfold nlo. destruct (nxt (nd s n)); [now rewrite Elo|reflexivity].
          -- rewrite C3. unfold nlo. destruct (nxt (nd s a)) as [b|] eqn:Q; [|exact Fi]. rewrite Elo. destruct (C4 b eq_refl) as (Q4 & Q5). apply (Far b Q4). intros ->. congruence.
        * intros b. destruct (Nat.eqb_spec a p) as [->|N2]; intros Hb; rewrite Eb.
          -- rewrite Hb, Nat.eqb_refl. split; [|reflexivity]. destruct (L4 b Hb) as (Q4 & _). apply Lk1; [exact Q4|exact (Nnb b Hb)].
          -- destruct (C4 b Hb) as (Q4 & Q5). assert (Nb : b <> n) by (intros ->; congruence). split; [now apply Lk1|]. destruct (nxt (nd s n)) as [e|] eqn:Q; [|exact Q5].
             destruct (Nat.eqb_spec b e) as [->|_]; [|exact Q5]. destruct (L4 e eq_refl) as (_ & Q6). congruence.
        * intros b Hb. rewrite En. assert (D : (nxt (nd s n) = Some a /\ b = p) \/ (prv (nd s a) = Some b /\ nxt (nd s n) <> Some a)).
          { destruct (nxt (nd s n)) as [e|] eqn:Q; [|right; split; [exact Hb|discriminate]]. destruct (Nat.eqb_spec a e) as [->|]; [left; split; [reflexivity|congruence]|right; split; [exact Hb|congruence]]. }
          destruct D as [(D & ->)|(D & D2)]; [rewrite Nat.eqb_refl; split; [now apply Lk1|exact D]|]. destruct (C5 b D) as (Q4 & Q5).
          assert (Nb : b <> n) by (intros ->; congruence). split; [now apply Lk1|]. destruct (Nat.eqb_spec b p) as [->|_]; [congruence|exact Q5].
        * destruct (nxt (nd s n)) as [e|]; [|exact C6]. destruct (Nat.eqb_spec a e); [discriminate|exact C6].
      + intros a. destruct (Eo a) as (E1 & _ & _ & _ & _ & E3 & E4 & E5). rewrite Hfr, E1, E3, E4, E5, Rh. intros Q1 Q2. destruct (gl_rows _ _ GB a Q1 Q2) as (C1 & C2 & C3).
        pose proof (Fge (rh g a)). split; [exact C1|]. split; [intros y Hy; specialize (C2 y Hy); lia|]. intros Q3 Q4. specialize (C3 Q3 Q4). lia.
      + intros a Ha. destruct (Eo a) as (_ & E & _). rewrite E. now apply GB.
      + intros a b Ha Hb N. destruct (Lk2 a Ha) as (Q1 & N1). destruct (Lk2 b Hb) as (Q2 & N2). rewrite !Elo. change (hh g' a) with (f (hh g a)). change (hh g' b) with (f (hh g b)).
        destruct (Far a Q1 N1) as (F1 & _). destruct (Far b Q2 N2) as (F2 & _). pose proof (gl_disj _ _ GB a b Q1 Q2 N). unfold f, sg. destruct (Z.eqb_spec (hh g a) A); destruct (Z.eqb_spec (hh g b) A); lia.
    - (* GV *) pose proof GC as [H1 H2 H3 H4 H5 H6 H7]. constructor.
      + intros x c E. destruct (Eo x) as (E1 & E2 & _). rewrite E1, E2. exact (H1 x c E).
      + intros a. rewrite Hfr. intros Q. destruct (H2 a Q). split; now apply Bd2.
      + intros a. destruct (Eo a) as (_ & E2 & _). rewrite Hfr, E2. apply H3.
      + intros a. destruct (Eo a) as (_ & E2 & _). rewrite Hfr, E2, Rh. intros Q1 Q2 Q3 Q4. now rewrite (H4 a Q1 Q2 Q3 Q4).
      + intros a. destruct (Eo a) as (_ & E2 & _ & _ & E3 & _). rewrite Hfr, E2, E3. apply H5.
      + intros q tl. destruct (Eo q) as (E1 & E2 & _ & E3 & _). rewrite Hfr, E1, E2, E3. apply H6.
      + intros q. destruct (Eo q) as (E1 & E2 & _ & E3 & _). rewrite Hfr, E1, E2, E3. apply H7.
    - (* Rel *) constructor.
      + lia.
      + intros a _. apply Eo.
      + intros a _. change (l0 g' a) with (l0 g a). lia.
      + intros a _. exact (fun H => H).
      + intros a _. destruct (Eo a) as (_ & E & _). rewrite E. apply vmono_refl.
      + intros a _. destruct (Eo a) as (_ & _ & _ & _ & E & _). now rewrite E.
      + intros a _ _. rewrite Rh. apply Fge.
      + intros a _ _ _. destruct (Eo a) as (_ & _ & E1 & E2 & _). rewrite E1, E2. split; [reflexivity|]. split; [reflexivity|]. intros c _. rewrite Ehi. apply Fge.
    - (* Frame *) constructor.
      + intros t' a N Ha. destruct (Eo a) as (_ & E1 & E2 & E3 & _ & _ & E4 & _). rewrite E1, E2, E3, E4. change (hh g' a) with (f (hh g a)). change (ll g' a) with (f (ll g a)).
        change (ul g' a) with (setf (ul g) n true a). rewrite setf_other by exact (Hh t' a N Ha). repeat split; auto. congruence.
      + intros t' a c N Ha Hc Hp. destruct (Eo c) as (_ & _ & _ & _ & E & _). rewrite E. split; [exact Hp|]. split; [apply Fge|]. change (sp g' c) with (sp g c). lia.
      + intros a _. apply Elo.
      + exact Ep.
  Qed.
End Unl.
