(* Concurrent layer: as long as no leaf is deleted, every child is where the separators say. *)
From Verif Require Import Lib M_Tree M_Stampc P_Stampc1 M_Conc Spec_Conc P_Conc1 P_Conc2 P_Conc3 P_Conc4 P_Conc14 P_Conc15 P_Conc16 P_Conc16b P_Conc18 P_Conc19 P_Conc20 P_ConcR.

(* b a: the lower bound node a was made with. *)
Definition named (b : nat -> Z) (k : Z) (o : option nat) : Prop := exists c, o = Some c /\ b c = k.
Definition XN (s : cst) (b : nat -> Z) (h : nat) (q : option nat) (nc : option (nat * Z)) : Prop :=
  match q, nc with Some q, Some (c, sk) => ht (nd s q) = S h /\ ht (nd s c) = S h /\ b c = sk | _, _ => True end.
Definition XT (s : cst) (b : nat -> Z) (p : pct) : Prop :=
  match p with
  | WUp _ _ _ n c sk h _ => ht (nd s n) = h /\ ht (nd s c) = h /\ b c = sk
  | WIn _ _ _ n c sk h _ q => ht (nd s n) = h /\ ht (nd s c) = h /\ b c = sk /\ par (nd s n) = Some q
  | WStrip _ _ _ n c _ _ q nc => XN s b 0 q nc
  | WUnlN _ _ _ _ _ h _ q nc | WUnlC _ _ _ _ h _ q nc | WNext _ _ _ h _ q nc => XN s b h q nc
  | DUp _ _ _ _ _ | DIn _ _ _ _ _ _ | DRed _ _ _ _ _ _ _ | DRedU _ _ _ _ _ _ _ _ | DRedW _ _ _ _ _ _ _ _ | DRedE _ _ _ _ _ _ | DUnl _ _ _ _ _ | DNext _ _ _ _ => False
  | _ => True
  end.
Record XI (s : cst) (b : nat -> Z) : Prop := {
  x_leaf : forall a, (a < fr s)%nat -> isl (nd s a) = true -> b a = lo (nd s a) /\ ht (nd s a) = 0%nat;
  x_int : forall p, (p < fr s)%nat -> isl (nd s p) = false -> Forall2 (named b) (b p :: keys (nd s p)) (kids (nd s p));
  x_kid : forall p c, (p < fr s)%nat -> isl (nd s p) = false -> In (Some c) (kids (nd s p)) -> (ht (nd s c) < ht (nd s p))%nat;
  x_par : forall a p, (a < fr s)%nat -> par (nd s a) = Some p -> In (Some a) (kids (nd s p));
  x_thr : forall t, XT s b (pcs s t)
}.
Definition nodel (s : cst) : Prop := forall a, (a < fr s)%nat -> v_del (ver (nd s a)) = false.

Lemma upper_app y : forall A B, Forall (fun k => k <= y) A -> match B with k :: _ => y < k | [] => True end -> upper y (A ++ B) = length A.
Proof.
  induction A as [|k A IH]; intros B HA HB; cbn [app length].
  - destruct B as [|k B]; [reflexivity|]. cbn [upper]. apply Z.ltb_lt in HB. now rewrite HB.
  - inversion HA as [|? ? H1 H2]; subst. cbn [upper]. destruct (Z.ltb_spec y k); [lia|]. f_equal. auto.
Qed.

Lemma Forall2_in_l {A B} (R : A -> B -> Prop) l m : Forall2 R l m -> forall x, In x l -> exists y, In y m /\ R x y.
Proof. induction 1 as [|a c l m H1 H2 IH]; intros x Hx; [destruct Hx|]. destruct Hx as [->|Hx]; [exists c; split; [now left|exact H1]|]. destruct (IH x Hx) as (y & Q1 & Q2). exists y. split; [now right|exact Q2]. Qed.
Lemma Forall2_firstn {A B} (R : A -> B -> Prop) l m : Forall2 R l m -> forall i, Forall2 R (firstn i l) (firstn i m).
Proof. induction 1 as [|a c l m H1 H2 IH]; intros [|i]; cbn [firstn]; constructor; auto. Qed.
Lemma Forall2_skipn {A B} (R : A -> B -> Prop) l m : Forall2 R l m -> forall i, Forall2 R (skipn i l) (skipn i m).
Proof. induction 1 as [|a c l m H1 H2 IH]; intros [|i]; cbn [skipn]; try constructor; auto. Qed.
Lemma Forall2_ins {A B} (R : A -> B -> Prop) l m x y i : Forall2 R l m -> R x y -> Forall2 R (ins_at i x l) (ins_at i y m).
Proof. intros H Q. unfold ins_at. apply Forall2_app; [now apply Forall2_firstn|]. constructor; [exact Q|now apply Forall2_skipn]. Qed.
Lemma Forall2_impl2 {A B} (R R' : A -> B -> Prop) l m : (forall x y, In x l -> In y m -> R x y -> R' x y) -> Forall2 R l m -> Forall2 R' l m.
Proof. intros H F. induction F as [|a c l m H1 H2 IH]; constructor; [apply H; [now left|now left|exact H1]|]. apply IH. intros x y Hx Hy. apply H; now right. Qed.

Lemma Forall2_length {A B} (R : A -> B -> Prop) l m : Forall2 R l m -> length l = length m.
Proof. induction 1; cbn; congruence. Qed.

Section Static.
  Variables (s : cst) (g : gst) (b : nat -> Z).
  Hypothesis I : Inv s g.
  Hypothesis X : XI s b.
  Hypothesis ND : nodel s.
  Let G := proj1 I.
  Let GA := gi_t _ _ G.
  Let GB := gi_l _ _ G.
  Let K := proj1 (proj2 (proj2 I)).
  Lemma all_linked a : (a < fr s)%nat -> isl (nd s a) = true -> linked s g a.
  Proof.
    intros Ha Hi. split; [exact Ha|]. split; [exact Hi|]. destruct (ul g a) eqn:U; [|reflexivity]. destruct (gl_leaf _ _ GB a Ha Hi) as (_ & _ & _ & Q & _). specialize (Q U). rewrite (ND a Ha) in Q. discriminate.
  Qed.
  Lemma exact_ll : forall h a, (ht (nd s a) < h)%nat -> (a < fr s)%nat -> ll g a = b a /\ ll g a < hh g a.
  Proof.
    induction h as [|h IH]; intros a Hh Ha; [lia|]. destruct (isl (nd s a)) eqn:Hi.
    - destruct (gl_link _ _ GB a (all_linked a Ha Hi)) as (Q1 & Q2 & _). destruct (x_leaf _ _ X a Ha Hi) as (Q3 & _). lia.
    - pose proof (x_int _ _ X a Ha Hi) as F. destruct (kids (nd s a)) as [|o kt] eqn:Ek; [inversion F|]. inversion F as [|? ? ? ? (c & -> & Hc) _]; subst.
      assert (Hin : In (Some c) (kids (nd s a))) by (rewrite Ek; now left). destruct (gt_kid _ _ GA a c Ha Hi Hin) as (Hcf & _). pose proof (x_kid _ _ X a c Ha Hi Hin) as Hht.
      destruct (IH c ltac:(lia) Hcf) as (Q1 & Q2). pose proof (kids_chain _ _ _ _ GA Ha Hi Hin) as Ch. rewrite Ek in Ch. cbn [lkids flat_map subs app chain] in Ch. destruct Ch as (Ch & _).
      destruct (kid_range _ _ _ _ GA Ha Hi Hin) as (_ & Q3). pose proof (ehi_ge _ _ c GA Hcf). lia.
  Qed.
  Lemma ll_b a : (a < fr s)%nat -> ll g a = b a. Proof. intros H. exact (proj1 (exact_ll (S (ht (nd s a))) a ltac:(lia) H)). Qed.
  Lemma ll_hh a : (a < fr s)%nat -> ll g a < hh g a. Proof. intros H. exact (proj2 (exact_ll (S (ht (nd s a))) a ltac:(lia) H)). Qed.

  Lemma kid_pos n c q : pd g n = Some c -> (n < fr s)%nat -> par (nd s n) = Some q -> is_at n (upper (b c) (keys (nd s q))) (kids (nd s q)) = true.
  Proof.
    intros Hpd Hn Hpar. apply is_at_iff. destruct (gt_pd _ _ GA n c Hpd) as (_ & Hc & Hnc & _). destruct (gt_par _ _ GA n q Hn Hpar) as (Hq & Hqi & _).
    pose proof (x_par _ _ X n q Hn Hpar) as Hin. pose proof (kids_chain _ _ _ _ GA Hq Hqi Hin) as Ch. destruct (in_split _ _ Hin) as (A & C & Ek).
    pose proof (x_int _ _ X q Hq Hqi) as F. rewrite Ek in F, Ch |- *. rewrite lkids_app in Ch. apply chain_app in Ch. destruct Ch as (x & Ch1 & Ch2).
    change (lkids g (Some n :: C)) with ((n :: o2l (pd g n)) ++ lkids g C) in Ch2. rewrite Hpd in Ch2. cbn [o2l app chain] in Ch2. destruct Ch2 as (X1 & X2 & Ch3).
    apply Forall2_app_inv_r in F. destruct F as (la & lb & F1 & F2 & Fe). inversion F2 as [|k ? kc ? (n' & Hn' & Hk) F3]; subst. injection Hn' as <-.
    pose proof (ll_b n Hn) as Bn. pose proof (ll_hh n Hn) as Hhn. pose proof (ll_b c Hc) as Bc. pose proof (ll_hh c Hc) as Hhc.
    assert (Kin : forall z, In (Some z) (A ++ Some n :: C) -> (z < fr s)%nat) by (intros z Hz; rewrite <- Ek in Hz; exact (proj1 (gt_kid _ _ GA q z Hq Hqi Hz))).
    assert (U : upper (b c) ((la ++ [b n]) ++ kc) = length (la ++ [b n])).
    { apply upper_app.
      - apply Forall_app. split; [|constructor; [lia|constructor]]. apply Forall_forall. intros k Hk. destruct (Forall2_in_l _ _ _ F1 k Hk) as (o & Ho & (z & -> & <-)).
        pose proof (Kin z ltac:(apply in_or_app; now left)) as Hz. rewrite <- (ll_b z Hz). assert (Hm : forall d, In d (lkids g A) -> ll g d <= hh g d).
        { intros d Hd. apply (lkids_le _ _ q GA Hq Hqi). rewrite Ek, lkids_app. apply in_or_app. now left. }
        assert (Hzin : In z (lkids g A)) by (unfold lkids; apply in_flat_map; exists (Some z); split; [exact Ho|now left]).
        destruct (chain_in _ z _ _ _ Hm Ch1 Hzin) as (_ & Q). pose proof (Hm z Hzin). lia.
      - destruct kc as [|k kc]; [exact Logic.I|]. inversion F3 as [|? o ? C' (z & -> & Hz) _]; subst. cbn [lkids flat_map subs app chain] in Ch3. destruct Ch3 as (Ch3 & _).
        rewrite <- (ll_b z); [lia|]. apply Kin. apply in_or_app. right. right. now left. }
    rewrite <- app_assoc in U. cbn [app] in U. rewrite <- Fe in U. cbn [upper] in U.
    assert (Q : (b c <? b q) = false).
    { apply Z.ltb_ge. rewrite <- (ll_b q Hq). destruct (kid_range _ _ _ _ GA Hq Hqi Hin) as (Q & _). lia. }
    rewrite Q, app_length in U. cbn [length] in U. assert (U' : upper (b c) (keys (nd s q)) = length A) by (rewrite <- (Forall2_length _ _ _ F1); lia). rewrite U'. rewrite app_nth2, Nat.sub_diag by lia. reflexivity.
  Qed.
End Static.

(* ---- threads ---- *)
Lemma XN_stable s s' b b' h q nc : (forall a, In a (o2l q ++ n2l nc) -> ht (nd s' a) = ht (nd s a) /\ b' a = b a) -> XN s b h q nc -> XN s' b' h q nc.
Proof.
  unfold XN. destruct q as [q|]; [|auto]. destruct nc as [[c sk]|]; [|auto]. intros H (A & B & C). destruct (H q) as (H1 & _); [now left|]. destruct (H c) as (H2 & H3); [right; now left|]. rewrite H1, H2, H3. auto.
Qed.
Lemma XT_stable s g s' g' b b' t t' : LI s -> LK s g -> Frame s g s' g' t -> t' <> t -> (forall a, (a < fr s)%nat -> ht (nd s' a) = ht (nd s a) /\ b' a = b a) ->
  XT s b (pcs s t') -> XT s' b' (pcs s' t').
Proof.
  intros L K F N H. rewrite (fm_pc _ _ _ _ _ F t' N).
  assert (HH : forall a, In a (holds (pcs s t')) -> ht (nd s' a) = ht (nd s a) /\ b' a = b a) by (intros a Ha; apply H; exact (proj1 (proj1 L t' a Ha))).
  pose proof (fm_par _ _ _ _ _ F t') as FP. pose proof (proj1 L t') as L'. destruct (pcs s t') eqn:E; cbn [XT]; auto.
  - intros (A & B & C). destruct (HH n) as (H1 & _); [cbn; tauto|]. destruct (HH c) as (H2 & H3); [cbn; tauto|]. rewrite H1, H2, H3. auto.
  - intros (A & B & C & D). destruct (HH n) as (H1 & _); [cbn; tauto|]. destruct (HH c) as (H2 & H3); [cbn; tauto|]. rewrite H1, H2, H3. repeat split; auto.
    destruct (FP p n N) as (Q & _); [cbn; tauto|apply L'; cbn; tauto|exact D|exact Q].
  - apply XN_stable. intros a Ha. apply HH. cbn [holds]. now right; right; right.
  - apply XN_stable. intros a Ha. apply HH. cbn [holds]. now right; right; right.
  - apply XN_stable. intros a Ha. apply HH. cbn [holds]. now right; right.
  - apply XN_stable. intros a Ha. apply HH. cbn [holds]. now right.
Qed.
Lemma XI_grow s g s' g' b b' t : LI s -> LK s g -> Frame s g s' g' t -> XI s b ->
  (forall a, (a < fr s)%nat -> ht (nd s' a) = ht (nd s a) /\ b' a = b a) ->
  (forall a, (a < fr s')%nat -> isl (nd s' a) = true -> b' a = lo (nd s' a) /\ ht (nd s' a) = 0%nat) ->
  (forall p, (p < fr s')%nat -> isl (nd s' p) = false -> Forall2 (named b') (b' p :: keys (nd s' p)) (kids (nd s' p))) ->
  (forall p c, (p < fr s')%nat -> isl (nd s' p) = false -> In (Some c) (kids (nd s' p)) -> (ht (nd s' c) < ht (nd s' p))%nat) ->
  (forall a p, (a < fr s')%nat -> par (nd s' a) = Some p -> In (Some a) (kids (nd s' p))) ->
  XT s' b' (pcs s' t) -> XI s' b'.
Proof.
  intros L K F X H1 H2 H3 H4 H5 H6. constructor; auto. intros t'. destruct (Nat.eq_dec t' t) as [->|N]; [exact H6|]. exact (XT_stable s g s' g' b b' t t' L K F N H1 (x_thr _ _ X t')).
Qed.
(* ---- steps that leave the tree alone ---- *)
Definition shape (x : cnode) := (isl x, lo x, ht x, par x, keys x, kids x).
Definition flat (s s' : cst) : Prop := fr s' = fr s /\ forall a, shape (nd s' a) = shape (nd s a).
Lemma flat_refl s : flat s s. Proof. split; auto. Qed.
Lemma flat_go s s1 t p : flat s s1 -> flat s (go s1 t p). Proof. exact (fun H => H). Qed.
Lemma flat_put s s1 a x : flat s s1 -> shape x = shape (nd s1 a) -> flat s (put s1 a x).
Proof. intros (A & B) H. split; [exact A|]. intros z. cbn [put nd]. unfold setf. destruct (Nat.eqb_spec z a) as [->|]; [rewrite H|]; apply B. Qed.
Lemma flat_vput s s1 a v : flat s s1 -> flat s (vput s1 a v). Proof. intros H. now apply flat_put. Qed.
Lemma flat_if s (c : bool) s1 s2 : flat s s1 -> flat s s2 -> flat s (if c then s1 else s2). Proof. now destruct c. Qed.
Lemma XI_flat s b s' t : flat s s' -> XI s b -> (forall t', t' <> t -> pcs s' t' = pcs s t') -> XT s' b (pcs s' t) -> XI s' b.
Proof.
  intros (Ef & H) X Hp HT.
  assert (E : forall a, isl (nd s' a) = isl (nd s a) /\ lo (nd s' a) = lo (nd s a) /\ ht (nd s' a) = ht (nd s a) /\ par (nd s' a) = par (nd s a) /\ keys (nd s' a) = keys (nd s a) /\ kids (nd s' a) = kids (nd s a)).
  { intros a. specialize (H a). unfold shape in H. injection H; intros; repeat split; assumption. }
  constructor; rewrite ?Ef.
  - intros a Ha. destruct (E a) as (-> & -> & -> & _). now apply (x_leaf _ _ X).
  - intros p Hp'. destruct (E p) as (-> & _ & _ & _ & -> & ->). now apply (x_int _ _ X).
  - intros p c Hp'. destruct (E p) as (-> & _ & -> & _ & _ & ->). destruct (E c) as (_ & _ & -> & _). now apply (x_kid _ _ X).
  - intros a p Ha. destruct (E p) as (_ & _ & _ & _ & _ & ->). destruct (E a) as (_ & _ & _ & -> & _). now apply (x_par _ _ X).
  - intros t'. destruct (Nat.eq_dec t' t) as [->|N]; [exact HT|]. rewrite (Hp t' N). pose proof (x_thr _ _ X t') as Q. unfold XT, XN in *. destruct (pcs s t'); auto;
      repeat match goal with |- context[ht (nd s' ?a)] => rewrite (proj1 (proj2 (proj2 (E a)))) | |- context[par (nd s' ?a)] => rewrite (proj1 (proj2 (proj2 (proj2 (E a))))) end; auto;
      (destruct p as [q|]; [|exact Logic.I]; destruct nc as [[c' sk']|]; [|exact Logic.I]; rewrite !(proj1 (proj2 (proj2 (E _)))); exact Q).
Qed.
