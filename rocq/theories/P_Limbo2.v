(* The queue of retired objects: releasing the objects of one group. *)
From Verif Require Import Lib M_Circular M_Limbo Spec_Limbo P_Limbo1.

(* Traces. *)
Lemma queue_app a b q1 q2 q3 : queue a q1 q2 -> queue b q2 q3 -> queue (a ++ b) q1 q3.
Proof. intros H K. induction H; cbn [app]; auto; constructor; auto. Qed.
Lemma releases_app a b : releases (a ++ b) = (releases a + releases b)%nat.
Proof. unfold releases. now rewrite filter_app, app_length. Qed.
Lemma signed_epoch a e : 1 <= a < 2 ^ 63 -> 0 <= e < 2 ^ 63 -> (ci_signed 64 (a - 1 - e) <? 0) = (a <=? e).
Proof.
  intros A E. unfold ci_signed, ci_wrap. change (64 - 1) with 63. destruct (Z.leb_spec a e) as [L|L].
  - assert (M : (a - 1 - e) mod 2 ^ 64 = a - 1 - e + 2 ^ 64) by (symmetry; apply Z.mod_unique with (q := -1); lia). rewrite M.
    replace (a - 1 - e + 2 ^ 64 <? 2 ^ 63) with false by lia. lia.
  - rewrite Z.mod_small by lia. replace (a - 1 - e <? 2 ^ 63) with true by lia. lia.
Qed.

Section Limbo.
Context (cap : nat) (cb : list event -> Z -> list (Z * Z * nat)) (Hcap : (2 <= cap)%nat).
Context (B : Z) (HB : forall tr p, cb_ticks (cb tr p) <= B).
Notation Inv := (Inv cap).
Lemma cb_ticks_pos rs : 0 <= cb_ticks rs.
Proof. induction rs as [|x rs IH]; cbn; [lia|]. fold (cb_ticks rs) in *. unfold cb_ticks in *. lia. Qed.
Lemma HB0 : 0 <= B.
Proof. pose proof (HB [] 0). pose proof (cb_ticks_pos (cb [] 0)). lia. Qed.

Lemma record_all_ok rs : forall l pre ids spare c ss, Inv l pre ids spare c ss -> st_ok ss -> last ss [] <> [] ->
  exists l' ids' spare' ss' X tr, record_all cap l rs = Some l' /\ Inv l' pre ids' spare' c ss' /\ st_ok ss' /\ last ss' [] <> [] /\ grown l l' ss ss' /\
    items c (concat ss') = items c (concat ss) ++ X /\ l_trace l' = l_trace l ++ tr /\ (forall q, queue tr q (q ++ X)) /\ releases tr = 0%nat /\
    l_now l' = l_now l + 2 * cb_ticks rs.
Proof.
  induction rs as [|[[p t] n] rs IH]; intros l pre ids spare c ss I S N.
  - exists l, ids, spare, ss, [], []. rewrite !app_nil_r. do 4 (split; [auto|]). split; [apply grown_refl|]. do 2 (split; [auto|]). split; [intros q; rewrite app_nil_r; constructor|]. split; [reflexivity|]. cbn. lia.
  - cbn [record_all]. destruct (record_ok cap Hcap (ticks n l) pre ids spare c ss p t) as (l1 & ids1 & sp1 & ss1 & E1 & I1 & S1 & N1 & G1 & T1 & R1 & W1); auto. { now apply inv_ticks. } { now left. }
    rewrite E1. destruct (IH _ _ _ _ _ _ I1 S1 N1) as (l2 & ids2 & sp2 & ss2 & X & tr & E2 & I2 & S2 & N2 & G2 & T2 & R2 & Q2 & L2 & W2).
    exists l2, ids2, sp2, ss2, ((p, t, l_now (ticks n l)) :: X), (EHand p t (l_now (ticks n l)) :: tr). split; auto. split; auto. split; auto. split; auto. split; [|split; [|split; [|split; [|split]]]].
    + apply (grown_trans l l1 l2 ss ss1 ss2); auto. destruct G1. constructor; auto.
    + rewrite T2, T1, <- app_assoc. reflexivity.
    + rewrite R2, R1, <- app_assoc. reflexivity.
    + intros q. constructor. specialize (Q2 (q ++ [(p, t, l_now (ticks n l))])). rewrite <- app_assoc in Q2. exact Q2.
    + exact L2.
    + rewrite W2, W1. unfold cb_ticks. cbn [ticks l_now fold_right snd]. lia.
Qed.
Lemma free_ok l pre ids spare c ss p t a : Inv l pre ids spare c ss -> st_ok ss -> last ss [] <> [] ->
  exists l' ids' spare' ss' X tr, free_rcu cap cb l p t a = Some l' /\ Inv l' pre ids' spare' c ss' /\ st_ok ss' /\ last ss' [] <> [] /\ grown l l' ss ss' /\
    items c (concat ss') = items c (concat ss) ++ X /\ l_trace l' = l_trace l ++ EFree p t a :: tr /\ (forall q, queue tr q (q ++ X)) /\ releases tr = 0%nat /\
    l_now l <= l_now l' <= l_now l + 2 * B.
Proof.
  intros I S N. unfold free_rcu. set (l1 := add_event l (EFree p t a)). pose proof (inv_event cap (EFree p t a) _ _ _ _ _ _ I) as I1. fold l1 in I1.
  destruct (t =? -1).
  - destruct (record_all_ok (cb (l_trace l1) p) l1 pre ids spare c ss I1 S N) as (l2 & ids2 & sp2 & ss2 & X & tr & E2 & I2 & S2 & N2 & G2 & T2 & R2 & Q2 & L2 & W2).
    exists l2, ids2, sp2, ss2, X, tr. split; auto. split; auto. split; auto. split; auto. split; [destruct G2; constructor; auto|]. split; auto.
    split. { rewrite R2. unfold l1. cbn [add_event l_trace]. now rewrite <- app_assoc. }
    split; auto. split; auto. rewrite W2. change (l_now l1) with (l_now l). pose proof (HB (l_trace l1) p). pose proof (cb_ticks_pos (cb (l_trace l1) p)). lia.
  - exists l1, ids, spare, ss, [], []. rewrite !app_nil_r. split; auto. split; auto. split; auto. split; auto. split; [constructor; auto; exists []; now rewrite app_nil_r|].
    split; auto. split; auto. split; [intros q; rewrite app_nil_r; constructor|]. split; auto. change (l_now l1) with (l_now l). pose proof HB0. lia.
Qed.

(* Moving the head of the first group. *)
Lemma inv_shape l pre ids spare c ss : Inv l pre ids spare c ss -> exists u us sl rs, ids = u :: us /\ ss = sl :: rs /\ l_head l = u /\ gseg cap l u sl.
Proof. intros I. destruct I. destruct ids as [|u us]; [easy|]. inversion i_seg; subst. eauto 10. Qed.
Lemma last_ne ss : ss <> [] -> st_ok ss -> hd [] ss <> [] -> last ss [] <> [].
Proof.
  intros N S H. destruct ss as [|s rs]; [easy|]. cbn [hd] in H. unfold st_ok in S. cbn [tl] in S. destruct rs as [|r rs]; auto.
  change (last (s :: r :: rs) []) with (last (r :: rs) []). clear H N. revert r S. induction rs as [|x rs IH]; intros r S; inversion S as [|? ? A D]; subst. { destruct A as (e & p & t & w & ->). discriminate. }
  change (last (r :: x :: rs) []) with (last (x :: rs) []). auto.
Qed.
Lemma inv_set l pre u us spare c sl rs g c' sl' : Inv l pre (u :: us) spare c (sl :: rs) -> st_ok (sl :: rs) ->
  g_next g = g_next (l_g l u) -> g_epoch g = g_epoch (l_g l u) -> seg g = sl' -> (g_head g <= g_tail g <= cap)%nat ->
  (sl <> [] \/ sl' = []) -> lastmark c' (sl' ++ concat rs) = lastmark c (sl ++ concat rs) -> asc c' (sl' ++ concat rs) -> 0 <= c' ->
  Inv (set_g l u g) pre (u :: us) spare c' (sl' :: rs).
Proof.
  intros I ST X1 X2 X3 X4 X5 X6 X7 X8. pose proof I as [A Bn C D E F G H I0 K L M N].
  assert (NU : ~ In u pre /\ ~ In u us /\ ~ In u spare).
  { cbn [app] in Bn. apply NoDup_remove_2 in Bn. rewrite !in_app_iff in Bn. tauto. }
  assert (Gn : forall i, i <> u -> l_g l i = l_g (set_g l u g) i). { intros i Hi. unfold set_g. cbn [l_g]. destruct (Nat.eqb_spec i u); [easy|reflexivity]. }
  assert (Gt : l_g (set_g l u g) u = g). { unfold set_g. cbn [l_g]. now rewrite Nat.eqb_refl. }
  constructor; auto.
  - eapply lnk_ext; [|exact A]. intros i Hi. destruct (Nat.eq_dec i u) as [->|Hi']; [rewrite Gt; auto|rewrite Gn; auto].
  - apply (vac_ext l); auto. intros i Hi. apply Gn. intros ->. tauto.
  - apply (vac_ext l); auto. intros i Hi. apply Gn. intros ->. tauto.
  - inversion I0; subst. constructor; [split; rewrite Gt; auto|]. apply (f2_ext cap l); auto. intros i Hi. apply Gn. intros ->. tauto.
  - cbn [concat]. intros HL. rewrite X6. assert (HL' : last (sl :: rs) [] <> []). { destruct rs as [|r rs]; [|exact HL]. cbn [last] in *. tauto. }
    specialize (K HL'). cbn [concat] in K. rewrite K. cbn [set_g l_tail]. destruct (Nat.eq_dec (l_tail l) u) as [Q|Q]; [rewrite Q, Gt; auto|now rewrite <- Gn].
  - cbn [concat] in *. rewrite X6. exact M.
Qed.

(* Outcomes of cleaning the first group. *)
Definition front (a : Z) (sl : list slot) (count : nat) : Prop :=
  exists e r, sl = SMark e :: r /\ (count = 0%nat \/ a <= e).
Lemma clean_loop_ok a : 1 <= a < 2 ^ 63 -> forall fuel l pre u us spare c sl rs count,
  Inv l pre (u :: us) spare c (sl :: rs) -> st_ok (sl :: rs) -> c < a -> (0 < count)%nat -> (cap < fuel + g_head (l_g l u))%nat ->
  l_now l + 2 * B * Z.of_nat count < 2 ^ 63 ->
  exists l' us' spare' sl' rs' c' tr count', clean_loop cap cb fuel l u a count c = Some (l', count') /\
    Inv l' pre (u :: us') spare' c' (sl' :: rs') /\ st_ok (sl' :: rs') /\ l_perform l' = l_perform l /\
    l_trace l' = l_trace l ++ tr /\ queue tr (items c (sl ++ concat rs)) (items c' (sl' ++ concat rs')) /\ (releases tr + count' = count)%nat /\
    l_now l <= l_now l' /\ l_now l' + 2 * B * Z.of_nat count' <= l_now l + 2 * B * Z.of_nat count /\
    ((front a sl' count' /\ c' = 0) \/ (sl' = [] /\ (0 < count')%nat /\ c' < a /\ (length (items c sl) <= releases tr)%nat)).
Proof.
  intros Ha. induction fuel as [|fuel IH]; intros l pre u us spare c sl rs count I ST Hc Hn Hf Hw; cbn [clean_loop];
    destruct (inv_shape _ _ _ _ _ _ I) as (u0 & us0 & sl0 & rs0 & EQ1 & EQ2 & Hh & [Sg1 Sg2]); injection EQ1 as <- <-; injection EQ2 as <- <-.
  { replace (Nat.eqb (g_head (l_g l u)) (g_tail (l_g l u))) with true by (symmetry; apply Nat.eqb_eq; lia).
    assert (E0 : sl = []) by (rewrite <- Sg1; apply seg_nil; lia). exists l, us, spare, sl, rs, c, [], count. rewrite app_nil_r.
    do 5 (split; [auto|]). split; [constructor|]. split; [reflexivity|]. split; [lia|]. split; [lia|]. right. split; [auto|]. split; [auto|]. split; [auto|]. rewrite E0. cbn. lia. }
  destruct (Nat.eqb_spec (g_head (l_g l u)) (g_tail (l_g l u))) as [Q|Q].
  { assert (E0 : sl = []) by (rewrite <- Sg1; apply seg_nil; lia). exists l, us, spare, sl, rs, c, [], count. rewrite app_nil_r.
    do 5 (split; [auto|]). split; [constructor|]. split; [reflexivity|]. split; [lia|]. split; [lia|]. right. split; [auto|]. split; [auto|]. split; [auto|]. rewrite E0. cbn. lia. }
  pose proof (seg_pop (l_g l u) ltac:(lia)) as SP. rewrite Sg1 in SP.
  destruct (g_e (l_g l u) (g_head (l_g l u))) as [e|p t] eqn:GE.
  - (* an epoch *)
    set (r := seg (g_with_head (l_g l u) (S (g_head (l_g l u))))) in *.
    assert (Ae : c <= e /\ asc e (r ++ concat rs) /\ lastmark e (r ++ concat rs) <= l_now l /\ 0 <= c).
    { destruct I. cbn [concat] in *. rewrite SP in *. cbn [app asc lastmark] in *. tauto. }
    destruct Ae as (Ae1 & Ae2 & Ae3 & Ae4). pose proof (asc_last _ _ Ae2) as Ae5. pose proof HB0 as HB0.
    rewrite signed_epoch by nia. destruct (Z.leb_spec a e) as [L|L].
    + exists l, us, spare, sl, rs, 0, [], count. rewrite app_nil_r. split; auto. split.
      { assert (X : Inv (set_g l u (l_g l u)) pre (u :: us) spare 0 (sl :: rs)).
        { apply (inv_set l pre u us spare c sl rs (l_g l u) 0 sl); auto; try lia. { left. rewrite SP. discriminate. } { rewrite SP. reflexivity. } rewrite SP. cbn [app asc]. split; [lia|auto]. }
        destruct X. constructor; auto.
        - eapply lnk_ext; [|exact i_lnk]. intros i _. unfold set_g. cbn [l_g]. destruct (Nat.eqb_spec i u); [now subst|reflexivity].
        - eapply vac_ext; [|exact i_pre]. intros i _. unfold set_g. cbn [l_g]. destruct (Nat.eqb_spec i u); [now subst|reflexivity].
        - eapply vac_ext; [|exact i_spare]. intros i _. unfold set_g. cbn [l_g]. destruct (Nat.eqb_spec i u); [now subst|reflexivity].
        - eapply f2_ext; [|exact i_seg]. intros i _. unfold set_g. cbn [l_g]. destruct (Nat.eqb_spec i u); [now subst|reflexivity].
        - intros Z0. rewrite (i_epoch Z0). cbn [set_g l_tail l_g]. destruct (Nat.eqb_spec (l_tail l) u) as [Y|Y]; [now rewrite Y|reflexivity]. }
      split; auto. split; auto. split; auto. split. { rewrite SP. cbn [app items]. constructor. } split; auto. split; [lia|]. split; [lia|].
      left. split; auto. exists e, r. split; auto.
    + set (g1 := g_with_head (l_g l u) (S (g_head (l_g l u)))) in *.
      assert (I1 : Inv (set_g l u g1) pre (u :: us) spare e (r :: rs)).
      { apply (inv_set l pre u us spare c sl rs g1 e r); auto; try (cbn; lia). { left. rewrite SP. discriminate. } rewrite SP. reflexivity. }
      assert (Gt : l_g (set_g l u g1) u = g1) by (unfold set_g; cbn [l_g]; now rewrite Nat.eqb_refl).
      destruct (IH (set_g l u g1) pre u us spare e r rs count I1 ST L Hn) as (l' & us' & sp' & sl' & rs' & c' & tr & n' & R1 & R2 & R3 & R4 & R5 & R6 & R7 & R8 & R9 & R10).
      { rewrite Gt. unfold g1. cbn [g_with_head g_head]. lia. } { exact Hw. }
      exists l', us', sp', sl', rs', c', tr, n'. repeat (split; [solve [auto|rewrite SP; auto]|]). rewrite SP. exact R10.
  - (* an object *)
    set (r := seg (g_with_head (l_g l u) (S (g_head (l_g l u))))) in *.
    assert (NE : last (sl :: rs) [] <> []). { apply last_ne; [discriminate|auto|]. cbn [hd]. rewrite SP. discriminate. }
    destruct (free_ok l pre (u :: us) spare c (sl :: rs) p t a I ST NE) as (l1 & ids1 & sp1 & ss1 & X & tr1 & E1 & I1 & S1 & N1 & G1 & T1 & R1 & Q1 & L1 & W1).
    rewrite E1. destruct (inv_shape _ _ _ _ _ _ I1) as (u1 & us1 & sl1 & rs1 & -> & -> & Hh1 & [Sg3 Sg4]).
    assert (u1 = u) as ->. { rewrite <- Hh1, (g_hd _ _ _ _ G1), Hh. reflexivity. }
    destruct (g_first _ _ _ _ G1) as (x & Ex). cbn [hd] in Ex. rewrite SP in Ex. cbn [app] in Ex.
    pose proof (g_hhd _ _ _ _ G1) as GH. rewrite Hh in GH.
    set (g1 := l_g l1 u) in *.
    assert (HT : (g_head g1 < g_tail g1)%nat). { destruct (Nat.eq_dec (g_head g1) (g_tail g1)) as [Y|Y]; [|lia]. apply seg_nil in Y; [|lia]. rewrite Sg3, Ex in Y. discriminate. }
    pose proof (seg_pop g1 HT) as SP1. rewrite Sg3, Ex in SP1. injection SP1 as SE1 SP1.
    set (r1 := r ++ x) in *.
    assert (IT : items c (concat ((SPtr p t :: r) :: rs)) ++ X = (p, t, c) :: items c (r1 ++ concat rs1)).
    { rewrite SP in T1. rewrite <- T1. cbn [concat]. rewrite Ex. reflexivity. }
    cbn [concat app items] in IT. injection IT as IT.
    assert (As : asc c (r1 ++ concat rs1) /\ 0 <= c /\ c <= lastmark c (r1 ++ concat rs1)).
    { destruct I1. cbn [concat] in *. rewrite Ex in *. cbn [app asc] in *. split; auto. split; auto. now apply asc_last. }
    destruct As as (As1 & As2 & As3).
    assert (QQ : queue (EFree p t a :: tr1) (items c (sl ++ concat rs)) (items c (r1 ++ concat rs1))).
    { rewrite SP. cbn [app items]. constructor; auto. rewrite <- IT. apply Q1. }
    assert (RL : releases (EFree p t a :: tr1) = 1%nat). { unfold releases in *. cbn [filter length]. now rewrite L1. }
    destruct count as [|[|count]]; [lia| |].
    + set (g2 := g_with_slot g1 (g_head g1) (SMark c)).
      assert (I2 : Inv (set_g l1 u g2) pre (u :: us1) sp1 0 ((SMark c :: r1) :: rs1)).
      { apply (inv_set l1 pre u us1 sp1 c sl1 rs1 g2 0); auto; try lia.
        - unfold g2. rewrite seg_rewrite by auto. now rewrite <- SP1.
        - left. rewrite Ex. discriminate.
        - rewrite Ex. reflexivity.
        - cbn [app asc]. split; [lia|auto]. }
      exists (set_g l1 u g2), us1, sp1, (SMark c :: r1), rs1, 0, (EFree p t a :: tr1), 0%nat. split; auto. split; auto. split; auto.
      split. { cbn [set_g l_perform]. apply (g_perf _ _ _ _ G1). } split; auto. split; auto. split; [rewrite RL; lia|]. cbn [set_g l_now]. split; [lia|]. split; [lia|].
      left. split; auto. exists c, r1. auto.
    + set (g2 := g_with_head g1 (S (g_head g1))) in *.
      assert (I2 : Inv (set_g l1 u g2) pre (u :: us1) sp1 c (r1 :: rs1)).
      { apply (inv_set l1 pre u us1 sp1 c sl1 rs1 g2 c); auto; try (cbn; lia). { left. rewrite Ex. discriminate. } rewrite Ex. reflexivity. }
      assert (Gt : l_g (set_g l1 u g2) u = g2) by (unfold set_g; cbn [l_g]; now rewrite Nat.eqb_refl).
      destruct (IH (set_g l1 u g2) pre u us1 sp1 c r1 rs1 (S count) I2 S1 Hc ltac:(lia)) as (l' & us' & sp' & sl' & rs' & c' & tr & n' & Y1 & Y2 & Y3 & Y4 & Y5 & Y6 & Y7 & Y8 & Y9 & Y10).
      { rewrite Gt. unfold g2. cbn [g_with_head g_head]. lia. } { cbn [set_g l_now]. lia. }
      exists l', us', sp', sl', rs', c', ((EFree p t a :: tr1) ++ tr), n'. split; auto. split; auto. split; auto.
      split. { rewrite Y4. cbn [set_g l_perform]. apply (g_perf _ _ _ _ G1). }
      split. { rewrite Y5. cbn [set_g l_trace]. rewrite R1, <- !app_assoc. reflexivity. }
      split. { eapply queue_app; [exact QQ|exact Y6]. }
      rewrite releases_app, RL. cbn [set_g l_now] in *. split; [lia|]. split; [lia|]. split; [lia|].
      destruct Y10 as [Y10|(Y10 & Y11 & Y12 & Y13)]; [now left|]. right. repeat split; auto.
      rewrite SP. cbn [items length]. unfold r1 in Y13. rewrite items_app, app_length in Y13. lia.
Qed.
End Limbo.
