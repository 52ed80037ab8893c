(* The queue of retired objects: collection and whole runs. *)
From Coq Require Import Permutation.
From Verif Require Import Lib M_Circular M_Limbo Spec_Limbo P_Limbo1 P_Limbo2.

Section Limbo.
Context (cap free_count : nat) (cb : list event -> Z -> list (Z * Z * nat)) (Hcap : (2 <= cap)%nat) (Hfree : (0 < free_count)%nat).
Context (B : Z) (HB : forall tr p, cb_ticks (cb tr p) <= B).
Notation Inv := (Inv cap).

Lemma clean_until_ok a : 1 <= a < 2 ^ 63 -> forall l pre u us spare sl rs count,
  Inv l pre (u :: us) spare 0 (sl :: rs) -> st_ok (sl :: rs) -> (0 < count)%nat -> l_now l + 2 * B * Z.of_nat count < 2 ^ 63 ->
  exists l' us' spare' sl' rs' tr count', clean_until cap cb l u a count = Some (l', count') /\
    Inv l' pre (u :: us') spare' 0 (sl' :: rs') /\ st_ok (sl' :: rs') /\ l_perform l' = l_perform l /\
    l_trace l' = l_trace l ++ tr /\ queue tr (items 0 (sl ++ concat rs)) (items 0 (sl' ++ concat rs')) /\ (releases tr + count' = count)%nat /\
    l_now l <= l_now l' /\ l_now l' + 2 * B * Z.of_nat count' <= l_now l + 2 * B * Z.of_nat count /\
    (front a sl' count' \/ (sl' = [] /\ g_vacant (l_g l' u) /\ (0 < count')%nat /\ (length (items 0 sl) <= releases tr)%nat)).
Proof.
  intros Ha l pre u us spare sl rs count I ST Hn Hw. unfold clean_until.
  destruct (clean_loop_ok cap cb Hcap B HB a Ha (S cap) l pre u us spare 0 sl rs count I ST) as (l' & us' & sp' & sl' & rs' & c' & tr & n' & R1 & R2 & R3 & R4 & R5 & R6 & R7 & R8 & R9 & R10); auto; try lia.
  rewrite R1. destruct (inv_shape _ _ _ _ _ _ _ R2) as (u0 & us0 & sl0 & rs0 & EQ1 & EQ2 & Hh & [Sg1 Sg2]). injection EQ1 as <- <-; injection EQ2 as <- <-.
  destruct R10 as [(R10 & ->)|(R10 & R11 & R12 & R13)].
  - assert (Q : g_head (l_g l' u) <> g_tail (l_g l' u)). { intros Q. apply seg_nil in Q; [|lia]. destruct R10 as (e & r & Er & _). rewrite Sg1, Er in Q. discriminate. }
    apply Nat.eqb_neq in Q. rewrite Q. exists l', us', sp', sl', rs', tr, n'. do 9 (split; [auto|]). now left.
  - pose proof R10 as Q. rewrite <- Sg1 in Q. apply seg_nil in Q; [|lia]. rewrite (proj2 (Nat.eqb_eq _ _) Q).
    set (g := MkGroup 0 0 (g_epoch (l_g l' u)) (g_next (l_g l' u)) (g_e (l_g l' u))).
    assert (C0 : 0 <= c') by (destruct R2; auto).
    assert (AS : asc 0 (concat rs') /\ (lastmark 0 (concat rs') = lastmark c' (concat rs') \/ rs' = []) /\ items 0 (concat rs') = items c' (concat rs')).
    { pose proof R2 as [A1 A2 A3 A4 A5 A6 A7 A8 A9 K1 K2 K3 K4]. cbn [concat] in K2. rewrite R10 in K2. cbn [app] in K2. unfold st_ok in R3. cbn [tl] in R3. destruct rs' as [|r rs']; [cbn; auto|].
      inversion R3 as [|? ? (e & p & t & w & ->) _]; subst. cbn [concat app asc lastmark items] in *. split; [split; [lia|tauto]|]. auto. }
    destruct AS as (AS1 & AS2 & AS3).
    assert (I2 : Inv (set_g l' u g) pre (u :: us') sp' 0 ([] :: rs')).
    { destruct AS2 as [AS2|AS2].
      - apply (inv_set cap l' pre u us' sp' c' sl' rs' g 0 []); auto; try lia; try (cbn; lia). rewrite R10. exact AS2.
      - subst rs'. pose proof R2 as [A1 A2 A3 A4 A5 A6 A7 A8 A9 K1 K2 K3 K4]. assert (us' = []) as -> by (inversion A9 as [|? ? ? ? _ X]; subst; inversion X; auto).
        assert (I3 : Inv (set_g l' u g) pre [u] sp' c' [[]]). { apply (inv_set cap l' pre u [] sp' c' sl' [] g c' []); auto; try lia; try (cbn; lia). now rewrite R10. }
        destruct I3. constructor; auto; cbn in *; try lia; easy. }
    exists (set_g l' u g), us', sp', [], rs', tr, n'. split; auto. split; auto. split; [exact R3|]. split; auto. split; auto. split. { rewrite R10 in R6. cbn [app] in *. now rewrite AS3. }
    do 3 (split; [auto|]). right. split; auto. split; [|auto]. unfold set_g. cbn [l_g]. rewrite Nat.eqb_refl. split; reflexivity.
Qed.

Lemma last_in (l : list nat) d : l <> [] -> In (last l d) l.
Proof. intros H. destruct (exists_last H) as (i & x & ->). rewrite last_snoc. apply in_or_app. right. now left. Qed.
(* Linking the emptied groups behind the last one. *)
Definition ends (pre : list nat) : option (nat * nat) := match pre with [] => None | x :: _ => Some (x, last pre 0%nat) end.
Lemma hook_ok l pre ids spare c ss : Inv l pre ids spare c ss -> exists l', hook l (ends pre) = l' /\ Inv l' [] ids (pre ++ spare) c ss /\
  l_trace l' = l_trace l /\ l_perform l' = l_perform l /\ l_now l' = l_now l.
Proof.
  intros I. destruct pre as [|x pre]; [exists l; auto|]. pose proof I as [A Bn C D E F G H I0 K L M N].
  destruct (exists_last D) as (ini & tt & ED). pose proof F as F'. rewrite ED, last_snoc in F'.
  assert (NP : x :: pre <> []) by discriminate. destruct (exists_last NP) as (pi & et & EP).
  unfold ends. replace (last (x :: pre) 0%nat) with et by (rewrite EP; now rewrite last_snoc). cbn [hook].
  assert (ND : NoDup (pi ++ et :: ini ++ tt :: spare)).
  { replace (pi ++ et :: ini ++ tt :: spare) with ((x :: pre) ++ ids ++ spare); auto. rewrite EP, ED, <- !app_assoc. reflexivity. }
  assert (NT : et <> tt). { intros ->. apply NoDup_remove_2 in ND. rewrite !in_app_iff in ND. cbn in ND. tauto. }
  assert (NE : ~ In et pi /\ ~ In et ini /\ ~ In et spare). { apply NoDup_remove_2 in ND. rewrite !in_app_iff in ND. cbn in ND. tauto. }
  assert (NTT : ~ In tt pi /\ ~ In tt ini /\ ~ In tt spare).
  { replace (pi ++ et :: ini ++ tt :: spare) with ((pi ++ et :: ini) ++ tt :: spare) in ND by (rewrite <- app_assoc; reflexivity). apply NoDup_remove_2 in ND. rewrite !in_app_iff in ND. cbn in ND. tauto. }
  rewrite F'.
  set (l1 := set_g l et (g_with_next (l_g l et) (g_next (l_g l tt)))). change (l_tail l1) with (l_tail l). rewrite F'.
  set (l2 := set_g l1 tt (g_with_next (l_g l1 tt) (Some x))). exists l2. split; [reflexivity|].
  assert (G1 : l_g l2 tt = g_with_next (l_g l tt) (Some x)). { unfold l2, l1, set_g. cbn [l_g]. rewrite Nat.eqb_refl. destruct (Nat.eqb_spec tt et); [congruence|reflexivity]. }
  assert (G2 : l_g l2 et = g_with_next (l_g l et) (g_next (l_g l tt))). { unfold l2, l1, set_g. cbn [l_g]. destruct (Nat.eqb_spec et tt); [easy|]. now rewrite Nat.eqb_refl. }
  assert (G3 : forall i, i <> tt -> i <> et -> l_g l2 i = l_g l i). { intros i X Y. unfold l2, l1, set_g. cbn [l_g]. destruct (Nat.eqb_spec i tt); [easy|]. destruct (Nat.eqb_spec i et); [easy|reflexivity]. }
  assert (G4 : forall i, exists nx, l_g l2 i = g_with_next (l_g l i) nx).
  { intros i. destruct (Nat.eq_dec i tt) as [->|X]; [eauto|]. destruct (Nat.eq_dec i et) as [->|Y]; [eauto|]. rewrite G3 by auto. exists (g_next (l_g l i)). now destruct (l_g l i). }
  assert (P : Permutation ((x :: pre) ++ ids ++ spare) ([] ++ ids ++ (x :: pre) ++ spare)).
  { cbn [app]. rewrite !app_comm_cons. rewrite !app_assoc. apply Permutation_app_tail. apply Permutation_app_comm. }
  assert (VX : forall ids0, Forall (fun i => g_vacant (l_g l i)) ids0 -> Forall (fun i => g_vacant (l_g l2 i)) ids0).
  { intros ids0 V. eapply Forall_impl; [|exact V]. intros i Hi. destruct (G4 i) as (nx & ->). exact Hi. }
  split; [|auto]. constructor; cbn [set_g l_head l_tail l_n l_now]; auto.
  - (* the links *)
    rewrite EP, ED in A. rewrite <- !app_assoc in A. rewrite lnk_app in A. destruct A as [A1 A]. cbn [app lnk] in A. destruct A as [A2 A]. rewrite lnk_app in A. destruct A as [A3 A]. cbn [lnk] in A. destruct A as [A4 A5].
    cbn [app hd_or] in A1.
    rewrite EP, ED, <- !app_assoc. cbn [app]. rewrite lnk_app. split.
    { eapply lnk_ext with (f := l_g l); [|exact A3]. intros i Hi. rewrite G3; auto; intros ->; tauto. }
    cbn [lnk]. split. { rewrite G1. cbn [g_with_next g_next]. destruct pi as [|y pi]; cbn [app hd_or] in *; injection EP as -> _; reflexivity. }
    rewrite lnk_app. split. { cbn [hd_or]. eapply lnk_ext with (f := l_g l); [|exact A1]. intros i Hi. rewrite G3; auto; intros ->; tauto. }
    cbn [lnk]. split. { rewrite G2. cbn [g_with_next g_next]. exact A4. }
    eapply lnk_ext with (f := l_g l); [|exact A5]. intros i Hi. rewrite G3; auto; intros ->; tauto.
  - exact (Permutation_NoDup P Bn).
  - exact (Permutation_Forall P C).
  - apply VX. rewrite Forall_app. auto.
  - clear - I0 G4. induction I0 as [|i s ids ss X Y IH]; constructor; auto. destruct (G4 i) as (nx & Gi). destruct X as [X1 X2]. split; rewrite Gi; auto.
  - intros Q. change (l_tail l2) with (l_tail l). destruct (G4 (l_tail l)) as (nx & ->). exact (K Q).
Qed.

(* A thread between operations, with what its queue holds. *)
Definition rest_ok (l : limbo) (ss : list (list slot)) : Prop :=
  match hd [] ss with SMark _ :: _ => True | SPtr _ _ :: _ => False | [] => ss = [[]] /\ g_vacant (l_g l (l_head l)) end.
Definition Ready (l : limbo) (q : list (Z * Z * Z)) : Prop :=
  exists ids spare ss, Inv l [] ids spare 0 ss /\ st_ok ss /\ rest_ok l ss /\ q = items 0 (concat ss).

Lemma quiesce_loop_ok a : 1 <= a < 2 ^ 63 -> forall fuel l pre u us spare sl rs count,
  Inv l pre (u :: us) spare 0 (sl :: rs) -> st_ok (sl :: rs) -> (0 < count)%nat ->
  (starts sl /\ (count < fuel)%nat \/ (count + 1 < fuel)%nat) -> l_now l + 2 * B * Z.of_nat count < 2 ^ 63 ->
  exists l' q' tr count', quiesce_loop cap cb fuel l a count (ends pre) = Some (l', count') /\
    Ready l' q' /\ l_trace l' = l_trace l ++ tr /\ queue tr (items 0 (sl ++ concat rs)) q' /\ (releases tr + count' = count)%nat /\
    l_now l <= l_now l' /\ l_now l' + 2 * B * Z.of_nat count' <= l_now l + 2 * B * Z.of_nat count /\
    (count' = 0%nat \/ Forall (fun x => a <= snd x) q').
Proof.
  intros Ha. induction fuel as [|fuel IH]; intros l pre u us spare sl rs count I ST Hn Hf Hw; [lia|].
  cbn [quiesce_loop]. destruct count as [|count0]; [lia|]. set (count := S count0) in *.
  assert (HD : l_head l = u) by (destruct I; auto). rewrite HD.
  destruct (clean_until_ok a Ha l pre u us spare sl rs count I ST Hn Hw) as (l1 & us1 & sp1 & sl1 & rs1 & tr1 & n1 & R1 & R2 & R3 & R4 & R5 & R6 & R7 & R8 & R9 & R10).
  rewrite R1. destruct (inv_shape _ _ _ _ _ _ _ R2) as (u0 & us0 & sl0 & rs0 & EQ1 & EQ2 & Hh & [Sg1 Sg2]). injection EQ1 as <- <-; injection EQ2 as <- <-.
  destruct R10 as [(e & r & Er & R10)|(R10 & R11 & R12 & R13)].
  - assert (Q : g_head (l_g l1 u) <> g_tail (l_g l1 u)). { intros Q. apply seg_nil in Q; [|lia]. rewrite Sg1, Er in Q. discriminate. }
    apply Nat.eqb_neq in Q. rewrite Q. cbn [negb]. destruct (hook_ok _ _ _ _ _ _ R2) as (l2 & -> & H2 & H3 & H4 & H5).
    exists l2, (items 0 (sl1 ++ concat rs1)), tr1, n1. split; auto. split.
    { exists (u :: us1), (pre ++ sp1), (sl1 :: rs1). split; auto. split; auto. split; auto. unfold rest_ok. cbn [hd]. now rewrite Er. }
    split; [congruence|]. split; auto. split; auto. split; [lia|]. split; [lia|]. destruct R10 as [R10|R10]; [now left|]. right.
    destruct R2. cbn [concat] in *. rewrite Er in *. cbn [app items asc] in *. destruct i_asc as [_ AS]. eapply Forall_impl; [|exact (asc_items _ _ AS)]. intros x Hx. cbn beta in *. lia.
  - pose proof R10 as Q. rewrite <- Sg1 in Q. apply seg_nil in Q; [|lia]. rewrite (proj2 (Nat.eqb_eq _ _) Q). cbn [negb].
    replace (match ends pre with Some (eh, _) => eh | None => u end) with (hd u pre) by (destruct pre; reflexivity).
    assert (TL : l_tail l1 = last (u :: us1) 0%nat) by (destruct R2; auto).
    destruct us1 as [|v us1].
    + cbn [last] in TL. rewrite TL, Nat.eqb_refl. assert (rs1 = []) as -> by (destruct R2; inversion i_seg as [|? ? ? ? _ Y]; subst; inversion Y; auto).
      set (eh := hd u pre). exists (set_tail (set_head l1 eh) eh), [], tr1, n1. split; auto.
      assert (RD : exists spare', Inv (set_tail (set_head l1 eh) eh) [] [eh] spare' 0 [[]] /\ g_vacant (l_g l1 eh)).
      { exists (tl (pre ++ u :: sp1)). pose proof R2 as [A Bn C D E F G H I0 K L M N].
        assert (Eall : pre ++ [u] ++ sp1 = eh :: tl (pre ++ u :: sp1)) by (unfold eh; destruct pre; reflexivity).
        assert (VA : Forall (fun i => g_vacant (l_g l1 i)) (pre ++ [u] ++ sp1)). { rewrite !Forall_app. repeat split; auto. }
        rewrite Eall in *. inversion VA as [|? ? V1 V2]; subst. split; [|exact V1].
        constructor; cbn [set_tail set_head l_g l_n l_head l_tail l_now app]; auto; try discriminate.
        - constructor; [|constructor]. destruct V1 as [V1a V1b]. split; cbn [set_tail set_head l_g]; rewrite ?V1a, ?V1b; [unfold seg; now rewrite V1a, V1b|lia].
        - cbn in *. easy. }
      destruct RD as (spare' & RD & RV).
      split. { exists [eh], spare', [[]]. split; auto. split; [constructor|]. split; [|reflexivity]. unfold rest_ok. cbn [hd]. split; auto. }
      split; auto. split. { rewrite R10 in R6. exact R6. } split; auto.
    + assert (NV : u <> l_tail l1). { rewrite TL. destruct R2. cbn [app] in i_nodup. apply NoDup_remove_2 in i_nodup. intros X. apply i_nodup. rewrite app_comm_cons, !in_app_iff. right. left. rewrite X. change (last (u :: v :: us1) 0%nat) with (last (v :: us1) 0%nat). apply last_in. discriminate. }
      apply Nat.eqb_neq in NV. rewrite NV.
      assert (NX : g_next (l_g l1 u) = Some v). { destruct R2. rewrite lnk_app in i_lnk. destruct i_lnk as [_ X]. cbn [app lnk hd_or] in X. tauto. }
      rewrite NX. destruct rs1 as [|s1 rs1]. { destruct R2. inversion i_seg as [|? ? ? ? _ Y]; subst. inversion Y. }
      assert (STs : starts s1) by (unfold st_ok in R3; cbn [tl] in R3; inversion R3; auto).
      assert (I2 : Inv (set_head l1 v) (pre ++ [u]) (v :: us1) sp1 0 (s1 :: rs1)).
      { pose proof R2 as [A Bn C D E F G H I0 K L M N]. rewrite R10 in *. constructor; cbn [set_head l_g l_n l_head l_tail l_now]; rewrite <- ?app_assoc; auto; try discriminate.
        - rewrite Forall_app. auto.
        - inversion I0; auto. }
      replace (Some (hd u pre, u)) with (ends (pre ++ [u])) by (unfold ends; destruct pre as [|y pre]; [reflexivity|]; cbn [app hd]; now rewrite app_comm_cons, last_snoc).
      destruct (IH (set_head l1 v) (pre ++ [u]) v us1 sp1 s1 rs1 n1 I2) as (l2 & q2 & tr2 & n2 & Y1 & Y2 & Y3 & Y4 & Y5 & Y6 & Y7 & Y8).
      { unfold st_ok in *. cbn [tl] in *. inversion R3; auto. } { auto. }
      { left. split; auto. destruct Hf as [[(e & p & t & w & Es) Hf]|Hf]; [|lia]. rewrite Es in R13. cbn [items length] in R13. lia. } { cbn [set_head l_now]. lia. }
      exists l2, q2, (tr1 ++ tr2), n2. split; auto. split; auto. split. { rewrite Y3. cbn [set_head l_trace]. now rewrite R5, app_assoc. }
      split. { eapply queue_app; [exact R6|]. rewrite R10. cbn [app concat]. exact Y4. } rewrite releases_app. cbn [set_head l_now] in *. split; [lia|]. split; [lia|]. split; [lia|]. exact Y8.
Qed.

Lemma hard_ok a l q : 1 <= a < 2 ^ 63 -> Ready l q -> l_now l + 2 * B * Z.of_nat free_count < 2 ^ 63 ->
  exists l' q' tr, hard_rcu_quiesce cap free_count cb l a = Some l' /\ Ready l' q' /\ l_trace l' = l_trace l ++ tr /\ queue tr q q' /\
    l_now l <= l_now l' <= l_now l + 2 * B * Z.of_nat free_count /\
    ((releases tr = free_count /\ l_perform l' = a - 1) \/ ((releases tr < free_count)%nat /\ Forall (fun x => a <= snd x) q' /\ l_perform l' = a)).
Proof.
  intros Ha (ids & spare & ss & I & ST & RO & ->) Hw. pose proof (HB0 cap cb Hcap B HB) as HB0.
  destruct (inv_shape _ _ _ _ _ _ _ I) as (u & us & sl & rs & -> & -> & Hh & [Sg1 Sg2]). unfold hard_rcu_quiesce. rewrite Hh.
  assert (W1 : ci_wrap 64 a = a) by (unfold ci_wrap; apply Z.mod_small; lia). assert (W2 : ci_wrap 64 (a - 1) = a - 1) by (unfold ci_wrap; apply Z.mod_small; lia).
  assert (RP : forall l1 q1 x, Ready l1 q1 -> Ready (set_perform l1 x) q1).
  { intros l1 q1 x (i1 & s1 & ss1 & J1 & J2 & J3 & J4). exists i1, s1, ss1. split; [|auto]. destruct J1. constructor; auto. }
  assert (R0 : Ready l (items 0 (concat (sl :: rs)))) by (exists (u :: us), spare, (sl :: rs); auto).
  assert (FC : Nat.eqb free_count 0 = false) by (apply Nat.eqb_neq; lia).
  unfold rest_ok in RO. cbn [hd] in RO. destruct sl as [|[e|p t] r]; [| |easy].
  - pose proof Sg1 as Q. apply seg_nil in Q; [|lia]. rewrite (proj2 (Nat.eqb_eq _ _) Q). cbn [fst snd]. rewrite FC, W1.
    destruct RO as [EQ _]. injection EQ as ->. exists (set_perform l a), [], []. rewrite app_nil_r. split; auto. split; [apply RP; exact R0|]. split; auto. split; [constructor|]. cbn [set_perform l_now]. split; [nia|]. right. split; [exact Hfree|]. split; [constructor|reflexivity].
  - assert (Q : g_head (l_g l u) <> g_tail (l_g l u)). { intros Q. apply seg_nil in Q; [|lia]. rewrite Sg1 in Q. discriminate. }
    pose proof (seg_pop (l_g l u) ltac:(lia)) as SP. rewrite Sg1 in SP. injection SP as GE SP. unfold first_epoch. rewrite (proj2 (Nat.eqb_neq _ _) Q), <- GE.
    pose proof I as [A Bn C D E F G H I0 K L M N]. cbn [concat app asc lastmark] in L, M. destruct L as [L0 L]. pose proof (asc_last _ _ L) as AL.
    rewrite signed_epoch by nia. destruct (Z.leb_spec a e) as [Le|Le].
    + cbn [fst snd]. rewrite FC, W1. exists (set_perform l a), (items 0 (concat ((SMark e :: r) :: rs))), []. rewrite app_nil_r. split; auto. split; auto. split; auto. split; [constructor|]. cbn [set_perform l_now]. split; [nia|]. right. split; [exact Hfree|]. split; [|reflexivity].
      cbn [concat app items]. eapply Forall_impl; [|exact (asc_items _ _ L)]. intros x Hx. cbn beta in *. lia.
    + destruct (quiesce_loop_ok a Ha (free_count + 2) l [] u us spare _ rs free_count I ST Hfree ltac:(lia) Hw) as (l1 & q1 & tr & n1 & Y1 & Y2 & Y3 & Y4 & Y5 & Y6 & Y7 & Y8).
      cbn [ends] in Y1. rewrite Y1. cbn [fst snd]. exists (set_perform l1 (if Nat.eqb n1 0 then ci_wrap 64 (a - 1) else ci_wrap 64 a)), q1, tr. split; auto. split; [auto|]. split; auto. split; auto. cbn [set_perform l_now l_perform].
      split; [nia|]. rewrite W1, W2. destruct (Nat.eqb_spec n1 0) as [->|X]; [left; split; [lia|auto]|]. right. split; [lia|]. split; [|auto]. destruct Y8 as [Y8|Y8]; [lia|auto].
Qed.

(* Between operations, also: nothing that could be released is waiting when the thread believes so. *)
Definition idle (l : limbo) (q : list (Z * Z * Z)) : Prop :=
  Ready l q /\ 1 <= l_now l /\ l_perform l <= l_now l /\ (Z.odd (l_perform l) = true -> Forall (fun x => l_perform l <= snd x) q).
Definition op_ok (l : limbo) (o : lop) : Prop := match o with LCollect a => Z.odd a = true /\ 1 <= a <= l_now l | _ => True end.
Definition per_op : Z := 2 + 2 * B * Z.of_nat free_count.
Lemma init_idle : idle l_init [].
Proof.
  split; [|cbn; repeat split; auto; try lia]. exists [0%nat], [], [[]]. split; [|split; [constructor|split; [split; [reflexivity|split; reflexivity]|reflexivity]]].
  constructor; cbn; auto; try lia; try easy. { constructor; [easy|constructor]. } { constructor; [split; [reflexivity|cbn; lia]|constructor]. }
Qed.
Lemma collect_ok l q a : idle l q -> Z.odd a = true -> 1 <= a <= l_now l -> l_now l + per_op < 2 ^ 63 ->
  exists l' q' tr, rcu_collect cap free_count cb l a = Some l' /\ idle l' q' /\ l_trace l' = l_trace l ++ tr /\ queue tr q q' /\ l_now l <= l_now l' <= l_now l + per_op /\
    (releases tr = free_count \/ Forall (fun x => a <= snd x) q').
Proof.
  intros (R & N1 & PN & P) Ho Hr Hw. unfold per_op in *. pose proof (HB0 cap cb Hcap B HB) as HB0. unfold rcu_collect. destruct (Z.eqb_spec (l_perform l) a) as [<-|X].
  - exists l, q, []. rewrite app_nil_r. split; auto. split; [split; auto|]. split; auto. split; [constructor|]. split; [nia|]. right. auto.
  - destruct (hard_ok a l q) as (l' & q' & tr & Y1 & Y2 & Y3 & Y4 & Y5 & Y6); auto; try nia. exists l', q', tr. split; auto. split.
    { split; auto. split; [lia|]. destruct Y6 as [[_ Y6]|(_ & Y6 & Y7)]; [rewrite Y6|rewrite Y7].
      - split; [lia|]. rewrite Z.odd_sub, Ho. discriminate.
      - split; [lia|]. auto. }
    split; auto. split; auto. split; [lia|]. destruct Y6 as [[Y6 _]|(_ & Y6 & _)]; auto.
Qed.
Lemma step_idle l q o : idle l q -> op_ok l o -> l_now l + per_op < 2 ^ 63 ->
  exists l' q' tr, lstep cap free_count cb l o = Some l' /\ idle l' q' /\ l_trace l' = l_trace l ++ tr /\ queue tr q q' /\ l_now l <= l_now l' <= l_now l + per_op.
Proof.
  intros H O W. pose proof (HB0 cap cb Hcap B HB) as HB0. assert (PO : 2 <= per_op) by (unfold per_op; nia). destruct o as [p t| |a]; cbn [lstep op_ok] in *.
  - destruct H as ((ids & spare & ss & I & ST & RO & ->) & N1 & PN & P).
    assert (TO : tail_ok l ss).
    { unfold tail_ok, rest_ok in *. destruct (inv_shape _ _ _ _ _ _ _ I) as (u & us & sl & rs & -> & -> & Hh & _). cbn [hd] in RO.
      destruct sl as [|[e|p0 t0] r]; [| |easy]. { right. destruct RO as [EQ V]. injection EQ as ->. destruct I. inversion i_seg as [|? ? ? ? _ Y]; subst. inversion Y; subst. cbn [last] in i_tail. now rewrite i_tail. }
      left. apply last_ne; auto; discriminate. }
    destruct (record_ok cap Hcap l [] ids spare 0 ss p t I ST TO) as (l' & ids' & sp' & ss' & E & I' & ST' & NE & G & T & R & W').
    exists l', (items 0 (concat ss) ++ [(p, t, l_now l)]), [EHand p t (l_now l)]. split; auto. split.
    { split; [|rewrite W'; pose proof (g_perf _ _ _ _ G) as ->; split; [auto|split; [auto|intros X; apply Forall_app; split; [auto|constructor; [exact PN|constructor]]]]].
      exists ids', sp', ss'. split; auto. split; auto. split; [|now rewrite T].
      unfold rest_ok in *. destruct (g_first _ _ _ _ G) as (x & Ex). destruct (hd [] ss) as [|[e|p0 t0] r] eqn:Eh; [| |easy].
      - destruct RO as [-> V]. destruct (g_rest _ _ _ _ G) as (y & Ey). cbn [concat app] in Ey, T. cbn [app] in Ex. rewrite Ex.
        destruct (inv_shape _ _ _ _ _ _ _ I') as (u & us & sl & rs & -> & -> & Hh & [S1 S2]). cbn [hd] in Ex. subst x.
        destruct sl as [|[e|p0 t0] r].
        + exfalso. destruct rs as [|s rs]; [cbn in NE; easy|]. unfold st_ok in ST'. cbn [tl] in ST'. cbn [concat app] in T.
          (* the first group stays empty only if the object went elsewhere *)
          revert E. unfold record_rcu.
          assert (ids = [l_head l] /\ l_tail l = l_head l) as [-> TH]. { destruct I. inversion i_seg as [|? ? ? ? _ Y]; subst. inversion Y; subst. cbn in *. split; congruence. }
          rewrite TH. destruct V as [V1 V2]. rewrite V2. replace (cap <? 0 + 2)%nat with false by (symmetry; apply Nat.ltb_ge; lia). unfold push_back. cbn [add_event l_g l_tail]. rewrite TH, V1, V2.
          replace (0 + 2 <=? cap)%nat with true by (symmetry; apply Nat.leb_le; lia). cbn [Nat.eqb orb g_head g_tail g_epoch g_next g_e]. intros [= <-].
          rewrite <- Hh in S1. cbn in S1. rewrite Nat.eqb_refl in S1. discriminate.
        + exact Logic.I.
        + cbn [concat app items] in T. injection T as _ _ T _. destruct I'. cbn [concat app] in *. subst. lia.
      - rewrite Ex. exact Logic.I. }
    split; auto. split; [constructor; constructor|]. lia.
  - exists (ticks 1 l), q, []. rewrite app_nil_r. split; auto. split.
    { destruct H as ((ids & spare & ss & I & ST & RO & E) & N1 & PN & P). split; [|cbn [ticks l_now l_perform]; split; [lia|split; [lia|auto]]]. exists ids, spare, ss. split; [now apply inv_ticks|auto]. }
    split; auto. split; [constructor|]. cbn [ticks l_now]. lia.
  - destruct O as [O1 O2]. destruct (collect_ok l q a H O1 O2 W) as (l' & q' & tr & Y1 & Y2 & Y3 & Y4 & Y5 & _). exists l', q', tr. auto 10.
Qed.

(* Whole runs. *)
Lemma run_idle os : forall l q, idle l q -> valid cap free_count cb l os -> l_now l + per_op * Z.of_nat (length os) < 2 ^ 63 ->
  exists l' q' tr, lrun cap free_count cb l os = Some l' /\ idle l' q' /\ l_trace l' = l_trace l ++ tr /\ queue tr q q' /\ l_now l' <= l_now l + per_op * Z.of_nat (length os).
Proof.
  pose proof (HB0 cap cb Hcap B HB) as HB0. assert (PO : 2 <= per_op) by (unfold per_op; nia).
  induction os as [|o os IH]; intros l q H V W; cbn [lrun valid] in *.
  - exists l, q, []. rewrite app_nil_r. split; auto. split; auto. split; auto. split; [constructor|]. cbn. lia.
  - destruct V as [V1 V2]. cbn [length] in W. rewrite Nat2Z.inj_succ in W. destruct (step_idle l q o H) as (l1 & q1 & tr1 & E1 & H1 & T1 & Q1 & W1); [destruct o; auto|nia|].
    rewrite E1 in *. destruct (IH l1 q1 H1 V2) as (l2 & q2 & tr2 & E2 & H2 & T2 & Q2 & W2); [nia|]. exists l2, q2, (tr1 ++ tr2). split; auto. split; auto. split; [now rewrite T2, T1, app_assoc|]. split; [eapply queue_app; eauto|]. cbn [length]. rewrite Nat2Z.inj_succ. nia.
Qed.
Lemma run_fifo os : valid cap free_count cb l_init os -> 1 + per_op * Z.of_nat (length os) < 2 ^ 63 ->
  exists l q, lrun cap free_count cb l_init os = Some l /\ queue (l_trace l) [] q.
Proof. intros V W. destruct (run_idle os l_init [] init_idle V W) as (l & q & tr & E & _ & T & Q & _). cbn [l_init l_trace app] in T. subst tr. eauto. Qed.
Lemma run_collect os a : valid cap free_count cb l_init (os ++ [LCollect a]) -> 1 + per_op * (Z.of_nat (length os) + 1) < 2 ^ 63 ->
  exists l l' q q' tr, lrun cap free_count cb l_init os = Some l /\ rcu_collect cap free_count cb l a = Some l' /\ l_trace l' = l_trace l ++ tr /\
    queue (l_trace l) [] q /\ queue tr q q' /\ (releases tr = free_count \/ Forall (fun x => a <= snd x) q').
Proof.
  pose proof (HB0 cap cb Hcap B HB) as HB0. assert (PO : 2 <= per_op) by (unfold per_op; nia).
  intros V W.
  assert (V2 : forall os l, valid cap free_count cb l (os ++ [LCollect a]) -> valid cap free_count cb l os /\ forall l', lrun cap free_count cb l os = Some l' -> Z.odd a = true /\ 1 <= a <= l_now l').
  { clear. induction os as [|o os IH]; intros l; cbn [app valid lrun]. { intros [A _]. split; auto. intros l' [= <-]. exact A. } intros [A X]. destruct (lstep cap free_count cb l o) as [l1|]; [|split; [auto|discriminate]]. destruct (IH l1 X). auto. }
  destruct (V2 os l_init V) as [V1 V3]. destruct (run_idle os l_init [] init_idle V1) as (l & q & tr & E & I & T & Q & WW). { cbn [l_init l_now]. nia. }
  destruct (V3 l E) as [A1 A2]. cbn [l_init l_trace l_now app] in T, WW. subst tr. destruct (collect_ok l q a I A1 A2) as (l' & q' & tr & Y1 & Y2 & Y3 & Y4 & Y5 & Y6); [nia|].
  exists l, l', q, q', tr. auto 10.
Qed.
End Limbo.
