(* destroy visits every node once: the nodes reached from the root form a tree. *)
From Verif Require Import Lib M_Key M_Permuter P_Permuter2 M_Tree P_Tree1 P_Tree2 P_Tree3 P_Tree4 P_Tree7 M_Destroy P_Destroy1.

Section G.
Context (h0 : heap) (g : ghost) (fx : bool).
Hypothesis HI : Inv h0 g.

(* What a layer pointer leads to. *)
Definition tgt (r : addr) : addr := if fx then match g_lay g r with Some L => g_root g L | None => r end else r.
Fixpoint lsl (k j : nat) (l : leafn) : list addr :=
  match k with
  | O => []
  | S k' => let p := perm_get (lf_perm l) j in
    (if 127 <? lf_klx l p then match lf_lv l p with LvLayer r => [tgt r] | _ => [] end else []) ++ lsl k' (S j) l
  end.
Fixpoint csl (k j : nat) (i : inode) : list addr :=
  match k with
  | O => []
  | S k' => match in_child i j with Some c => [c] | None => [] end ++ csl k' (S j) i
  end.
Definition sln (n : node) : list addr :=
  match n with NLeaf l => lsl (perm_size (lf_perm l)) 0 l | NInter i => csl (S (in_nkeys i)) 0 i end.
Definition sl (a : addr) : list addr := match hp_node h0 a with Some n => sln n | None => [] end.
Inductive reach : addr -> Prop :=
| reach_root : reach (g_root g 0)
| reach_step a b : reach a -> In b (sl a) -> reach b.

Lemma lsl_same l l' : lf_perm l = lf_perm l' -> lf_klx l = lf_klx l' -> lf_lv l = lf_lv l' -> forall k j, lsl k j l = lsl k j l'.
Proof. intros E1 E2 E3. induction k as [|k IH]; intros j; cbn [lsl]; auto. now rewrite E1, E2, E3, IH. Qed.
Lemma csl_same i i' : in_child i = in_child i' -> forall k j, csl k j i = csl k j i'.
Proof. intros E. induction k as [|k IH]; intros j; cbn [csl]; auto. now rewrite E, IH. Qed.
Lemma sln_same n n' : same n n' -> sln n = sln n'.
Proof.
  destruct n, n'; cbn [same sln]; try tauto.
  - intros (A & B & C). rewrite <- A. apply lsl_same; auto.
  - intros (A & B). rewrite <- A. apply csl_same; auto.
Qed.

Lemma in_lsl l b : forall k j, In b (lsl k j l) <->
  exists i r, (j <= i < j + k)%nat /\ 127 < lf_klx l (perm_get (lf_perm l) i) /\ lf_lv l (perm_get (lf_perm l) i) = LvLayer r /\ b = tgt r.
Proof.
  induction k as [|k IH]; intros j; cbn [lsl]; [split; [intros []|intros (? & ? & ? & _); lia]|].
  rewrite in_app_iff, IH. split.
  - intros [H|(i & r & A & B)]; [|exists i, r; split; [lia|auto]].
    destruct (Z.ltb_spec 127 (lf_klx l (perm_get (lf_perm l) j))); [|destruct H].
    destruct (lf_lv l (perm_get (lf_perm l) j)) as [| |r] eqn:E; try destruct H as [H|[]]; try destruct H. exists j, r. repeat split; auto; lia.
  - intros (i & r & A & B & C & D). destruct (Nat.eq_dec i j) as [->|N]; [left|right; exists i, r; repeat split; auto; lia].
    destruct (Z.ltb_spec 127 (lf_klx l (perm_get (lf_perm l) j))); [|lia]. rewrite C. left. auto.
Qed.
Lemma in_csl i b : forall k j, In b (csl k j i) <-> exists m, (j <= m < j + k)%nat /\ in_child i m = Some b.
Proof.
  induction k as [|k IH]; intros j; cbn [csl]; [split; [intros []|intros (? & ? & _); lia]|].
  rewrite in_app_iff, IH. split.
  - intros [H|(m & A & B)]; [|exists m; split; [lia|auto]]. destruct (in_child i j) eqn:E; [|destruct H]. destruct H as [<-|[]]. exists j. split; [lia|auto].
  - intros (m & A & B). destruct (Nat.eq_dec m j) as [->|N]; [left; rewrite B; left; auto|right; exists m; split; [lia|auto]].
Qed.

Lemma owned_ne0 L n l s r L' : owns h0 g L n l s r L' -> L' <> 0%nat.
Proof.
  intros O ->. destruct (owns_pre h0 g HI _ _ _ _ _ _ O) as [P _]. destruct (iv_l0 _ _ HI) as [_ B]. rewrite B in P.
  symmetry in P. apply app_eq_nil in P. destruct P as [_ P]. pose proof (P_Key.be_bytes_length 8 (lf_ikey l s)) as E. rewrite P in E. discriminate.
Qed.
Lemma root_facts L : g_lay g L = Some L -> g_lay g (g_root g L) = Some L /\ exists nr, hp_node h0 (g_root g L) = Some nr /\ n_parent nr = None.
Proof. intros H. destruct (sl_root _ _ _ _ (iv_lay _ _ HI L L H)) as (A & _ & _ & nr & B & C). eauto. Qed.
Lemma tgt_lay r L : g_lay g r = Some L -> g_lay g (tgt r) = Some L.
Proof. intros H. unfold tgt. destruct fx; auto. rewrite H. apply root_facts. apply (inv_layer h0 g HI r L H). Qed.
Lemma lay_node a L : g_lay g a = Some L -> exists n, hp_node h0 a = Some n.
Proof. intros H. destruct (sl_node _ _ _ _ (iv_lay _ _ HI a L H) a H) as (n & _ & A & _). eauto. Qed.

Inductive pred_of (a b : addr) : Prop :=
| pred_leaf L l s r L' : hp_node h0 a = Some (NLeaf l) -> owns h0 g L a l s r L' -> lptr h0 g r L' -> b = tgt r -> g_lay g b = Some L' -> L' <> 0%nat -> pred_of a b
| pred_inter L i k nb : hp_node h0 a = Some (NInter i) -> g_lay g a = Some L -> g_lay g b = Some L -> (k <= in_nkeys i)%nat -> in_child i k = Some b ->
    hp_node h0 b = Some nb -> n_parent nb = Some a -> pred_of a b.
Lemma live_layer L a l j r : g_lay g a = Some L -> hp_node h0 a = Some (NLeaf l) -> (j < perm_size (lf_perm l))%nat ->
  127 < lf_klx l (perm_get (lf_perm l) j) -> lf_lv l (perm_get (lf_perm l) j) = LvLayer r ->
  exists L', owns h0 g L a l (perm_get (lf_perm l) j) r L' /\ lptr h0 g r L' /\ lf_klx l (perm_get (lf_perm l) j) = 128.
Proof.
  intros HL E J K V. assert (LS : live_slot l (perm_get (lf_perm l) j)) by (exists j; auto).
  destruct (lo_slots _ _ _ _ _ (iv_leaf _ _ HI L a l HL E) _ LS) as [[Hv|(K8 & r' & L' & V' & P & _)] _].
  - apply slot_val_klx in Hv. lia.
  - assert (r' = r) by congruence. subst r'. exists L'. split; [|auto]. repeat split; auto. apply P.
Qed.
Lemma pred_intro a b L : g_lay g a = Some L -> In b (sl a) -> pred_of a b.
Proof.
  intros HL. unfold sl. destruct (hp_node h0 a) as [n|] eqn:E; [|intros []]. destruct n as [l|i]; cbn [sln].
  - intros H. apply in_lsl in H. destruct H as (j & r & J & K & V & ->).
    destruct (live_layer L a l j r HL E ltac:(lia) K V) as (L' & O & P & _).
    eapply pred_leaf; eauto. apply tgt_lay. apply P. eapply owned_ne0; eauto.
  - intros H. apply in_csl in H. destruct H as (k & J & C).
    destruct (sl_inter _ _ _ _ (iv_lay _ _ HI a L HL) a i HL E (fun f => f)) as (_ & _ & Ck).
    specialize (Ck k ltac:(lia)). unfold child_ok in Ck. rewrite C in Ck. destruct Ck as (B & (nb & B1 & B2 & _) & _).
    apply (pred_inter a b L i k nb); auto. lia.
Qed.
Lemma pred_lay a b : pred_of a b -> exists L, g_lay g b = Some L.
Proof. intros H. destruct H as [L l s r L' A1 A2 A3 A4 A5 A6|L i k nb A1 A2 A3 A4 A5 A6 A7]; eauto. Qed.
Lemma reach_lay a : reach a -> exists L, g_lay g a = Some L.
Proof.
  induction 1 as [|a b _ (L & IH) H].
  - exists 0%nat. apply root_facts. apply (iv_l0 _ _ HI).
  - eapply pred_lay, pred_intro; eauto.
Qed.
Lemma no_pred_root a : ~ pred_of a (g_root g 0).
Proof.
  destruct (root_facts 0 (proj1 (iv_l0 _ _ HI))) as (A & nr & B & C). intros H. destruct H as [L l s r L' A1 A2 A3 A4 A5 A6|L i k nb A1 A2 A3 A4 A5 A6 A7]; congruence.
Qed.
(* The root of a layer that is not the target of its pointer is not reached. *)
Lemma pred_uniq a a' b : reach a -> reach a' -> In b (sl a) -> In b (sl a') -> a = a'.
Proof.
  assert (MIX : forall x y, reach x -> pred_of x b -> forall L i k nb, hp_node h0 x = Some (NInter i) -> g_lay g x = Some L -> g_lay g b = Some L -> (k <= in_nkeys i)%nat -> in_child i k = Some b ->
    hp_node h0 b = Some nb -> n_parent nb = Some x -> forall M l s r L', owns h0 g M y l s r L' -> lptr h0 g r L' -> b = tgt r -> g_lay g b = Some L' -> L' <> 0%nat -> False).
  { intros x y Rx _ L i k nb E Lx Lb K C Eb Pb M l s r L' O P T Lb' N0. assert (L' = L) by congruence. subst L'.
    destruct (root_facts L (inv_layer h0 g HI b L Lb)) as (R1 & nr & R2 & R3).
    assert (bR : b <> g_root g L) by congruence.
    unfold tgt in T. destruct fx eqn:Efx.
    { destruct P as (P & _). rewrite P in T. congruence. }
    subst r. destruct P as (_ & nr' & P1 & P2 & _). assert (nr' = nb) by congruence. subst nr'.
    destruct P2 as [P2|P2]; [congruence|]. assert (x = g_root g L) by congruence. subst x.
    inversion Rx as [Q|p q Rp Hin Q].
    - destruct (root_facts 0 (proj1 (iv_l0 _ _ HI))) as (Z1 & _). congruence.
    - destruct (reach_lay p Rp) as (Lp & HLp). subst q. destruct (pred_intro p _ Lp HLp Hin) as [L2 l2 s2 r2 L2' A1 A2 A3 A4 A5 A6|L2 i2 k2 nb2 A1 A2 A3 A4 A5 A6 A7].
      + assert (L2' = L) by congruence. subst L2'. destruct (owner_unique h0 g HI _ _ _ _ _ _ _ _ _ _ _ A2 O) as (_ & _ & _ & _ & ->).
        unfold tgt in A4. rewrite Efx in A4. congruence.
      + congruence. }
  intros Ra Ra' H H'. destruct (reach_lay a Ra) as (La & HLa), (reach_lay a' Ra') as (La' & HLa').
  pose proof (pred_intro _ _ _ HLa H) as P. pose proof (pred_intro _ _ _ HLa' H') as P'.
  destruct P as [L l s r L' A1 A2 A3 A4 A5 A6|L i k nb A1 A2 A3 A4 A5 A6 A7]; destruct P' as [M l2 s2 r2 M' B1 B2 B3 B4 B5 B6|M i2 k2 nb2 B1 B2 B3 B4 B5 B6 B7].
  - assert (M' = L') by congruence. subst M'. apply (owner_unique h0 g HI _ _ _ _ _ _ _ _ _ _ _ A2 B2).
  - exfalso. exact (MIX a' a Ra' (pred_intro _ _ _ HLa' H') M i2 k2 nb2 B1 B2 B3 B4 B5 B6 B7 L l s r L' A2 A3 A4 A5 A6).
  - exfalso. exact (MIX a a' Ra (pred_intro _ _ _ HLa H) L i k nb A1 A2 A3 A4 A5 A6 A7 M l2 s2 r2 M' B2 B3 B4 B5 B6).
  - congruence.
Qed.

Lemma lsl_nodup L a l : g_lay g a = Some L -> hp_node h0 a = Some (NLeaf l) -> forall k j, (j + k <= perm_size (lf_perm l))%nat -> NoDup (lsl k j l).
Proof.
  intros HL E. pose proof (lo_perm _ _ _ _ _ (iv_leaf _ _ HI L a l HL E)) as PO. pose proof (perm_size_le _ PO) as PS.
  induction k as [|k IH]; intros j J; cbn [lsl]; [constructor|].
  destruct (Z.ltb_spec 127 (lf_klx l (perm_get (lf_perm l) j))) as [K|K]; cbn [app]; [|apply IH; lia].
  destruct (lf_lv l (perm_get (lf_perm l) j)) as [| |r] eqn:V; cbn [app]; [apply IH; lia|apply IH; lia|].
  constructor; [|apply IH; lia]. intros H. apply in_lsl in H. destruct H as (j' & r' & J' & K' & V' & T).
  destruct (live_layer L a l j r HL E ltac:(lia) K V) as (L1 & O1 & P1 & _).
  destruct (live_layer L a l j' r' HL E ltac:(lia) K' V') as (L2 & O2 & P2 & _).
  pose proof (tgt_lay r L1 (proj1 P1)) as T1. pose proof (tgt_lay r' L2 (proj1 P2)) as T2. assert (L2 = L1) by congruence. subst L2.
  destruct (owner_unique h0 g HI _ _ _ _ _ _ _ _ _ _ _ O1 O2) as (_ & _ & _ & Es & _).
  apply perm_get_inj in Es; auto; lia.
Qed.
Lemma csl_nodup L a i : g_lay g a = Some L -> hp_node h0 a = Some (NInter i) -> forall k j, (j + k <= S (in_nkeys i))%nat -> NoDup (csl k j i).
Proof.
  intros HL E. pose proof (iv_lay _ _ HI a L HL) as HS. pose proof (sl_inter _ _ _ _ HS a i HL E (fun f => f)) as IO.
  pose proof (sl_lt h0 g _ L HS) as LT.
  induction k as [|k IH]; intros j J; cbn [csl]; [constructor|].
  destruct (in_child i j) as [c|] eqn:C; cbn [app]; [|apply IH; lia]. constructor; [|apply IH; lia].
  intros H. apply in_csl in H. destruct H as (m & M & C').
  pose proof (proj2 (bnd_step h0 g _ L a i LT IO j ltac:(lia)) c C). pose proof (bnd_mono h0 g _ L a i LT IO (S j) m ltac:(lia) ltac:(lia)).
  destruct IO as (_ & _ & Ck). pose proof (Ck j ltac:(lia)) as C1. pose proof (Ck m ltac:(lia)) as C2. unfold child_ok in C1, C2. rewrite C in C1. rewrite C' in C2.
  destruct C1 as (_ & _ & C1 & _), C2 as (_ & _ & C2 & _). lia.
Qed.
Lemma sl_nodup a : NoDup (sl a) \/ g_lay g a = None.
Proof.
  destruct (g_lay g a) as [L|] eqn:HL; [left|right; auto]. unfold sl. destruct (hp_node h0 a) as [[l|i]|] eqn:E; cbn [sln]; [| |constructor].
  - apply (lsl_nodup L a l); auto.
  - apply (csl_nodup L a i); auto.
Qed.

(* ---- one round ---- *)
Lemma children_ok X i : forall k j s Q, qinv h0 s Q X -> NoDup (csl k j i) -> (forall b, In b (csl k j i) -> ~ In b (Q ++ X) /\ exists n, hp_node h0 b = Some n) ->
  exists s', enqueue_children k j i s = Ok s' /\ qinv h0 s' (Q ++ csl k j i) X /\ (forall a, In a X -> hp_node (d_heap s') a = hp_node (d_heap s) a).
Proof.
  induction k as [|k IH]; intros j s Q I N F; cbn [enqueue_children csl].
  - exists s. rewrite app_nil_r. auto.
  - cbn [csl] in N, F. destruct (in_child i j) as [c|] eqn:C; cbn [app] in *.
    + inversion N as [|? ? N1 N2]; subst. destruct (F c (or_introl eq_refl)) as (F1 & n & F2).
      destruct (enqueue_ok h0 s Q X c n I F1 F2) as (s1 & E1 & I1 & P1). rewrite E1. cbn [bind].
      destruct (IH (S j) s1 (Q ++ [c]) I1 N2) as (s2 & E2 & I2 & P2).
      { intros b Hb. destruct (F b (or_intror Hb)) as (G1 & G2). split; auto. rewrite !in_app_iff in *. cbn. intros [[H|[->|[]]]|H]; tauto. }
      exists s2. rewrite <- app_assoc in I2. split; auto. split; auto. intros a Ha. rewrite P2, P1; auto.
    + cbn [bind]. destruct (IH (S j) s Q I N F) as (s2 & E2 & I2 & P2). eauto.
Qed.
Lemma layers_ok X l L' : forall k j s Q, qinv h0 s Q X -> NoDup (lsl k j l) ->
  (forall m, (j <= m < j + k)%nat -> 127 < lf_klx l (perm_get (lf_perm l) m) -> exists r, lf_lv l (perm_get (lf_perm l) m) = LvLayer r /\ lptr h0 g r (L' r)) ->
  (forall b, In b (lsl k j l) -> ~ In b (Q ++ X)) ->
  (fx = true -> forall m r, (j <= m < j + k)%nat -> 127 < lf_klx l (perm_get (lf_perm l) m) -> lf_lv l (perm_get (lf_perm l) m) = LvLayer r -> r <> tgt r ->
     ~ In r (Q ++ X) /\ ~ In r (lsl k j l)) ->
  exists s', enqueue_layers fx k j l s = Ok s' /\ qinv h0 s' (Q ++ lsl k j l) X /\ (forall a, In a X -> hp_node (d_heap s') a = hp_node (d_heap s) a).
Proof.
  induction k as [|k IH]; intros j s Q I N P F ST; cbn [enqueue_layers lsl].
  - exists s. rewrite app_nil_r. auto.
  - cbn [lsl] in N, F, ST. destruct (Z.ltb_spec 127 (lf_klx l (perm_get (lf_perm l) j))) as [K|K]; cbn [app] in *.
    + destruct (P j ltac:(lia) K) as (r & V & LP). rewrite V in *. cbn [app] in *.
      pose proof (F _ (or_introl eq_refl)) as F1. pose proof (tgt_lay r _ (proj1 LP)) as TL. destruct (lay_node _ _ TL) as (nt & En).
      unfold lv_layer. cbn [bind].
      assert (CL : (if fx then climb (hfuel (d_heap s)) (d_heap s) r else Ok r) = Ok (tgt r)).
      { destruct LP as (LP1 & nr & LP2 & LP3 & LP4). unfold tgt in *. destruct fx eqn:Efx; auto. rewrite LP1 in *.
        assert (HN : (0 < hp_next (d_heap s))%nat). { rewrite (q_next _ _ _ _ I). destruct (iv_heap _ _ HI r nr LP2). lia. }
        destruct (root_facts (L' r) (inv_layer h0 g HI _ _ LP1)) as (R1 & nR & R2 & R3).
        assert (FR : n_is_root nR = true).
        { destruct (lptr_flag h0 g (g_root g (L' r)) (L' r) nR HI (root_lptr h0 g _ (iv_lay _ _ HI _ _ LP1)) R2) as [[Q1 _]|[_ Q1]]; [auto|congruence]. }
        assert (HR : hp_node (d_heap s) (g_root g (L' r)) = Some nR) by (rewrite (q_rest _ _ _ _ I); auto).
        unfold hfuel. destruct (hp_next (d_heap s)) as [|f] eqn:EF; [lia|].
        destruct (Nat.eq_dec r (g_root g (L' r))) as [Er|Ne].
        - assert (HRr : hp_node (d_heap s) r = Some nR) by (rewrite Er; exact HR).
          cbn [climb]. rewrite (hget_some _ _ _ HRr). cbn [bind]. rewrite FR. f_equal. exact Er.
        - destruct (ST eq_refl j r ltac:(lia) K V) as (S1 & _); [rewrite LP1; exact Ne|].
          cbn [climb]. assert (HRr : hp_node (d_heap s) r = Some nr) by (rewrite (q_rest _ _ _ _ I); auto).
          rewrite (hget_some _ _ _ HRr). cbn [bind].
          destruct (lptr_flag h0 g r (L' r) nr HI) as [[Q1 Q2]|[Q1 Q2]]; [split; eauto|auto|congruence|]. rewrite Q1. unfold maybe_parent. rewrite (hget_some _ _ _ HRr). cbn [bind]. rewrite Q2. cbn [bind].
          rewrite (hget_some _ _ _ HR). cbn [bind]. rewrite FR. reflexivity. }
      rewrite CL. cbn [bind]. inversion N as [|? ? N1 N2]; subst.
      destruct (enqueue_ok h0 s Q X (tgt r) nt I F1 En) as (s1 & E1 & I1 & P1). rewrite E1. cbn [bind].
      destruct (IH (S j) s1 (Q ++ [tgt r]) I1 N2) as (s2 & E2 & I2 & P2).
      { intros m Hm. apply P. lia. }
      { intros b Hb. pose proof (F b (or_intror Hb)) as G1. rewrite !in_app_iff in *. cbn. intros [[H|[<-|[]]]|H]; tauto. }
      { intros Ef m r' Hm K' V' Nr. destruct (ST Ef m r' ltac:(lia) K' V' Nr) as (G1 & G2). cbn [In] in G2. rewrite !in_app_iff in *. cbn. split; intuition. }
      exists s2. rewrite <- app_assoc in I2. split; auto. split; auto. intros a Ha. rewrite P2, P1; auto.
    + cbn [bind]. destruct (IH (S j) s Q I N) as (s2 & E2 & I2 & P2); eauto.
      { intros m Hm. apply P. lia. }
      { intros Ef m r' Hm. apply ST; auto. lia. }
Qed.
End G.
