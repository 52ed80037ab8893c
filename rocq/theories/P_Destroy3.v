(* destroy frees exactly the nodes it reaches. *)
From Verif Require Import Lib Spec_Map M_Key M_Permuter P_Permuter2 M_Tree P_Tree1 P_Tree2 P_Tree3 P_Tree4 P_Tree7 P_Tree9 M_Destroy Spec_Destroy P_Destroy1 P_Destroy2.

Section L.
Context (h0 : heap) (g : ghost) (fx : bool).
Hypothesis HI : Inv h0 g.
Notation sl := (sl h0 g fx).
Notation reach := (reach h0 g fx).

Record linv (s : dstate) (Q D : list addr) : Prop := {
  l_q : qinv h0 s Q D;
  l_gone : forall a, In a D -> hp_node (d_heap s) a = None;
  l_reach : forall a, In a (Q ++ D) -> reach a;
  l_pred : forall a, In a (Q ++ D) -> a = g_root g 0 \/ exists p, In p D /\ In a (sl p);
  l_closed : forall p b, In p D -> In b (sl p) -> In b (Q ++ D);
  l_root : In (g_root g 0) (Q ++ D)
}.

Lemma nodup_mid {A} (x y : list A) a : NoDup (x ++ a :: y) -> ~ In a x /\ ~ In a y.
Proof. intros H. apply NoDup_remove_2 in H. rewrite in_app_iff in H. tauto. Qed.

Lemma destroy_node_ok s n Q D : linv s (n :: Q) D ->
  exists s', destroy_node fx s n = Ok s' /\ linv s' (Q ++ sl n) (n :: D).
Proof.
  intros I. pose proof (l_q _ _ _ I) as QI.
  pose proof (l_reach _ _ _ I n (or_introl eq_refl)) as Rn. destruct (reach_lay h0 g fx HI n Rn) as (L & HL).
  pose proof (q_nodup _ _ _ _ QI) as ND0. cbn [app] in ND0.
  assert (NnD : ~ In n D). { inversion ND0 as [|? ? A B]; subst. rewrite in_app_iff in A. tauto. }
  assert (MV : forall a, In a (Q ++ n :: D) <-> In a ((n :: Q) ++ D)) by (intros a; cbn [app In]; rewrite !in_app_iff; cbn; tauto).
  destruct (q_same _ _ _ _ QI n (or_introl eq_refl)) as (n0 & nn & E0 & En & Sm).
  destruct (dequeue_ok h0 s n Q D QI) as (s1 & E1 & H1 & I1).
  assert (FR : forall b, In b (sl n) -> ~ In b (Q ++ n :: D)).
  { intros b Hb Hin. apply MV in Hin. destruct (l_pred _ _ _ I b Hin) as [->|(p & P1 & P2)].
    - exact (no_pred_root h0 g fx HI n (pred_intro h0 g fx HI n _ L HL Hb)).
    - assert (p = n). { apply (pred_uniq h0 g fx HI p n b); auto. apply (l_reach _ _ _ I). apply in_app_iff. auto. } subst p. contradiction. }
  assert (SN : sl n = sln g fx n0) by (unfold P_Destroy2.sl; rewrite E0; reflexivity).
  assert (SN' : sln g fx nn = sl n) by (rewrite SN; symmetry; apply sln_same; auto).
  assert (NDs : NoDup (sl n)) by (destruct (sl_nodup h0 g fx HI n); [auto|congruence]).
  assert (EX : forall b, In b (sl n) -> exists nb, hp_node h0 b = Some nb).
  { intros b Hb. destruct (pred_lay h0 g fx _ _ (pred_intro h0 g fx HI n b L HL Hb)) as (Lb & Hl). eapply lay_node; eauto. }
  unfold destroy_node. rewrite E1. cbn [bind]. rewrite H1, (hget_some _ _ _ En). cbn [bind].
  assert (ENQ : exists s2, match nn with
        | NLeaf l => enqueue_layers fx (perm_size (lf_perm l)) 0 l s1
        | NInter i => enqueue_children (S (in_nkeys i)) 0 i s1
        end = Ok s2 /\ qinv h0 s2 (Q ++ sl n) (n :: D) /\ (forall a, In a (n :: D) -> hp_node (d_heap s2) a = hp_node (d_heap s1) a)).
  { rewrite <- SN' in *. destruct nn as [l|i]; cbn [sln] in *.
    - destruct n0 as [l0|]; [|destruct Sm]. destruct Sm as (S1 & S2 & S3).
      assert (LL : forall m, (m < perm_size (lf_perm l))%nat -> 127 < lf_klx l (perm_get (lf_perm l) m) -> forall r, lf_lv l (perm_get (lf_perm l) m) = LvLayer r ->
                exists L', owns h0 g L n l0 (perm_get (lf_perm l0) m) r L' /\ lptr h0 g r L').
      { intros m Hm K r V. rewrite <- S1, <- S2, <- S3 in *. destruct (live_layer h0 g HI L n l0 m r HL E0 Hm K V) as (L' & A & B & _). eauto. }
      apply (layers_ok h0 g fx HI (n :: D) l (fun r => match g_lay g r with Some L' => L' | None => 0%nat end)); auto.
      + intros m Hm K.
        assert (LS : live_slot l0 (perm_get (lf_perm l0) m)) by (exists m; rewrite S1; split; [lia|auto]).
        destruct (lo_slots _ _ _ _ _ (iv_leaf _ _ HI L n l0 HL E0) _ LS) as [[Hv|(_ & r & L' & V & P & _)] _].
        { apply slot_val_klx in Hv. rewrite S1, S2 in Hv. lia. }
        exists r. rewrite <- S1, <- S3. split; auto. rewrite (proj1 P). exact P.
      + intros Ef m r Hm K V Nr. destruct (LL m ltac:(lia) K r V) as (L' & O & P).
        assert (T : tgt g fx r = g_root g L') by (unfold tgt; rewrite Ef, (proj1 P); reflexivity).
        assert (HT : In (tgt g fx r) (lsl g fx (perm_size (lf_perm l)) 0 l)) by (apply in_lsl; exists m, r; auto).
        rewrite T in *.
        assert (NT : forall q r2 L2, g_lay g r2 = Some L2 -> q = tgt g fx r2 -> q <> r).
        { intros q r2 L2 A -> E. unfold tgt in E. rewrite Ef, A in E.
          destruct (root_facts h0 g HI L2 (inv_layer h0 g HI _ _ A)) as (B & _). rewrite E in B. assert (L2 = L') by (rewrite (proj1 P) in B; congruence). subst L2. congruence. }
        split.
        * intros Hin. apply MV in Hin. destruct (l_pred _ _ _ I r Hin) as [E|(p & P1 & P2)].
          { destruct (root_facts h0 g HI 0 (proj1 (iv_l0 _ _ HI))) as (B & _). rewrite <- E, (proj1 P) in B. pose proof (owned_ne0 h0 g HI _ _ _ _ _ _ O). congruence. }
          destruct (reach_lay h0 g fx HI p) as (Lp & HLp); [apply (l_reach _ _ _ I), in_app_iff; auto|].
          destruct (pred_intro h0 g fx HI p r Lp HLp P2) as [L2 l2 s2 r2 L2' A1 A2 A3 A4 A5 A6|L2 i2 k2 nb2 A1 A2 A3 A4 A5 A6 A7].
          { eapply NT; [apply (proj1 A3)|exact A4|reflexivity]. }
          destruct P as (Q1 & nr & Q2 & [Q3|Q3] & _); [congruence|]. assert (p = g_root g L') by congruence. subst p.
          apply (FR _ HT). apply MV. apply in_app_iff. auto.
        * intros Hin. apply in_lsl in Hin. destruct Hin as (m2 & r2 & M1 & M2 & M3 & M4).
          destruct (LL m2 ltac:(lia) M2 r2 M3) as (L2 & _ & P2). eapply NT; [apply (proj1 P2)|exact M4|reflexivity].
    - apply (children_ok h0); auto. }
  destruct ENQ as (s2 & E2 & I2 & P2). rewrite E2. cbn [bind].
  assert (En2 : hp_node (d_heap s2) n = Some nn) by (rewrite P2 by (left; auto); rewrite H1; auto).
  unfold hfree. rewrite (hget_some _ _ _ En2). cbn [bind]. eexists. split; [reflexivity|].
  pose proof (q_nodup _ _ _ _ I2) as ND2. destruct (nodup_mid _ _ _ ND2) as (N1 & N2).
  constructor.
  - constructor; cbn [d_heap d_workq d_tail hp_next hp_node].
    + apply (q_next _ _ _ _ I2).
    + exact ND2.
    + intros a Ha. rewrite upd_other by (intros ->; auto). apply (q_same _ _ _ _ I2). auto.
    + intros a Ha. rewrite upd_other. apply (q_rest _ _ _ _ I2); auto. intros ->. apply Ha, in_app_iff. right. left. auto.
    + apply (q_head _ _ _ _ I2).
    + apply (q_tail _ _ _ _ I2).
    + apply chain_frame with (h := d_heap s2); [|apply (q_chain _ _ _ _ I2)]. intros a Ha. cbn. apply upd_other. intros ->. auto.
  - intros a Ha. cbn. destruct (Nat.eq_dec a n) as [->|Ne]; [apply upd_same|]. rewrite upd_other by auto.
    destruct Ha as [Ha|Ha]; [congruence|]. rewrite P2 by (right; auto). rewrite H1. apply (l_gone _ _ _ I). auto.
  - intros a Ha. rewrite <- app_assoc, in_app_iff, in_app_iff in Ha. destruct Ha as [Ha|[Ha|Ha]].
    + apply (l_reach _ _ _ I). right. apply in_app_iff. auto.
    + eapply reach_step; eauto.
    + destruct Ha as [<-|Ha]; auto. apply (l_reach _ _ _ I). right. apply in_app_iff. auto.
  - intros a Ha. rewrite <- app_assoc, in_app_iff, in_app_iff in Ha. destruct Ha as [Ha|[Ha|Ha]].
    + destruct (l_pred _ _ _ I a) as [|(p & A & B)]; auto; [right; apply in_app_iff; auto|]. right. exists p. split; [right; auto|auto].
    + right. exists n. split; [left; auto|auto].
    + destruct (l_pred _ _ _ I a) as [|(p & A & B)]; auto; [|right; exists p; split; [right; auto|auto]]. destruct Ha as [<-|Ha]; [left; auto|right; apply in_app_iff; auto].
  - intros p b [<-|Hp] Hb.
    + rewrite !in_app_iff. auto.
    + pose proof (l_closed _ _ _ I p b Hp Hb) as C. apply MV in C. rewrite !in_app_iff in *. tauto.
  - pose proof (l_root _ _ _ I) as C. apply MV in C. rewrite !in_app_iff in *. tauto.
Qed.

Lemma destroy_loop_ok : forall fuel s Q D, linv s Q D -> (hp_next h0 < length D + fuel)%nat ->
  exists h', destroy_loop fuel fx s = Ok h' /\ (forall a, reach a -> hp_node h' a = None) /\
    (forall a, hp_node h' a = hp_node h0 a \/ (hp_node h' a = None /\ reach a)).
Proof.
  induction fuel as [|f IH]; intros s Q D I Hf; pose proof (l_q _ _ _ I) as QI.
  - exfalso. assert (LE : (length D <= length (seq 0 (hp_next h0)))%nat).
    { apply NoDup_incl_length.
      - pose proof (q_nodup _ _ _ _ QI) as N. clear - N. induction Q as [|a Q IHQ]; auto. apply IHQ. inversion N; auto.
      - intros a Ha. destruct (reach_lay h0 g fx HI a) as (La & HLa); [apply (l_reach _ _ _ I), in_app_iff; auto|]. destruct (lay_node h0 g HI a La HLa) as (na & Ea). destruct (iv_heap _ _ HI a na Ea). apply in_seq. lia. }
    rewrite seq_length in LE. lia.
  - cbn [destroy_loop]. rewrite (q_head _ _ _ _ QI). destruct Q as [|n Q]; cbn [hd_error].
    + eexists. split; [reflexivity|].
      assert (RD : forall a, reach a -> In a D).
      { induction 1 as [|a b _ IHr Hb].
        - apply (l_root _ _ _ I).
        - apply (l_closed _ _ _ I a b IHr Hb). }
      split; [intros a Ha; apply (l_gone _ _ _ I); auto|].
      intros a. destruct (in_dec Nat.eq_dec a D) as [Hi|No].
      * right. split; [apply (l_gone _ _ _ I); auto|apply (l_reach _ _ _ I); auto].
      * left. apply (q_rest _ _ _ _ QI). auto.
    + destruct (destroy_node_ok s n Q D I) as (s' & E & I'). rewrite E. cbn [bind]. apply (IH s' (Q ++ sl n) (n :: D) I'). cbn [length]. lia.
Qed.

Lemma reach_gone_free r n : r = g_root g 0 -> hp_node h0 r = Some n ->
  exists h', destroy_free fx (hset h0 r (n_set_deleted n)) r = Ok h' /\ (forall a, reach a -> hp_node h' a = None) /\
    (forall a, hp_node h' a = hp_node h0 a \/ (hp_node h' a = None /\ reach a)).
Proof.
  intros Er En. unfold destroy_free, enqueue. cbn [d_tail bind d_heap d_workq].
  rewrite (hget_some (hset h0 r (n_set_deleted n)) r (n_set_deleted n)) by (cbn; apply upd_same). cbn [bind].
  apply destroy_loop_ok with (Q := [r]) (D := []); [|cbn; unfold hfuel; cbn; lia].
  constructor.
  - constructor; cbn [d_heap d_workq d_tail]; auto.
    + repeat constructor. intros [].
    + intros a [<-|[]]. exists n, (n_set_deleted n). cbn. rewrite upd_same. repeat split; auto. destruct n; cbn; auto.
    + intros a Ha. cbn. apply upd_other. intros ->. apply Ha. left. auto.
    + cbn. auto.
  - intros a [].
  - intros a [<-|[]]. rewrite Er. constructor.
  - intros a [<-|[]]. auto.
  - intros p b [].
  - left. auto.
Qed.
End L.

(* ---- roots ---- *)
Lemma climb_more : forall f h a r, climb f h a = Ok r -> forall f', (f <= f')%nat -> climb f' h a = Ok r.
Proof.
  induction f as [|f IH]; intros h a r E f' Hf; [discriminate|]. destruct f' as [|f']; [lia|]. cbn [climb] in *.
  destruct (hget h a) as [n|] eqn:G; [|discriminate]. cbn [bind] in *. destruct (n_is_root n); auto.
  destruct (maybe_parent h a) as [p|]; [|discriminate]. cbn [bind] in *. apply (IH _ _ _ E). lia.
Qed.
Lemma hget_inv h a n : hget h a = Ok n -> hp_node h a = Some n.
Proof. unfold hget, deref. destruct (hp_node h a); congruence. Qed.
Lemma climb_top : forall f h a r, climb f h a = Ok r -> top_of h a r.
Proof.
  induction f as [|f IH]; intros h a r E; [discriminate|]. cbn [climb] in E.
  destruct (hget h a) as [n|] eqn:G; [|discriminate]. apply hget_inv in G. cbn [bind] in E. destruct (n_is_root n) eqn:R.
  - injection E as <-. apply (top_here h a n); auto.
  - unfold maybe_parent in E. rewrite (hget_some _ _ _ G) in E. cbn [bind] in E. destruct (n_parent n) as [p|] eqn:P.
    + apply (top_up h a n p); auto.
    + auto.
Qed.
Lemma top_climb h a r : top_of h a r -> exists f, climb f h a = Ok r.
Proof.
  induction 1 as [a n E R|a n p r E R P _ (f & IH)].
  - exists 1%nat. cbn [climb]. rewrite (hget_some _ _ _ E). cbn [bind]. now rewrite R.
  - exists (S f). cbn [climb]. unfold maybe_parent. rewrite (hget_some _ _ _ E). cbn [bind]. rewrite R, P. exact IH.
Qed.
Lemma top_fun h a r r' : top_of h a r -> top_of h a r' -> r = r'.
Proof.
  intros H H'. apply top_climb in H, H'. destruct H as (f & H), H' as (f' & H').
  apply climb_more with (f' := (f + f')%nat) in H; [|lia]. apply climb_more with (f' := (f + f')%nat) in H'; [|lia]. congruence.
Qed.

Section R.
Context (h : heap) (g : ghost).
Hypothesis HI : Inv h g.
Lemma stale_climb L m : g_lay g L = Some L -> stale h g L m -> climb (hfuel h) h m = Ok (g_root g L).
Proof.
  intros HL Hs. apply climb_root; auto.
  - apply (iv_lay _ _ HI L L HL).
  - apply (iv_heap _ _ HI).
  - intros l E. apply (lo_flag _ _ _ _ _ (iv_leaf _ _ HI L L l HL E)). reflexivity.
Qed.
Lemma stale_top L m : g_lay g L = Some L -> stale h g L m -> top_of h m (g_root g L).
Proof. intros HL Hs. eapply climb_top, stale_climb; eauto. Qed.

Lemma reach_part root fx a : stale h g 0 root -> reach h g fx a -> part h root a.
Proof.
  intros Hs. induction 1 as [|a b Ra IH Hb].
  - apply part_root. apply stale_top; auto. apply (iv_l0 _ _ HI).
  - destruct (reach_lay h g fx HI a Ra) as (L & HL). unfold sl in Hb. destruct (hp_node h a) as [[l|i]|] eqn:E; cbn [sln] in Hb; [| |destruct Hb].
    + apply in_lsl in Hb. destruct Hb as (j & r & J & K & V & ->).
      destruct (live_layer h g HI L a l j r HL E ltac:(lia) K V) as (L' & O & P & K8).
      pose proof (stale_top L' r (inv_layer h g HI _ _ (proj1 P)) (lptr_stale h g _ _ P)) as T.
      assert (PR : part h root (g_root g L')) by (apply (part_layer h root a l j r); auto; lia).
      unfold tgt. destruct fx; [rewrite (proj1 P); auto|].
      destruct (Nat.eq_dec r (g_root g L')) as [->|Ne]; auto.
      destruct P as (P1 & nr & P2 & [P3|P3] & _); [contradiction|].
      destruct (linked_child h g L' r nr (iv_lay _ _ HI _ _ P1) P1 P2 Ne) as (p & i & k & A1 & A2 & A3 & A4 & A5).
      assert (p = g_root g L') by congruence. subst p. apply (part_child h root (g_root g L') i k); auto.
    + apply in_csl in Hb. destruct Hb as (k & K & C). apply (part_child h root a i k); auto. lia.
Qed.
Lemma part_reach root fx a : stale h g 0 root -> (fx = true \/ up_to_date h root) -> part h root a -> reach h g fx a.
Proof.
  intros Hs F. induction 1 as [r T|a i k c Pa IH E K C|a l j r r' Pa IH E J K V T].
  - rewrite (top_fun _ _ _ _ T (stale_top 0 root (proj1 (iv_l0 _ _ HI)) Hs)). constructor.
  - apply reach_step with (a := a); auto. unfold sl. rewrite E. apply in_csl. exists k. split; [lia|auto].
  - destruct (reach_lay h g fx HI a IH) as (L & HL).
    destruct (live_layer h g HI L a l j r HL E J ltac:(lia) V) as (L' & O & P & _).
    rewrite (top_fun _ _ _ _ T (stale_top L' r (inv_layer h g HI _ _ (proj1 P)) (lptr_stale h g _ _ P))).
    apply reach_step with (a := a); auto. unfold sl. rewrite E. apply in_lsl. exists j, r. repeat split; auto; try lia.
    unfold tgt. destruct fx; [rewrite (proj1 P); auto|]. destruct F as [F|F]; [discriminate|].
    destruct (F a l j r Pa E J K V) as (n & En & Rn). destruct (lptr_flag h g r L' n HI P En) as [[_ A]|[A _]]; congruence.
Qed.
End R.

Lemma destroy_ok fx ops t rs : Forall op_ok ops -> truns table_init ops = Ok (t, rs) ->
  exists h', destroy fx t = Ok h' /\ only_own (t_heap t) h' (t_root t) /\
    (fx = true \/ up_to_date (t_heap t) (t_root t) -> all_freed (t_heap t) h' (t_root t)).
Proof.
  intros F E. destruct (truns_ok ops table_init g_init map_empty init_ok F) as (t' & g & E' & R & _).
  assert (t' = t) by congruence. subst t'. pose proof (tr_inv _ _ _ R) as HI. pose proof (tr_root _ _ _ R) as Hs.
  pose proof (proj1 (iv_l0 _ _ HI)) as L0.
  unfold destroy, destroy_mark. rewrite (stale_climb (t_heap t) g HI 0 (t_root t) L0 Hs). cbn [bind].
  destruct (root_facts (t_heap t) g HI 0 L0) as (_ & nr & En & _). rewrite (hget_some _ _ _ En). cbn [bind].
  destruct (reach_gone_free (t_heap t) g fx HI _ nr eq_refl En) as (h' & A & B & C). exists h'. split; auto. split.
  - intros a. destruct (C a) as [D|[D1 D2]]; auto. right. split; auto. eapply reach_part; eauto.
  - intros Cond a Pa. apply B. eapply part_reach; eauto.
Qed.

(* Between the two runs of the callback, pending collections see a deleted tree and leave it alone. *)
Lemma mark_ok ops t rs : Forall op_ok ops -> truns table_init ops = Ok (t, rs) ->
  exists h r, destroy_mark (t_heap t) (t_root t) = Ok (h, r) /\ forall it, In it (t_gc t) -> run_gc h it = Ok (h, []).
Proof.
  intros F E. destruct (truns_ok ops table_init g_init map_empty init_ok F) as (t' & g & E' & R & _).
  assert (t' = t) by congruence. subst t'. pose proof (tr_inv _ _ _ R) as HI. pose proof (tr_root _ _ _ R) as Hs.
  pose proof (proj1 (iv_l0 _ _ HI)) as L0.
  unfold destroy_mark. rewrite (stale_climb (t_heap t) g HI 0 (t_root t) L0 Hs). cbn [bind].
  destruct (root_facts (t_heap t) g HI 0 L0) as (_ & nr & En & _). rewrite (hget_some _ _ _ En). cbn [bind].
  eexists _, _. split; [reflexivity|]. intros it Hit. destruct (tr_gc _ _ _ R it Hit) as [Si _].
  set (h := t_heap t) in *. set (rt := g_root g 0) in *.
  assert (CL : forall f a, climb f (hset h rt (n_set_deleted nr)) a = climb f h a).
  { induction f as [|f IH]; intros a; cbn [climb]; auto. unfold maybe_parent, hget. cbn. destruct (Nat.eq_dec a rt) as [->|Ne].
    - rewrite upd_same, En. cbn. replace (n_is_root (n_set_deleted nr)) with (n_is_root nr) by (destruct nr; auto).
      replace (n_parent (n_set_deleted nr)) with (n_parent nr) by (destruct nr; auto). destruct (n_is_root nr); auto.
    - rewrite upd_other by auto. destruct (hp_node h a); auto. cbn. destruct (n_is_root n); auto. }
  unfold run_gc. rewrite CL. change (hfuel (hset h rt (n_set_deleted nr))) with (hfuel h). rewrite (stale_climb h g HI 0 _ L0 Si). cbn [bind].
  fold rt. rewrite (hget_some (hset h rt (n_set_deleted nr)) rt (n_set_deleted nr)) by (cbn; apply upd_same). cbn [bind].
  replace (n_deleted (n_set_deleted nr)) with true by (destruct nr; auto). reflexivity.
Qed.

(* A test for up_to_date. *)
Definition check_slot (h : heap) (l : leafn) (j : nat) : bool :=
  let p := perm_get (lf_perm l) j in
  if lf_klx l p =? 128 then
    match lf_lv l p with LvLayer r => match hp_node h r with Some n => n_is_root n | None => false end | _ => true end
  else true.
Definition check_node (h : heap) (a : addr) : bool :=
  match hp_node h a with Some (NLeaf l) => forallb (check_slot h l) (seq 0 (perm_size (lf_perm l))) | _ => true end.
Definition check (h : heap) : bool := forallb (check_node h) (seq 0 (hp_next h)).
Lemma check_ok ops t rs : Forall op_ok ops -> truns table_init ops = Ok (t, rs) -> check (t_heap t) = true -> up_to_date (t_heap t) (t_root t).
Proof.
  intros F E C. destruct (truns_ok ops table_init g_init map_empty init_ok F) as (t' & g & E' & R & _).
  assert (t' = t) by congruence. subst t'. intros a l j r _ Ea J K V.
  destruct (iv_heap _ _ (tr_inv _ _ _ R) a _ Ea) as [La _]. unfold check in C. rewrite forallb_forall in C.
  specialize (C a ltac:(apply in_seq; lia)). unfold check_node in C. rewrite Ea, forallb_forall in C.
  specialize (C j ltac:(apply in_seq; lia)). unfold check_slot in C. rewrite K, V in C. cbn in C. destruct (hp_node (t_heap t) r) as [n|]; [eauto|discriminate].
Qed.

(* ---- witnesses ---- *)
Definition wkey (j : nat) : list Z := repeat 1 8 ++ [Z.of_nat j].
Definition wputs (k : nat) : list top := map (fun j => OPut (wkey j) (Z.of_nat j)) (seq 0 k).
Definition wtable (ops : list top) : table := match truns table_init ops with Ok (t, _) => t | Err _ => table_init end.
Definition wresults (ops : list top) : list (option Z) := match truns table_init ops with Ok (_, rs) => rs | Err _ => [] end.
Lemma wputs_ok k : (k <= 200)%nat -> Forall op_ok (wputs k).
Proof.
  intros Hk. unfold wputs. apply Forall_forall. intros o H. apply in_map_iff in H. destruct H as (j & <- & Hj). apply in_seq in Hj. cbn [op_ok].
  unfold wkey, bytes_ok. repeat first [apply Forall_cons | apply Forall_nil]; unfold byte_ok; lia.
Qed.

Lemma leak_witness : exists ops t rs h' a, Forall op_ok ops /\ truns table_init ops = Ok (t, rs) /\ destroy false t = Ok h' /\
  part (t_heap t) (t_root t) a /\ hp_node h' a <> None.
Proof.
  exists (wputs 16), (wtable (wputs 16)), (wresults (wputs 16)),
    (match destroy false (wtable (wputs 16)) with Ok h => h | Err _ => t_heap table_init end), 3%nat.
  split; [apply wputs_ok; lia|]. split; [vm_compute; reflexivity|]. split; [vm_compute; reflexivity|]. split; [|vm_compute; discriminate].
  set (h := t_heap (wtable (wputs 16))).
  assert (T : t_root (wtable (wputs 16)) = 0%nat) by (vm_compute; reflexivity). rewrite T.
  assert (E0 : exists l, hp_node h 0%nat = Some (NLeaf l) /\ lf_root l = true /\ perm_size (lf_perm l) = 1%nat /\
     lf_klx l (perm_get (lf_perm l) 0) = 128 /\ lf_lv l (perm_get (lf_perm l) 0) = LvLayer 1%nat).
  { eexists. split; [vm_compute; reflexivity|]. vm_compute. auto. }
  assert (E1 : exists n, hp_node h 1%nat = Some n /\ n_is_root n = false /\ n_parent n = Some 3%nat).
  { eexists. split; [vm_compute; reflexivity|]. vm_compute. auto. }
  assert (E3 : exists n, hp_node h 3%nat = Some n /\ n_is_root n = true).
  { eexists. split; [vm_compute; reflexivity|]. vm_compute. auto. }
  destruct E0 as (l & A1 & A2 & A3 & A4 & A5), E1 as (n1 & B1 & B2 & B3), E3 as (n3 & C1 & C2).
  apply (part_layer h 0%nat 0%nat l 0%nat 1%nat); auto; [|lia|].
  - apply part_root. apply (top_here h 0%nat (NLeaf l)); auto.
  - apply (top_up h 1%nat n1 3%nat); auto. apply (top_here h 3%nat n3); auto.
Qed.

Lemma late_gc_witness : exists ops t rs h' it, Forall op_ok ops /\ truns table_init ops = Ok (t, rs) /\ In it (t_gc t) /\
  destroy false t = Ok h' /\ run_gc h' it = Err BadPtr.
Proof.
  exists (wputs 2 ++ [ORemove (wkey 0); ORemove (wkey 1)]), (wtable (wputs 2 ++ [ORemove (wkey 0); ORemove (wkey 1)])),
    (wresults (wputs 2 ++ [ORemove (wkey 0); ORemove (wkey 1)])),
    (match destroy false (wtable (wputs 2 ++ [ORemove (wkey 0); ORemove (wkey 1)])) with Ok h => h | Err _ => t_heap table_init end), (0%nat, repeat 1 8).
  split; [apply Forall_app; split; [apply wputs_ok; lia|]; repeat constructor; cbn; lia|].
  split; [vm_compute; reflexivity|]. split; [vm_compute; auto|]. split; vm_compute; reflexivity.
Qed.

Lemma destroy_plain ops t rs : Forall op_ok ops -> truns table_init ops = Ok (t, rs) ->
  exists h', destroy false t = Ok h' /\ only_own (t_heap t) h' (t_root t) /\
    (up_to_date (t_heap t) (t_root t) -> all_freed (t_heap t) h' (t_root t)).
Proof. intros F E. destruct (destroy_ok false ops t rs F E) as (h' & A & B & C). exists h'. auto. Qed.
Lemma destroy_fixed ops t rs : Forall op_ok ops -> truns table_init ops = Ok (t, rs) ->
  exists h', destroy true t = Ok h' /\ only_own (t_heap t) h' (t_root t) /\ all_freed (t_heap t) h' (t_root t).
Proof. intros F E. destruct (destroy_ok true ops t rs F E) as (h' & A & B & C). exists h'. auto. Qed.
