(* Layer collection: gc_layer and the callback that runs it. *)
From Verif Require Import Lib Spec_String M_Key P_Key M_Permuter P_Permuter2 M_Search P_Search M_Tree P_Tree1 P_Tree2 P_Tree3 P_Tree4 P_Tree4b P_Tree5 P_Tree6 P_Tree6c P_Tree7 P_Tree7d P_Tree7e P_Tree8.

Lemma owned_nonzero h g L n l p r L' : Inv h g -> owns h g L n l p r L' -> L' <> 0%nat.
Proof.
  intros HI O E. destruct (owns_pre h g HI _ _ _ _ _ _ O) as [P _]. destruct (iv_l0 _ _ HI) as [_ Q]. rewrite E, Q in P. symmetry in P. apply app_eq_nil in P. destruct P as [_ P].
  pose proof (be_bytes_length 8 (lf_ikey l p)) as F. rewrite P in F. discriminate.
Qed.
Lemma owned_other h g L n l p r L' : Inv h g -> owns h g L n l p r L' -> L <> L'.
Proof.
  intros HI O E. destruct (owns_pre h g HI _ _ _ _ _ _ O) as [P _]. rewrite E in P. apply (f_equal (@length Z)) in P. rewrite app_length in P.
  pose proof (be_bytes_length 8 (lf_ikey l p)). lia.
Qed.

Lemma collapse_lold g L' R c : lold g (g_collapse g L' R c).
Proof. split; [|reflexivity]. intros m M. cbn [g_collapse g_lay]. unfold upd. destruct (m =? R)%nat; [discriminate|auto]. Qed.

Lemma gc_collapse_ok : forall fuel h g L n l p r L' nr, Inv h g -> owns h g L n l p r L' -> at_root h g L -> hp_node h (g_root g L') = Some nr ->
  (2 * ht nr + (if Nat.eq_dec r (g_root g L') then 0 else 1) < fuel)%nat ->
  exists h' o g', gc_collapse fuel h n p = Ok (h', o) /\ Inv h' g' /\ (forall k v, holds h' g' k v <-> holds h g k v) /\ (forall m, stale h g 0 m -> stale h' g' 0 m) /\ at_root h' g' L /\ (lold g g' /\ hmv eq h g h' g') /\
    match o with
    | None => True
    | Some la => la = L' /\ g_root g' L' = L' /\ exists l' lf, owns h' g' L n l' p L' L' /\ hp_node h' L' = Some (NLeaf lf) /\ lf_perm l' = lf_perm l
    end.
Proof.
  induction fuel as [|f IH]; intros h g L n l p r L' nr HI O AR Er Hf; [lia|].
  pose proof O as (O1 & O2 & O3 & O4 & O5 & O6). destruct (owns_pre h g HI _ _ _ _ _ _ O) as [PR LP]. pose proof LP as (LP1 & n0 & LP2 & LP3).
  pose proof (owned_nonzero _ _ _ _ _ _ _ _ HI O) as N0. pose proof (owned_other _ _ _ _ _ _ _ _ HI O) as NL.
  pose proof (iv_lay _ _ HI r L' O6) as HS.
  cbn [gc_collapse]. rewrite (hleaf_some _ _ _ O2). cbn [bind]. rewrite O5. cbn [lv_layer bind]. rewrite (hget_some _ _ _ LP2). cbn [bind].
  destruct (lptr_flag h g r L' n0 HI LP LP2) as [[F1 F2]|[F1 F2]]; rewrite F1; cbn [negb].
  - subst r. assert (n0 = nr) by congruence. subst n0. destruct nr as [lr|i].
    + exists h, (Some (g_root g L')), g. assert (HR : hmv eq h g h g) by (intros k0 b0 _ Q0; exists b0; auto); repeat (split; [auto using lold_refl; tauto|]). assert (RL : g_root g L' = L') by (destruct LP3 as [_ [Q|(x & Q)]]; [auto|discriminate]).
      rewrite RL in *. split; auto. split; auto. exists l, lr. auto.
    + destruct (Nat.ltb_spec 0 (in_nkeys i)) as [K|K].
      * exists h, None, g. assert (HR : hmv eq h g h g) by (intros k0 b0 _ Q0; exists b0; auto); repeat (split; [auto using lold_refl; tauto|]). auto.
      * assert (NK : in_nkeys i = 0%nat) by lia. destruct (sl_inter _ _ _ _ HS _ i O6 Er (fun x => x)) as (_ & _ & Q). specialize (Q 0%nat ltac:(lia)). unfold child_ok in Q.
        destruct (in_child i 0%nat) as [c|] eqn:EC; [|lia]. destruct Q as (Q1 & (nc & Q2 & Q3 & Q4) & _). cbn [deref bind].
        unfold make_layer_root. rewrite (hget_some _ _ _ Q2). cbn [bind]. change (match nc with NLeaf l0 => NLeaf (lf_set_root true (lf_set_parent None l0)) | NInter i0 => NInter (in_set_root true (in_set_parent None i0)) end) with (mlr nc).
        destruct (gcl_c h g L n l p L' i c HI O Er NK EC nc Q2) as (C1 & C2 & C3 & C4 & _).
        assert (E1 : hp_node (hset h c (mlr nc)) n = Some (NLeaf l)) by (rewrite hset_other; auto). rewrite (hleaf_some _ _ _ E1). cbn [bind].
        assert (E2 : hp_node (hset (hset h c (mlr nc)) n (NLeaf (lf_set_lv p (LvLayer c) l))) (g_root g L') = Some (NInter i)) by (rewrite !hset_other; auto).
        rewrite (hinter_some _ _ _ E2). cbn [bind].
        destruct (collapse_owns h g L n l p L' i c HI O Er NK EC nc Q2) as [T1 T2].
        pose proof (collapse_inv h g L n l p L' i c HI O Er NK EC nc Q2) as T3. pose proof (gcl_c' h g L n l p L' i c HI O Er NK EC nc Q2) as T4.
        destruct (IH _ _ L n _ p c L' (mlr nc) T3 T1) as (h' & o & g' & A1 & A2 & A3 & A4 & A5 & A7 & A6).
        -- apply (collapse_at_root h g L n l p L' i c HI O Er NK EC nc Q2); auto.
        -- rewrite T2. exact T4.
        -- rewrite T2. destruct (Nat.eq_dec c c); [|contradiction]. destruct (Nat.eq_dec (g_root g L') (g_root g L')); [|contradiction]. replace (ht (mlr nc)) with (ht nc) by (destruct nc; auto). cbn [ht] in Hf. lia.
        -- exists h', o, g'. split; [exact A1|]. split; auto. split; [intros k v; rewrite A3; apply (collapse_holds h g L n l p L' i c HI O Er NK EC nc Q2)|].
           split; [intros m Hm; apply A4; apply (collapse_stale h g L n l p L' i c HI O Er NK EC nc Q2); auto|]. split; auto. split; [|exact A6]. destruct A7 as [A7 A8]. split; [apply (lold_trans _ _ _ (collapse_lold g L' (g_root g L') c)); exact A7|]. apply (hmv_comp _ _ _ _ _ _ _ _ _ (collapse_hmv h g L n l p L' i c HI O Er NK EC nc Q2) A8). intros b k b1 b2 _ _ ->. auto.
  - assert (NR : r <> g_root g L'). { intros ->. destruct (sl_root _ _ _ _ HS) as (_ & _ & _ & x & X1 & X2). congruence. }
    unfold maybe_parent. rewrite (hget_some _ _ _ LP2). cbn [bind]. rewrite F2.
    destruct (relink_ok h g L n l p r L' HI O) as (T1 & T2 & T3 & T4). set (h1 := hset h n _) in *.
    assert (Nn : n <> g_root g L'). { intros E. destruct (sl_root _ _ _ _ HS) as (X & _). rewrite <- E in X. congruence. }
    destruct (IH h1 g L n _ p (g_root g L') L' nr T1 T4) as (h' & o & g' & A1 & A2 & A3 & A4 & A5 & A7 & A6).
    + intros M m lm s t (P1 & P2 & P3 & P4 & P5 & P6). unfold h1 in P2. destruct (Nat.eq_dec m n) as [->|Nm].
      * rewrite hset_same in P2. inversion P2; subst lm. cbn [lf_set_lv lf_lv lf_klx] in P4, P5. destruct (Nat.eq_dec s p) as [->|Ns].
        -- rewrite upd_same in P5. exfalso. destruct (sl_root _ _ _ _ HS) as (X & _). congruence.
        -- rewrite upd_other in P5 by auto. apply (AR M n l s t). repeat split; auto.
      * rewrite hset_other in P2 by auto. apply (AR M m lm s t). repeat split; auto.
    + unfold h1. rewrite hset_other; auto.
    + destruct (Nat.eq_dec r (g_root g L')); [contradiction|]. destruct (Nat.eq_dec (g_root g L') (g_root g L')); [|contradiction]. lia.
    + exists h', o, g'. split; [exact A1|]. split; auto. split; [intros k v; rewrite A3; apply T2|]. split; [intros m Hm; apply A4; apply T3; auto|]. split; auto. split; [|exact A6]. destruct A7 as [A7 A8]. split; [exact A7|]. apply (hmv_comp _ _ _ _ _ _ _ _ _ (hmv_hset h g n l _ O2) A8). intros b k b1 b2 _ _ ->. auto.
Qed.

(* Where keys go when the layer la under leaf n is collected and n, if that left it empty, poured into o. *)
Definition gcmv (n la : nat) (o : option nat) (c c' : nat) : Prop := c' = c \/ (c = la /\ c' = n) \/ ((c = n \/ c = la) /\ o = Some c').

(* gc_layer and the finish_remove that follows it. *)
Theorem gc_layer_ok h g prefix : Inv h g -> bytes_ok prefix ->
  exists h1 o, gc_layer (S (length prefix)) h (g_root g 0) prefix = Ok (h1, o) /\
    match o with
    | None => exists g', Inv h1 g' /\ (forall k v, holds h1 g' k v <-> holds h g k v) /\ (forall m, stale h g 0 m -> stale h1 g' 0 m) /\ lold g g' /\ hmv eq h g h1 g'
    | Some cu => exists h' gc d g', finish_remove h1 cu = Ok (h', gc, d) /\ Inv h' g' /\ (forall k v, holds h' g' k v <-> holds h g k v) /\ (forall m, stale h g 0 m -> stale h' g' 0 m) /\
        (forall x, In x gc -> stale h' g' 0 (fst x) /\ bytes_ok (snd x)) /\ lold g g' /\
        exists l p la, hp_node h1 (cu_n cu) = Some (NLeaf l) /\ cu_p cu = Some p /\ lf_lv l p = LvLayer la /\
          hmv (gcmv (cu_n cu) la (if (0 <? perm_size (perm_remove W (lf_perm l) (cu_i cu)))%nat then None else lf_prev l)) h g h' g'
    end.
Proof.
  intros HI Hb. pose proof (proj1 (iv_l0 _ _ HI)) as L0. pose proof (iv_lay _ _ HI 0%nat 0%nat L0) as HS.
  assert (RS : stale h g 0 (g_root g 0)) by (destruct (root_stale h g 0%nat HS) as [E|(i & A & B)]; [left; auto|right; eauto]).
  assert (TRIV : forall h1 g1 : _, Inv h1 g1 -> (forall k v, holds h1 g1 k v <-> holds h g k v) -> (forall m, stale h g 0 m -> stale h1 g1 0 m) -> lold g g1 -> hmv eq h g h1 g1 ->
     exists h' (o : option cursor), Ok (h1, @None cursor) = Ok (h', o) /\
    match o with
    | None => exists g', Inv h' g' /\ (forall k v, holds h' g' k v <-> holds h g k v) /\ (forall m, stale h g 0 m -> stale h' g' 0 m) /\ lold g g' /\ hmv eq h g h' g'
    | Some cu => exists h2 gc d g', finish_remove h' cu = Ok (h2, gc, d) /\ Inv h2 g' /\ (forall k v, holds h2 g' k v <-> holds h g k v) /\ (forall m, stale h g 0 m -> stale h2 g' 0 m) /\
        (forall x, In x gc -> stale h2 g' 0 (fst x) /\ bytes_ok (snd x)) /\ lold g g' /\
        exists l p la, hp_node h' (cu_n cu) = Some (NLeaf l) /\ cu_p cu = Some p /\ lf_lv l p = LvLayer la /\
          hmv (gcmv (cu_n cu) la (if (0 <? perm_size (perm_remove W (lf_perm l) (cu_i cu)))%nat then None else lf_prev l)) h g h2 g'
    end).
  { intros h1 g1 A B C D E. exists h1, None. split; [reflexivity|]. exists g1. auto. }
  pose proof (lold_refl g) as LR. unfold gc_layer.
  destruct (find_locked_ok prefix (g_root g 0) g Hb (S (length prefix)) h 0%nat prefix (key_make prefix) (g_root g 0) HI) as (h1 & cu & L & s & l & A1 & A2 & A3 & A4 & A5 & A6 & J); auto.
  { constructor. } { rewrite (proj2 (iv_l0 _ _ HI)). apply key_make_rep. } { apply at_root_0. auto. }
  assert (HV1 : hmv eq h g h1 g).
  { apply (hmv_imp (fun b b' => b' = b)); [|auto]. apply hmv_leafs. intros m lm Q. apply (find_locked_leafs _ _ _ _ _ _ _ A1 m). eauto. }
  rewrite A1. cbn [bind]. pose proof (lc_lay _ _ _ _ _ _ _ J) as Hn. pose proof (lc_leaf _ _ _ _ _ _ _ J) as En. set (n := cu_n cu) in *. rewrite (hleaf_some _ _ _ En). cbn [bind].
  pose proof (iv_leaf _ _ A2 L n l Hn En) as K. rewrite (lo_del _ _ _ _ _ K). cbn [negb andb]. assert (MD : match lf_mod l with MsDeletedLayer => false | _ => true end = true) by (pose proof (lo_mod _ _ _ _ _ K); destruct (lf_mod l); congruence). rewrite MD. cbn [ensure bind].
  destruct (key_has_suffix (cu_ka cu)); [apply (TRIV h1 g); auto|]. set (i := (cu_i cu + _)%nat).
  destruct (Nat.leb_spec (perm_size (lf_perm l)) i) as [Hi|Hi]; [apply (TRIV h1 g); auto|].
  set (p := perm_get (lf_perm l) i). destruct (negb (lf_ikey l p =? k_ikey (cu_ka cu)) || negb (127 <? lf_klx l p)) eqn:EQ; [apply (TRIV h1 g); auto|].
  apply orb_false_iff in EQ. destruct EQ as [_ EQ]. apply negb_false_iff in EQ. apply Z.ltb_lt in EQ. assert (LV : live_slot l p) by (exists i; auto).
  destruct (lo_slots _ _ _ _ _ K p LV) as [[V|(V1 & r' & L' & V2 & V3 & V4)] _]; [destruct (slot_val_klx _ _ _ V); lia|].
  assert (O : owns h1 g L n l p r' L') by (destruct V3; repeat split; auto). pose proof (iv_lay _ _ A2 r' L' (proj1 V3)) as HS'. destruct (sl_root _ _ _ _ HS') as (_ & _ & _ & nr' & Er' & _).
  destruct (gc_collapse_ok (hfuel h1 + hfuel h1) h1 g L n l p r' L' nr' A2 O (lc_root _ _ _ _ _ _ _ J) Er') as (h2 & o & g2 & B1 & B2 & B3 & B4 & B5 & (B7 & B8) & B6).
  { destruct (iv_heap _ _ A2 _ _ Er'). unfold hfuel. destruct (Nat.eq_dec r' (g_root g L')); lia. }
  assert (HV2 : hmv eq h g h2 g2) by (apply (hmv_comp _ _ _ _ _ _ _ _ _ HV1 B8); intros b k b1 b2 _ _ ->; auto).
  rewrite B1. cbn [bind]. destruct o as [la|]; [|apply (TRIV h2 g2); auto; intros; rewrite B3; apply A3]. destruct B6 as (-> & C1 & l' & lf & C2 & C3 & C4).
  rewrite (hleaf_some _ _ _ C3). cbn [bind]. destruct (Nat.ltb_spec 0 (perm_size (lf_perm lf))) as [Hsz|Hsz]; [apply (TRIV h2 g2); auto; intros; rewrite B3; apply A3|].
  pose proof C2 as (D1 & D2 & D3 & D4 & D5 & D6). pose proof (iv_leaf _ _ B2 L' L' lf D6 C3) as K2.
  assert (Hi' : (i < perm_size (lf_perm l'))%nat) by now rewrite C4. assert (Ep : perm_get (lf_perm l') i = p) by now rewrite C4.
  assert (PV : lf_prev lf = None). { pose proof (lo_prev _ _ _ _ _ K2) as Q. destruct (lf_prev lf); auto. destruct Q. contradiction. }
  assert (NX : lf_next lf = None).
  { pose proof (lo_next _ _ _ _ _ K2) as Q. destruct (lf_next lf) as [q|]; auto. destruct Q as (Q1 & Q2 & lq & Q3 & Q4).
    assert (q = L'). { apply (tl_single h2 g2 L n l' i L' L' lf); auto; rewrite ?Ep; auto. lia. }
    subst q. destruct (inv_bounds _ _ B2 _ _ Q1). lia. }
  rewrite PV, NX. cbn [ensure bind]. rewrite (lo_del _ _ _ _ _ K2). cbn [negb andb]. assert (MD2 : match lf_mod lf with MsDeletedLayer => false | _ => true end = true) by (pose proof (lo_mod _ _ _ _ _ K2); destruct (lf_mod lf); congruence). rewrite MD2. cbn [ensure bind].
  assert (O' : owns h2 g2 L n l' (perm_get (lf_perm l') i) L' L') by now rewrite Ep. assert (Z0 : perm_size (lf_perm lf) = 0%nat) by lia.
  pose proof (take_layer_inv h2 g2 L n l' i L' L' lf B2 D1 D2 Hi' O' C3 C1 Z0) as T1.
  pose proof (take_layer_holds h2 g2 L n l' i L' L' lf B2 D1 D2 Hi' O' C3 C1 Z0) as T2.
  pose proof (take_layer_stale h2 g2 n l' i L' lf D2 C3) as T3.
  pose proof (take_layer_at_root h2 g2 L n l' i L' L' lf B2 D1 D2 Hi' O' L B5) as T4.
  pose proof (take_layer_hmv h2 g2 L n l' i L' L' lf B2 D1 D2 Hi' O' C3 C1 Z0) as T5.
  pose proof (owned_nonzero _ _ _ _ _ _ _ _ B2 C2) as N0. pose proof (owned_other _ _ _ _ _ _ _ _ B2 C2) as NL. assert (NnL : n <> L') by congruence.
  destruct (finish_remove_tail _ _ L n l' i (cu_root cu) (key_prefix_string (cu_ka cu)) T1) as (h3 & gc & d & g3 & F1 & F2 & F3 & F4 & F5 & F6 & F7); [apply fg_lay; auto|apply hset_same|exact T4|].
  assert (E3 : hp_node (hset h2 L' (NLeaf (lf_set_mod MsDeletedLayer lf))) n = Some (NLeaf l')) by (rewrite hset_other; auto).
  eexists _, _. split; [reflexivity|]. cbv beta iota. cbn [cu_n cu_p cu_i].
  exists h3, gc, d, g3. split; [|split; [|split; [|split; [|split; [|split]]]]]; auto.
  - unfold finish_remove. cbn [cu_n cu_i cu_root cu_ka]. fold n.
    rewrite (hleaf_some _ _ _ E3). cbn [bind]. replace (lf_perm match lf_mod l' with MsInsert => lf_set_mod MsRemove l' | _ => l' end) with (lf_perm l') by (destruct (lf_mod l'); auto).
    exact F1.
  - intros k v. rewrite F3, T2, B3. apply A3.
  - intros x Hx. destruct (F5 x Hx) as [-> _]. cbn [fst snd]. split.
    + rewrite A6. apply F4, T3; auto.
    + destruct (lc_rep _ _ _ _ _ _ _ J) as (E1 & E2 & _). unfold key_prefix_string. rewrite E1, E2, firstn_app, Nat.sub_diag, firstn_all, firstn_O, app_nil_r. apply (iv_pre _ _ A2). apply (inv_layer _ _ A2 n). auto.
  - apply (lold_trans _ _ _ B7). apply (lold_trans _ (g_forget g2 L')); [|exact F6]. split; [|reflexivity]. intros m M Q. apply fg_lay in Q. tauto.
  - exists l', p, L'. split; [exact E3|]. split; [reflexivity|]. split; [exact D5|].
    assert (HV3 := hmv_comp _ _ (fun c c' => c' = c \/ (c = L' /\ c' = n)) _ _ _ _ _ _ HV2 T5 ltac:(intros b k b1 b2 _ _ ->; auto)).
    apply (hmv_comp _ _ _ _ _ _ _ _ _ HV3 F7). intros b k b1 b2 _ _ Q1 Q2. unfold gcmv. destruct (0 <? perm_size (perm_remove W (lf_perm l') i))%nat.
    + subst b2. destruct Q1 as [->|[-> ->]]; auto.
    + destruct Q2 as [->|[-> Q2]]; [destruct Q1 as [->|[-> ->]]; auto|]. right. right. split; auto. destruct Q1 as [->|[-> _]]; auto.
Qed.

Lemma climb_root h g r : Inv h g -> stale h g 0 r -> climb (hfuel h) h r = Ok (g_root g 0) /\ exists nr, hget h (g_root g 0) = Ok nr.
Proof.
  intros HI Hs. pose proof (proj1 (iv_l0 _ _ HI)) as L0. pose proof (iv_lay _ _ HI 0%nat 0%nat L0) as HS.
  assert (EN : exists nm, hp_node h r = Some nm). { destruct Hs as [->|(i & A & _)]; [destruct (sl_first _ _ _ _ HS) as (_ & (l & A) & _)|]; eauto. }
  destruct EN as (nm & EN). split.
  - apply (climb_ok h g 0%nat HS) with (nm := nm); auto; [exact (iv_heap _ _ HI)| |unfold hfuel; lia]. intros l A. exact (lo_flag _ _ _ _ _ (iv_leaf _ _ HI 0%nat 0%nat l L0 A) eq_refl).
  - destruct (sl_root _ _ _ _ HS) as (R1 & _ & _ & nr & R2 & _). exists nr. exact (hget_some _ _ _ R2).
Qed.

(* The collection of a layer, and the callback. *)
Theorem run_gc_ok h g it : Inv h g -> stale h g 0 (fst it) -> bytes_ok (snd it) ->
  exists h' gc g', run_gc h it = Ok (h', gc) /\ Inv h' g' /\ (forall k v, holds h' g' k v <-> holds h g k v) /\ (forall m, stale h g 0 m -> stale h' g' 0 m) /\
    (forall x, In x gc -> stale h' g' 0 (fst x) /\ bytes_ok (snd x)) /\ lold g g'.
Proof.
  intros HI Hs Hb. destruct it as [r prefix]. cbn [fst snd] in *. unfold run_gc. cbn [fst snd]. destruct (climb_root h g r HI Hs) as (CL & nr & R). rewrite CL. cbn [bind]. rewrite R. cbn [bind].
  destruct (n_deleted nr); [exists h, [], g; split; [reflexivity|]; split; [auto|]; split; [tauto|]; split; [auto|]; split; [intros x []|apply lold_refl]|].
  destruct (gc_layer_ok h g prefix HI Hb) as (h1 & o & G & Q). rewrite G. cbn [bind]. destruct o as [cu|].
  - destruct Q as (h' & gc & d & g' & F & A & B & C & D & E & _). rewrite F. cbn [bind]. exists h', gc, g'. auto 10.
  - destruct Q as (g' & A & B & C & D & _). exists h1, [], g'. split; [reflexivity|]. split; [auto|]. split; [auto|]. split; [auto|]. split; [intros x []|auto].
Qed.
