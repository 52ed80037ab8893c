(* The table refines the finite map. *)
From Verif Require Import Lib Spec_String Spec_Map M_Key P_Key M_Permuter P_Permuter2 M_Search P_Search M_Tree P_Tree1 P_Tree2 P_Tree3 P_Tree4 P_Tree5 P_Tree6 P_Tree6c P_Tree6d P_Tree6f P_Tree7 P_Tree7d P_Tree7e P_Tree8 P_Tree8b.

Lemma map_set_same m k o : map_set m k o k = o.
Proof. unfold map_set, key_eqb. destruct (list_eq_dec Z.eq_dec k k); congruence. Qed.
Lemma map_set_other m k o k' : k' <> k -> map_set m k o k' = m k'.
Proof. unfold map_set, key_eqb. destruct (list_eq_dec Z.eq_dec k' k); congruence. Qed.

Record trep (t : table) (g : ghost) (m : kmap) : Prop := {
  tr_inv : Inv (t_heap t) g;
  tr_root : stale (t_heap t) g 0 (t_root t);
  tr_gc : forall it, In it (t_gc t) -> stale (t_heap t) g 0 (fst it) /\ bytes_ok (snd it);
  tr_map : forall k v, holds (t_heap t) g k v <-> m k = Some v
}.

Lemma holds_fun h g k v1 v2 : Inv h g -> holds h g k v1 -> holds h g k v2 -> v1 = v2.
Proof.
  intros HI (M1 & m1 & l1 & s1 & A1 & A2 & A3 & A4 & A5 & A6) (M2 & m2 & l2 & s2 & B1 & B2 & B3 & B4 & B5 & B6).
  destruct (holder_unique h g k v1 v2 M1 m1 l1 s1 M2 m2 l2 s2) as [-> ->]; auto. congruence.
Qed.

(* fix_root. *)
Lemma parent_stale h g nd p m : Inv h g -> stale h g 0 m -> hp_node h m = Some nd -> n_parent nd = Some p -> stale h g 0 p.
Proof.
  intros HI Hs E P. pose proof (proj1 (iv_l0 _ _ HI)) as L0. pose proof (iv_lay _ _ HI 0%nat 0%nat L0) as HS.
  assert (LIVE : g_lay g m = Some 0%nat -> stale h g 0 p).
  { intros Hm. assert (N : m <> g_root g 0). { intros ->. destruct (sl_root _ _ _ _ HS) as (_ & _ & _ & x & X1 & X2). congruence. }
    destruct (linked_child h g 0 m nd HS Hm E N) as (q & x & k & Q1 & Q2 & Q3 & _). assert (q = p) by congruence. subst q. right. eauto. }
  destruct Hs as [->|(i & A & [B|B])]; auto. destruct (sl_dead _ _ _ _ HS m B) as (_ & x & q & y & X1 & _ & X2 & X3 & _ & X4). rewrite E in X1. inversion X1; subst nd. cbn in P. assert (q = p) by congruence. subst q. right. eauto.
Qed.
Lemma stale_node h g m : Inv h g -> stale h g 0 m -> exists nd, hp_node h m = Some nd.
Proof. intros HI [->|(i & A & _)]; [destruct (sl_first _ _ _ _ (iv_lay _ _ HI 0%nat 0%nat (proj1 (iv_l0 _ _ HI)))) as (_ & (l & A) & _)|]; eauto. Qed.
Lemma fix_root_ok t g m : trep t g m -> exists t1, fix_root t = Ok t1 /\ trep t1 g m /\ t_heap t1 = t_heap t /\ t_gc t1 = t_gc t.
Proof.
  intros [A B C D]. destruct (stale_node _ _ _ A B) as (nd & E). unfold fix_root. rewrite (hget_some _ _ _ E). cbn [bind]. destruct (n_is_root nd); [exists t; split; [auto|]; split; [constructor; auto|auto]|].
  unfold maybe_parent. rewrite (hget_some _ _ _ E). cbn [bind]. eexists. split; [reflexivity|]. split; [|auto]. constructor; auto. cbn. destruct (n_parent nd) as [p|] eqn:P; auto. eapply parent_stale; eauto.
Qed.

(* The key an operation may create layers for. *)
Definition op_key (o : top) : list Z := match o with OPut k _ | OAbandon k => k | OGet _ | ORemove _ | OGc _ => [] end.
Lemma lold_lnew k g g' : lold g g' -> lnew k g g'.
Proof. intros [A B] L H. left. rewrite B. auto. Qed.

Theorem tstep_ok t g m o : trep t g m -> op_ok o -> exists t' g', tstep t o = Ok (t', map_reports m o) /\ trep t' g' (map_after m o) /\ lnew (op_key o) g g'.
Proof.
  intros R Ho. destruct o as [k|k v|k|k|i]; cbn [tstep map_reports map_after op_ok] in *.
  - destruct R as [A B C D]. destruct (tree_get_ok _ _ A k (t_root t) Ho B) as (o & E & F). rewrite E. cbn [bind]. exists t, g. split; [|split; [constructor; auto|apply lnew_refl]].
    assert (EO : o = m k). { destruct o as [v|]; [symmetry; apply D, F; auto|]. destruct (m k) as [v|] eqn:G; auto. apply D, F in G. auto. }
    now rewrite EO.
  - destruct (fix_root_ok t g m R) as (t1 & E1 & [A B C D] & _). rewrite E1. cbn [bind].
    destruct (find_insert_ok _ _ k (t_root t1) (S (length k)) A Ho B) as (h1 & cu & b & F1 & F2); [lia|]. rewrite F1. cbn [bind]. unfold old_value. destruct b.
    + destruct F2 as (L & s & l & p & v0 & G1 & G2 & G3 & G4 & G5 & G6 & G7). destruct (replace_ok h1 g k cu L s l p v G1 G4 Ho G5) as (h2 & H1 & H2 & H3 & H4 & (w & H5 & H6) & H7); [lia|].
      rewrite H5. cbn [bind]. rewrite H1. cbn [bind]. unfold finish. rewrite G6. cbn [Z.ltb Z.eqb Z.compare andb Pos.compare]. cbn [bind].
      eexists _, g. split; [|split; [constructor|apply lnew_refl]].
      * apply G2, D in H6. rewrite H6. reflexivity.
      * exact H2.
      * cbn. apply H4, G3, B.
      * cbn. rewrite app_nil_r. intros it Hit. destruct (C it Hit). split; auto.
      * cbn. intros k' v'. rewrite H7, G2, D. destruct (list_eq_dec Z.eq_dec k' k) as [->|N]; [rewrite map_set_same|rewrite map_set_other by auto].
        -- split; [intros [[_ ->]|[N _]]; auto; contradiction|intros [= ->]; auto].
        -- split; [intros [[N2 _]|[_ H]]; auto; contradiction|auto].
    + destruct F2 as (G1 & G2 & g1 & L & s & l & p & G3 & G4 & G5 & G7 & G6). cbn [bind]. destruct (finish_ok h1 g1 k cu L s l p v G3 G6) as (h2 & h3 & H1 & H2 & H3 & H4 & H5 & H6).
      rewrite H1. cbn [bind]. unfold finish. rewrite G1. cbn [Z.ltb Z.eqb Z.compare andb Pos.compare Pos.eqb]. rewrite H2. cbn [bind].
      eexists _, g1. split; [|split; [constructor|exact (proj1 G7)]].
      * assert (E : m k = None) by (destruct (m k) as [x|] eqn:Q; auto; apply D in Q; destruct (G2 x Q)). rewrite E. reflexivity.
      * exact H3.
      * cbn. apply H5, G5, B.
      * cbn. rewrite app_nil_r. intros it Hit. destruct (C it Hit). split; auto.
      * cbn. intros k' v'. rewrite H6, G4, D. destruct (list_eq_dec Z.eq_dec k' k) as [->|N]; [rewrite map_set_same|rewrite map_set_other by auto].
        -- split; [intros [[_ ->]|[N _]]; auto; contradiction|intros [= ->]; auto].
        -- split; [intros [[N2 _]|[_ H]]; auto; contradiction|auto].
  - destruct (fix_root_ok t g m R) as (t1 & E1 & [A B C D] & _). rewrite E1. cbn [bind].
    destruct (find_insert_ok _ _ k (t_root t1) (S (length k)) A Ho B) as (h1 & cu & b & F1 & F2); [lia|]. rewrite F1. cbn [bind]. unfold old_value. destruct b.
    + destruct F2 as (L & s & l & p & v0 & G1 & G2 & G3 & G4 & G5 & G6 & G7). destruct (replace_ok h1 g k cu L s l p 0 G1 G4 Ho G5) as (h2 & _ & _ & _ & _ & (w & H5 & H6) & _); [lia|].
      rewrite H5. cbn [bind]. unfold finish. cbn [Z.ltb Z.eqb Z.compare andb]. cbn [bind]. eexists _, g. split; [|split; [constructor|apply lnew_refl]].
      * apply G2, D in H6. rewrite H6. reflexivity.
      * exact G1.
      * cbn. apply G3, B.
      * cbn. rewrite app_nil_r. intros it Hit. destruct (C it Hit). split; auto.
      * cbn. intros k' v'. rewrite G2. apply D.
    + destruct F2 as (G1 & G2 & g1 & L & s & l & p & G3 & G4 & G5 & G7 & G6). cbn [bind]. unfold finish. cbn [Z.ltb Z.eqb Z.compare andb]. cbn [bind].
      eexists _, g1. split; [|split; [constructor|exact (proj1 G7)]].
      * assert (E : m k = None) by (destruct (m k) as [x|] eqn:Q; auto; apply D in Q; destruct (G2 x Q)). rewrite E. reflexivity.
      * exact G3.
      * cbn. apply G5, B.
      * cbn. rewrite app_nil_r. intros it Hit. destruct (C it Hit). split; auto.
      * cbn. intros k' v'. rewrite G4. apply D.
  - destruct (fix_root_ok t g m R) as (t1 & E1 & [A B C D] & _). rewrite E1. cbn [bind].
    destruct (find_locked_ok k (t_root t1) g Ho (S (length k)) (t_heap t1) 0%nat k (key_make k) (t_root t1) A) as (h1 & cu & L & s & l & A1 & A2 & A3 & A4 & A5 & A6 & J); auto.
    { constructor. } { rewrite (proj2 (iv_l0 _ _ A)). apply key_make_rep. } { apply at_root_0. auto. }
    rewrite A1. cbn [bind]. pose proof (lc_state _ _ _ _ _ _ _ J) as ST. unfold old_value.
    assert (NOP : cu_state cu = 0 -> (forall v, ~ holds h1 g k v) -> exists t' g', (old <- (if negb (cu_state cu =? 0) then v <- cursor_value h1 cu;; Ok (Some v) else Ok None) ;; '(h3, gc) <- finish h1 cu (-1);; Ok (MkTable h3 (t_root t1) (t_gc t1 ++ gc), old)) = Ok (t', m k) /\ trep t' g' (map_set m k None) /\ lnew [] g g').
    { intros S0 NH. unfold finish. rewrite S0. cbn [Z.eqb negb Z.ltb Z.compare andb bind]. assert (E : m k = None) by (destruct (m k) as [x|] eqn:Q; auto; apply D, A3 in Q; destruct (NH x Q)). eexists _, g. split; [rewrite E; reflexivity|]. split; [constructor|apply lnew_refl].
      - exact A2.
      - cbn. auto.
      - cbn. rewrite app_nil_r. intros it Hit. destruct (C it Hit). split; auto.
      - cbn. intros k' v'. rewrite A3, D. destruct (list_eq_dec Z.eq_dec k' k) as [->|N]; [rewrite map_set_same; rewrite E; tauto|now rewrite map_set_other]. }
    destruct (cu_p cu) as [p|] eqn:Ep; [|apply NOP; tauto]. destruct ST as [LV [(E & _ & _ & NH)|(S1 & S2 & S3 & v0 & S4 & S5)]]; [apply NOP; auto|].
    rewrite S1. cbn [Z.eqb negb]. unfold cursor_value. rewrite Ep. cbn [deref bind]. rewrite (hleaf_some _ _ _ (lc_leaf _ _ _ _ _ _ _ J)). cbn [bind]. rewrite S4. cbn [lv_value bind].
    unfold finish. rewrite S1. cbn [Z.ltb Z.eqb Z.compare andb Pos.eqb]. destruct (finish_remove_ok h1 g k cu L s l A2 J Ho S1) as (h3 & gc & d & g3 & F1 & F2 & F3 & F4 & F5 & F6 & _). rewrite F1. cbn [bind].
    eexists _, g3. split; [|split; [constructor|now apply lold_lnew]].
    + assert (E : m k = Some v0) by (apply D, A3, S5; auto). rewrite E. reflexivity.
    + exact F2.
    + cbn. auto.
    + cbn. intros it Hit. apply in_app_iff in Hit. destruct Hit as [Hit|Hit].
      * destruct (C it Hit). split; auto.
      * destruct (F5 it Hit) as [-> _]. cbn. rewrite A6. split; auto. destruct (lc_rep _ _ _ _ _ _ _ J) as (Q1 & Q2 & _). unfold key_prefix_string. rewrite Q1, Q2, firstn_app, Nat.sub_diag, firstn_all, firstn_O, app_nil_r.
        apply (iv_pre _ _ A2). apply (inv_layer _ _ A2 (cu_n cu)). apply J.
    + cbn. intros k' v'. rewrite F3, A3, D. destruct (list_eq_dec Z.eq_dec k' k) as [->|N]; [rewrite map_set_same; split; [tauto|discriminate]|rewrite map_set_other by auto; tauto].
  - destruct R as [A B C D]. destruct (nth_error (t_gc t) i) as [it|] eqn:E; [|exists t, g; split; [auto|]; split; [constructor; auto|apply lnew_refl]].
    pose proof (nth_error_In _ _ E) as Hin. destruct (C it Hin) as [C1 C2]. destruct (run_gc_ok _ _ it A C1 C2) as (h1 & gc & g1 & F1 & F2 & F3 & F4 & F5 & F6). rewrite F1. cbn [bind].
    eexists _, g1. split; [reflexivity|]. split; [|now apply lold_lnew]. constructor; cbn; auto.
    + intros x Hx. rewrite !in_app_iff in Hx. assert (G : In x (t_gc t) \/ In x gc).
      { destruct Hx as [Hx|[Hx|Hx]]; auto; left; [rewrite <- (firstn_skipn i (t_gc t))|rewrite <- (firstn_skipn (S i) (t_gc t))]; apply in_app_iff; auto. }
      destruct G as [G|G]; [destruct (C x G); auto|auto].
    + intros k v. rewrite F3. apply D.
Qed.

(* Every layer stands for a proper prefix of a key given to an insertion. *)
Definition lnews (ops : list top) (g g' : ghost) : Prop :=
  forall L, g_lay g' L = Some L -> (g_lay g L = Some L /\ g_pre g' L = g_pre g L) \/ exists o r, In o ops /\ op_key o = g_pre g' L ++ r /\ r <> [].
Theorem truns_ok : forall ops t g m, trep t g m -> Forall op_ok ops -> exists t' g', truns t ops = Ok (t', snd (map_run m ops)) /\ trep t' g' (fst (map_run m ops)) /\ lnews ops g g'.
Proof.
  induction ops as [|o ops IH]; intros t g m R F; cbn [truns map_run].
  - exists t, g. split; auto. split; auto. intros L H. auto.
  - inversion F as [|? ? F1 F2]; subst. destruct (tstep_ok t g m o R F1) as (t1 & g1 & E1 & R1 & N1). rewrite E1. cbn [bind]. destruct (IH t1 g1 _ R1 F2) as (t2 & g2 & E2 & R2 & N2). rewrite E2. cbn [bind].
    destruct (map_run (map_after m o) ops) as [m' rs]. exists t2, g2. split; auto. split; auto.
    intros L H. destruct (N2 L H) as [[Q1 Q2]|(o' & r & Q1 & Q2)]; [|right; exists o', r; split; [right; auto|auto]]. rewrite Q2. destruct (N1 L Q1) as [Q|(r & Q)]; auto. right. exists o, r. split; [left; auto|auto].
Qed.

(* The empty table. *)
Definition g_init : ghost := MkG (fun m => if (m =? 0)%nat then Some 0%nat else None) (fun _ => 0) (fun _ => U64) (fun _ => 0%nat) (fun _ => []) (fun _ => None).
Lemma init_ok : trep table_init g_init map_empty.
Proof.
  assert (ONLY : forall m nd, hp_node (t_heap table_init) m = Some nd -> m = 0%nat /\ nd = NLeaf leaf_root).
  { intros m nd. change (hp_node (t_heap table_init) m) with (upd (fun _ : nat => @None node) 0%nat (Some (NLeaf leaf_root)) m). destruct (Nat.eq_dec m 0) as [->|N]; [rewrite upd_same|rewrite upd_other by auto; discriminate]. intros [= <-]. auto. }
  assert (N0 : hp_node (t_heap table_init) 0%nat = Some (NLeaf leaf_root)) by reflexivity.
  assert (LAY : forall m M, g_lay g_init m = Some M -> m = 0%nat /\ M = 0%nat).
  { intros m M. cbn. destruct (Nat.eqb_spec m 0); [intros [= <-]; auto|discriminate]. }
  assert (PS : perm_size (lf_perm leaf_root) = 0%nat) by reflexivity.
  assert (NL : forall s, ~ live_slot leaf_root s) by (intros s (j & J & _); lia).
  pose proof U64_pos as UP.
  assert (HS : SL (t_heap table_init) g_init (noexc g_init) 0).
  { constructor.
    - split; [reflexivity|]. split; [eauto|reflexivity].
    - split; [reflexivity|]. split; [reflexivity|]. split; [reflexivity|]. exists (NLeaf leaf_root). auto.
    - intros m Hm. destruct (LAY m _ Hm) as [-> _]. exists (NLeaf leaf_root), (NLeaf leaf_root). cbn [g_init g_lo g_hi noexc x_lo x_hi]. repeat split; auto; lia.
    - intros p i _ E _. destruct (ONLY _ _ E). discriminate.
    - intros m nd Hm _ N _. destruct (LAY m _ Hm) as [-> _]. destruct N. reflexivity.
    - intros m i _ E _. destruct (ONLY _ _ E). discriminate.
    - intros m [=]. }
  constructor.
  - constructor.
    + intros a nd E. destruct (ONLY _ _ E) as [-> ->]. cbn. lia.
    + split; reflexivity.
    + intros m L Hm. destruct (LAY m L Hm) as [_ ->]. exact HS.
    + intros L n l Hn En. destruct (LAY n L Hn) as [-> ->]. destruct (ONLY _ _ En) as [_ Q]. inversion Q; subst l. constructor; try reflexivity; try discriminate.
      * change (lf_perm leaf_root) with (perm_empty W). rewrite (empty_sorted W HW15). apply (make_sorted_spec W 0 HW15). lia.
      * intros i j Hij. rewrite PS in Hij. lia.
      * intros s Hs. destruct (NL s Hs).
      * cbn. tauto.
    + intros L' HL' N. destruct (LAY _ _ HL'). contradiction.
    + intros L HL. constructor.
    + intros m L [=].
  - left. reflexivity.
  - intros it [].
  - intros k v. split; [|discriminate]. intros (M & m & lm & s & _ & E & S & _). destruct (ONLY _ _ E) as [_ Q]. inversion Q; subst lm. destruct (NL s S).
Qed.
