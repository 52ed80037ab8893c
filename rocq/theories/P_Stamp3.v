(* Timestamps increase when operations run one at a time: removals, collections and whole runs. *)
From Verif Require Import Lib Spec_String Spec_Map Spec_Stamp M_Key P_Key M_Permuter M_Search M_Circular M_Tree M_Stamp P_Tree1 P_Tree2 P_Tree3 P_Tree4 P_Tree4b P_Tree6 P_Tree6d P_Tree6f P_Tree7 P_Tree7d P_Tree7e P_Tree8 P_Tree8b P_Tree9 P_Stamp1 P_Stamp2.

Lemma remove_ok t g m l b i k : sinv t g m l b -> bytes_ok k -> b + 8 < HB ->
  exists t' g' m' e, sstep t (SRemove i k) = Ok (t', e) /\ sinv t' g' m' (l ++ map to_upd e) (b + 4).
Proof.
  intros SI Hk HBb. cbn [sstep].
  destruct (fix_root_ok _ g m (si_rep _ _ _ _ _ SI)) as (t1 & E1 & [A B C D] & EH & _). rewrite E1. cbn [bind].
  destruct (find_locked_ok k (t_root t1) g Hk (S (length k)) (t_heap t1) 0%nat k (key_make k) (t_root t1) A) as (h1 & cu & L & s & lf & A1 & A2 & A3 & A4 & A5 & A6 & J); auto.
  { constructor. } { rewrite (proj2 (iv_l0 _ _ A)). apply key_make_rep. } { apply at_root_0. auto. }
  rewrite A1. cbn [bind]. pose proof (lc_state _ _ _ _ _ _ _ J) as ST. unfold old_value.
  pose proof (find_locked_pmono _ _ _ _ _ _ _ g (s_ph t) A1) as PM.
  pose proof (si_ph _ _ _ _ _ SI) as PI. pose proof (si_clock _ _ _ _ _ SI i) as CI. pose proof (si_know _ _ _ _ _ SI k Hk) as KN. rewrite <- EH in KN.
  assert (NOP : cu_state cu = 0 -> exists t' g' m' e, (old <- (if negb (cu_state cu =? 0) then v <- cursor_value h1 cu;; Ok (Some v) else Ok None) ;;
     match old with
     | None => '(h3, gc) <- finish h1 cu (-1) ;; Ok (MkS (MkTable h3 (t_root t1) (t_gc t1 ++ gc)) (s_ph t) (s_clock t), [])
     | Some x => let ts := update_ts (s_clock t i) x in let n := cu_n cu in let ph1 := if ci_less_equal 64 (s_ph t n) ts then upd (s_ph t) n (ci_wrap 64 (ts + 2)) else s_ph t in
       ph2 <- pour_phantom h1 cu ph1 ;; '(h3, gc) <- finish h1 cu (-1) ;; Ok (MkS (MkTable h3 (t_root t1) (t_gc t1 ++ gc)) ph2 (set_clock (s_clock t) i ts), [MkEv k true ts x])
     end) = Ok (t', e) /\ sinv t' g' m' (l ++ map to_upd e) (b + 4)).
  { intros S0. unfold finish. rewrite S0. cbn [Z.eqb negb Z.ltb Z.compare andb bind]. eexists _, g, m, []. split; [reflexivity|]. cbn [map]. rewrite !app_nil_r.
    apply (weaken _ _ _ _ b); [|lia]. apply (sinv_quiet t g m l b); cbn [s_table s_ph s_clock t_heap]; auto.
    - constructor; cbn [t_heap t_root t_gc]; auto.
      + intros it Hit. destruct (C it Hit). split; auto.
      + intros k' v'. rewrite A3. apply D.
    - rewrite <- EH. exact PM. }
  destruct (cu_p cu) as [p|] eqn:Ep; [|apply NOP; tauto]. destruct ST as [LV [(E & _)|(S1 & S2 & S3 & v0 & S4 & S5)]]; [apply NOP; auto|]. clear NOP.
  rewrite S1. cbn [Z.eqb negb]. unfold cursor_value. rewrite Ep. cbn [deref bind]. rewrite (hleaf_some _ _ _ (lc_leaf _ _ _ _ _ _ _ J)). cbn [bind]. rewrite S4. cbn [lv_value bind].
  assert (MK : m k = Some v0) by (apply D, A3, S5; auto). pose proof (si_row _ _ _ _ _ SI k v0 MK) as WB. destruct (update_ts_ok _ _ _ CI WB HBb) as [U1 U2]. set (ts := update_ts (s_clock t i) v0) in *.
  cbv zeta. set (ph1 := if ci_less_equal 64 (s_ph t (cu_n cu)) ts then upd (s_ph t) (cu_n cu) (ci_wrap 64 (ts + 2)) else s_ph t).
  assert (P1 : ph_in ph1 (b + 4) /\ (forall c, s_ph t c <= ph1 c) /\ ts < ph1 (cu_n cu)).
  { unfold ph1. pose proof (PI (cu_n cu)) as Q. rewrite ci_less_equal_small by lia. rewrite wrap_small by lia. destruct (Z.leb_spec (s_ph t (cu_n cu)) ts) as [Le|Le].
    - split; [|split].
      + intros c. destruct (Nat.eq_dec c (cu_n cu)) as [->|N]; [rewrite upd_same; lia|rewrite upd_other by auto; specialize (PI c); lia].
      + intros c. destruct (Nat.eq_dec c (cu_n cu)) as [->|N]; [rewrite upd_same; lia|rewrite upd_other by auto; lia].
      + rewrite upd_same. lia.
    - split; [intros c; specialize (PI c); lia|]. split; [intros; lia|lia]. }
  destruct P1 as (P1 & P2 & P3).
  destruct (pour_phantom_ok h1 cu ph1 (b + 4) lf (lc_leaf _ _ _ _ _ _ _ J) P1) as (ph2 & R1 & R2 & R3 & R4); [lia|]. rewrite R1. cbn [bind].
  unfold finish. rewrite S1. cbn [Z.ltb Z.eqb Z.compare andb Pos.eqb]. destruct (finish_remove_ok h1 g k cu L s lf A2 J Hk S1) as (h3 & gc & d & g3 & F1 & F2 & F3 & F4 & F5 & F6 & F7). rewrite F1. cbn [bind].
  assert (M3 : pmono ph1 h1 g ph2 h3 g3).
  { apply (hmv_pmono _ _ _ _ _ _ _ F7). intros c c'. destruct (0 <? _)%nat; [intros <-; apply R3|]. intros [->|[-> Q]]; [apply R3|]. apply R4, Q. }
  exists (MkS (MkTable h3 (t_root t1) (t_gc t1 ++ gc)) ph2 (set_clock (s_clock t) i ts)), g3, (map_set m k None), [MkEv k true ts v0]. split; [reflexivity|].
  apply (sinv_event t g m l b _ g3 (MkUpd k true ts v0) (b + 4)); cbn [s_table s_ph s_clock t_heap u_key u_rem u_ts u_prev]; auto; try lia.
  - constructor; cbn [t_heap t_root t_gc].
    + exact F2.
    + auto.
    + intros it Hit. apply in_app_iff in Hit. destruct Hit as [Hit|Hit].
      * destruct (C it Hit). split; auto.
      * destruct (F5 it Hit) as [-> _]. cbn. rewrite A6. split; auto. destruct (lc_rep _ _ _ _ _ _ _ J) as (Q1 & Q2 & _). unfold key_prefix_string. rewrite Q1, Q2, firstn_app, Nat.sub_diag, firstn_all, firstn_O, app_nil_r.
        apply (iv_pre _ _ A2). apply (inv_layer _ _ A2 (cu_n cu)). apply J.
    + intros k' v'. rewrite F3, A3, D. destruct (list_eq_dec Z.eq_dec k' k) as [->|N]; [rewrite map_set_same; split; [tauto|discriminate]|rewrite map_set_other by auto; tauto].
  - apply (set_clock_ok _ _ _ b); [apply (si_clock _ _ _ _ _ SI)|lia|lia].
  - rewrite <- EH. apply (pmono_trans _ _ _ (s_ph t) h1 g); [exact PM|]. intros k' c Hk' Hc. destruct (M3 k' c Hk' Hc) as (c0 & Q1 & Q2). exists c0. split; auto. specialize (P2 c0). lia.
  - intros _ c Hc. destruct (M3 k c Hk Hc) as (c0 & Q1 & Q2). rewrite (home_det _ _ _ _ _ A2 Q1 (located_home _ _ _ _ _ _ _ A2 Hk J)) in Q2. lia.
  - intros a Ha. rewrite Ha in KN. destruct (u_rem a); [destruct KN; congruence|]. assert (u_ts a = v0) by congruence. lia.
  - destruct (latest k l) as [a|]; [destruct (u_rem a); [destruct KN|]|]; congruence.
Qed.

Lemma gc_ok t g m l b j : sinv t g m l b -> b + 8 < HB ->
  exists t' g' m' e, sstep t (SGc j) = Ok (t', e) /\ sinv t' g' m' (l ++ map to_upd e) (b + 4).
Proof.
  intros SI HBb. pose proof (si_rep _ _ _ _ _ SI) as [A B C D]. pose proof (si_ph _ _ _ _ _ SI) as PI. cbn [sstep]. destruct (nth_error (t_gc (s_table t)) j) as [it|] eqn:E.
  2:{ exists t, g, m, []. split; auto. cbn [map]. rewrite app_nil_r. apply (weaken _ _ _ _ b); [auto|lia]. }
  pose proof (nth_error_In _ _ E) as Hin. destruct (C it Hin) as [C1 C2]. destruct it as [r prefix]. cbn [fst snd] in *. unfold gc_stamp. cbn [fst snd].
  assert (END : forall h1 gc ph g1, Inv h1 g1 -> (forall k v, holds h1 g1 k v <-> holds (t_heap (s_table t)) g k v) -> (forall x, stale (t_heap (s_table t)) g 0 x -> stale h1 g1 0 x) ->
     (forall x, In x gc -> stale h1 g1 0 (fst x) /\ bytes_ok (snd x)) -> ph_in ph b -> pmono (s_ph t) (t_heap (s_table t)) g ph h1 g1 ->
     exists t' g' m' e, Ok (MkS (MkTable h1 (t_root (s_table t)) (firstn j (t_gc (s_table t)) ++ skipn (S j) (t_gc (s_table t)) ++ gc)) ph (s_clock t), []) = Ok (t', e) /\ sinv t' g' m' (l ++ map to_upd e) (b + 4)).
  { intros h1 gc ph g1 I1 I2 I3 I4 I5 I6. eexists _, g1, m, []. split; [reflexivity|]. cbn [map]. rewrite app_nil_r. apply (weaken _ _ _ _ b); [|lia].
    apply (sinv_quiet t g m l b); cbn [s_table s_ph s_clock t_heap]; auto. constructor; cbn [t_heap t_root t_gc]; auto.
    - intros x Hx. rewrite !in_app_iff in Hx. assert (G : In x (t_gc (s_table t)) \/ In x gc).
      { destruct Hx as [Hx|[Hx|Hx]]; auto; left; [rewrite <- (firstn_skipn j (t_gc (s_table t)))|rewrite <- (firstn_skipn (S j) (t_gc (s_table t)))]; apply in_app_iff; auto. }
      destruct G as [G|G]; [destruct (C x G); auto|auto].
    - intros k v. rewrite I2. apply D. }
  destruct (climb_root _ g r A C1) as (CL & nr & R). rewrite CL. cbn [bind]. rewrite R. cbn [bind].
  destruct (n_deleted nr).
  - cbn [bind]. apply (END _ _ _ g); auto; [tauto|intros x []|apply pmono_refl].
  - destruct (gc_layer_ok _ g prefix A C2) as (h1 & o & G & Q). rewrite G. cbn [bind]. destruct o as [cu|].
    + destruct Q as (h' & gc & d & g' & F & Q1 & Q2 & Q3 & Q4 & _ & lf & p & la & Q5 & Q6 & Q7 & Q8).
      rewrite (hleaf_some _ _ _ Q5). cbn [bind]. rewrite Q6. cbn [deref bind]. rewrite Q7. cbn [lv_layer bind].
      destruct (raise_ok (s_ph t) b (cu_n cu) (s_ph t la) PI (PI _)) as (R1 & R2 & R3); [lia|].
      destruct (pour_phantom_ok h1 cu _ b lf Q5 R1) as (ph2 & P1 & P2 & P3 & P4); [lia|]. rewrite P1. cbn [bind]. rewrite F. cbn [bind].
      apply (END _ _ _ g'); auto. apply (hmv_pmono _ _ _ _ _ _ _ Q8).
      intros c c' [->|[[-> ->]|[Hc Hp]]].
      * specialize (R2 c). specialize (P3 c). lia.
      * specialize (P3 (cu_n cu)). lia.
      * specialize (P4 _ Hp). specialize (R2 (cu_n cu)). destruct Hc as [->| ->]; lia.
    + destruct Q as (g' & Q1 & Q2 & Q3 & Q4 & Q5). cbn [bind]. apply (END _ _ _ g'); auto; [intros x []|]. apply (hmv_pmono _ _ _ _ _ _ _ Q5). intros c c' <-. lia.
Qed.

Theorem sstep_ok t g m l b o : sinv t g m l b -> sop_ok o -> b + 8 < HB ->
  exists t' g' m' e, sstep t o = Ok (t', e) /\ sinv t' g' m' (l ++ map to_upd e) (b + 4).
Proof.
  intros SI Ho HBb. destruct o as [i k ip|i k|j].
  - destruct Ho as [Hk ->]. now apply (put_ok t g m l b).
  - now apply (remove_ok t g m l b).
  - now apply (gc_ok t g m l b).
Qed.
Theorem sruns_ok : forall ops t g m l b, sinv t g m l b -> Forall sop_ok ops -> b + 4 * Z.of_nat (length ops) + 8 < HB ->
  exists t' g' m' e, sruns t ops = Ok (t', e) /\ sinv t' g' m' (l ++ map to_upd e) (b + 4 * Z.of_nat (length ops)).
Proof.
  induction ops as [|o ops IH]; intros t g m l b SI F HBb; cbn [sruns].
  - exists t, g, m, []. split; auto. cbn [map length]. rewrite app_nil_r. apply (weaken _ _ _ _ b); [auto|lia].
  - inversion F as [|? ? F1 F2]; subst. cbn [length] in *. destruct (sstep_ok t g m l b o SI F1) as (t1 & g1 & m1 & e1 & E1 & S1); [lia|]. rewrite E1. cbn [bind].
    destruct (IH t1 g1 m1 _ (b + 4) S1 F2) as (t2 & g2 & m2 & e2 & E2 & S2); [lia|]. rewrite E2. cbn [bind]. exists t2, g2, m2, (e1 ++ e2). split; auto. rewrite map_app, app_assoc. apply (weaken _ _ _ _ _ _ S2). lia.
Qed.
Lemma s_init_ok clock b : (forall i, 0 <= clock i <= b) -> sinv (s_init clock) g_init map_empty [] b.
Proof.
  intros H. constructor.
  - exact init_ok.
  - exact H.
  - intros a. cbn. specialize (H 0%nat). lia.
  - discriminate.
  - intros e [].
  - intros k _. reflexivity.
  - intros [|? ?] ? ? ? ? E; discriminate.
  - intros [|? ?] ? ? E; discriminate.
Qed.

Theorem sequential clock ops : (forall i, 0 <= clock i < 2 ^ 62) -> Forall sop_ok ops -> 4 * Z.of_nat (length ops) + 8 < 2 ^ 62 ->
  exists t es, sruns (s_init clock) ops = Ok (t, es) /\ ts_increase (map to_upd es) /\ prev_names (map to_upd es) /\
    forall k, bytes_ok k -> tree_get (t_heap (s_table t)) (t_root (s_table t)) k = Ok (newest k (map to_upd es)).
Proof.
  intros A B C. destruct (sruns_ok ops (s_init clock) g_init map_empty [] (2 ^ 62)) as (t & g & m & e & E & S); auto.
  - apply s_init_ok. intros i. specialize (A i). lia.
  - unfold HB. change (2 ^ 63) with (2 ^ 62 + 2 ^ 62). lia.
  - exists t, e. split; auto. split; [apply S|]. split; [apply S|]. intros k Hk. destruct (si_rep _ _ _ _ _ S) as [R1 R2 R3 R4]. destruct (tree_get_ok _ _ R1 k _ Hk R2) as (o & G1 & G2). rewrite G1. f_equal.
    assert (EO : o = m k). { destruct o as [v|]; [symmetry; apply R4, G2; auto|]. destruct (m k) as [v|] eqn:G; auto. apply R4, G2 in G. auto. }
    rewrite EO. cbn [app] in S. rewrite (newest_latest k _ (si_inc _ _ _ _ _ S)). pose proof (si_know _ _ _ _ _ S k Hk) as K. destruct (latest k (map to_upd e)) as [a|]; auto. destruct (u_rem a); [tauto|auto].
Qed.
