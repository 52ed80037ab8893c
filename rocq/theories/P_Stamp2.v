(* Timestamps increase when operations run one at a time. *)
From Verif Require Import Lib Spec_String Spec_Map Spec_Stamp M_Key P_Key M_Permuter M_Search M_Circular M_Tree M_Stamp P_Tree1 P_Tree2 P_Tree3 P_Tree4 P_Tree4b P_Tree6 P_Tree6d P_Tree6f P_Tree7 P_Tree7d P_Tree7e P_Tree8 P_Tree8b P_Tree9 P_Stamp1.


(* What the state knows about the latest update of each key. *)
Definition knows (h : heap) (g : ghost) (m : kmap) (ph : phantoms) (l : list upd_rec) : Prop :=
  forall k, bytes_ok k -> match latest k l with
    | None => m k = None
    | Some a => if u_rem a then m k = None /\ forall b, home h g k b -> u_ts a < ph b else m k = Some (u_ts a)
    end.
Record sinv (t : sstate) (g : ghost) (m : kmap) (l : list upd_rec) (b : Z) : Prop := {
  si_rep : trep (s_table t) g m;
  si_clock : forall i, 0 <= s_clock t i <= b;
  si_ph : ph_in (s_ph t) b;
  si_row : forall k v, m k = Some v -> 0 <= v <= b;
  si_tops : tops l;
  si_know : knows (t_heap (s_table t)) g m (s_ph t) l;
  si_inc : ts_increase l;
  si_prev : prev_names l
}.

(* Phantom epochs follow the keys. *)
Definition pmono (ph : phantoms) (h : heap) (g : ghost) (ph' : phantoms) (h' : heap) (g' : ghost) : Prop :=
  forall k b', bytes_ok k -> home h' g' k b' -> exists b, home h g k b /\ ph b <= ph' b'.
Lemma hmv_pmono (R : nat -> nat -> Prop) ph ph' h g h' g' : hmv R h g h' g' -> (forall b b', R b b' -> ph b <= ph' b') -> pmono ph h g ph' h' g'.
Proof. intros A B k b' Hk H. destruct (A k b' Hk H) as (b & H0 & R0). eauto. Qed.
Lemma pmono_trans ph0 h0 g0 ph1 h1 g1 ph2 h2 g2 : pmono ph0 h0 g0 ph1 h1 g1 -> pmono ph1 h1 g1 ph2 h2 g2 -> pmono ph0 h0 g0 ph2 h2 g2.
Proof. intros A B k b2 Hk H. destruct (B k b2 Hk H) as (b1 & H1 & L1). destruct (A k b1 Hk H1) as (b0 & H0 & L0). exists b0. split; auto. lia. Qed.

Lemma sinv_quiet t g m l b t' g' : sinv t g m l b -> trep (s_table t') g' m -> s_clock t' = s_clock t -> ph_in (s_ph t') b ->
  pmono (s_ph t) (t_heap (s_table t)) g (s_ph t') (t_heap (s_table t')) g' -> sinv t' g' m l b.
Proof.
  intros [A B C D E F G H] T K P M. constructor; auto.
  - now rewrite K.
  - intros k Hk. specialize (F k Hk). destruct (latest k l) as [a|]; auto. destruct (u_rem a); auto. destruct F as [F1 F2]. split; auto.
    intros b' Hb'. destruct (M k b' Hk Hb') as (b0 & Q1 & Q2). specialize (F2 b0 Q1). lia.
Qed.
Lemma sinv_event t g m l b t' g' e b' : sinv t g m l b -> b <= b' -> trep (s_table t') g' (map_set m (u_key e) (if u_rem e then None else Some (u_ts e))) ->
  (forall i, 0 <= s_clock t' i <= b') -> ph_in (s_ph t') b' -> 0 <= u_ts e <= b' ->
  pmono (s_ph t) (t_heap (s_table t)) g (s_ph t') (t_heap (s_table t')) g' ->
  (u_rem e = true -> forall c, home (t_heap (s_table t')) g' (u_key e) c -> u_ts e < s_ph t' c) ->
  (forall a, latest (u_key e) l = Some a -> u_ts a < u_ts e) ->
  u_prev e = match latest (u_key e) l with Some a => if u_rem a then 0 else u_ts a | None => 0 end ->
  sinv t' g' (map_set m (u_key e) (if u_rem e then None else Some (u_ts e))) (l ++ [e]) b'.
Proof.
  intros [A B C D E F G H] LE T K P V M R N1 N2. destruct (event_lists l e G H E N1 N2) as (X1 & X2 & X3). constructor; auto.
  - intros k v Q. destruct (list_eq_dec Z.eq_dec k (u_key e)) as [->|NE].
    + rewrite map_set_same in Q. destruct (u_rem e); [discriminate|]. inversion Q; subst. auto.
    + rewrite map_set_other in Q by auto. specialize (D k v Q). lia.
  - intros k Hk. rewrite latest_snoc. destruct (list_eq_dec Z.eq_dec (u_key e) k) as [<-|NE].
    + rewrite map_set_same. destruct (u_rem e); auto.
    + rewrite map_set_other by auto. specialize (F k Hk). destruct (latest k l) as [a|]; auto. destruct (u_rem a); auto. destruct F as [F1 F2]. split; auto.
      intros c Hc. destruct (M k c Hk Hc) as (b0 & Q1 & Q2). specialize (F2 b0 Q1). lia.
Qed.

Lemma find_locked_pmono fuel h root0 root ka h' cu g ph : find_locked fuel h root0 root ka = Ok (h', cu) -> pmono ph h g ph h' g.
Proof.
  intros E. pose proof (find_locked_leafs _ _ _ _ _ _ _ E) as LF. apply (hmv_pmono (fun b b' => b' = b)); [|intros b b' ->; lia]. apply hmv_leafs. intros m l H. apply LF. eauto.
Qed.
Lemma set_value_pmono h cu v h' g ph : cursor_set_value h cu v = Ok h' -> pmono ph h g ph h' g.
Proof.
  unfold cursor_set_value. destruct (deref (cu_p cu)) as [p|]; [|discriminate]. cbn [bind]. unfold hleaf, hget. destruct (hp_node h (cu_n cu)) as [[l|?]|] eqn:E; try discriminate. cbn [bind]. intros [= <-].
  apply (hmv_pmono (fun b b' => b' = b)); [|intros b b' ->; lia]. exact (hmv_hset _ _ _ _ _ E).
Qed.
Lemma finish_insert_pmono h cu h' g ph : finish_insert h cu = Ok h' -> pmono ph h g ph h' g.
Proof.
  unfold finish_insert. destruct (hleaf h (cu_n cu)) as [l|] eqn:E; [|discriminate]. cbn [bind]. destruct (deref (cu_p cu)) as [p|]; [|discriminate]. cbn [bind]. unfold ensure. destruct (_ =? p)%nat; [|discriminate]. cbn [bind]. intros [= <-].
  apply (hmv_pmono (fun b b' => b' = b)); [|intros b b' ->; lia]. unfold hleaf, hget in E. destruct (hp_node h (cu_n cu)) as [[l0|?]|] eqn:E0; try discriminate. exact (hmv_hset _ _ _ _ _ E0).
Qed.
Lemma pmono_refl ph h g : pmono ph h g ph h g.
Proof. intros k b _ H. exists b. split; auto. lia. Qed.

(* The two places where a leaf's phantom epoch goes to its predecessor. *)
Lemma pour_phantom_ok h cu ph b l : hp_node h (cu_n cu) = Some (NLeaf l) -> ph_in ph b -> b < HB ->
  exists ph', pour_phantom h cu ph = Ok ph' /\ ph_in ph' b /\ (forall c, ph c <= ph' c) /\
    (forall c, (if (0 <? perm_size (perm_remove W (lf_perm l) (cu_i cu)))%nat then None else lf_prev l) = Some c -> ph (cu_n cu) <= ph' c).
Proof.
  intros E P B. unfold pour_phantom. rewrite (hleaf_some _ _ _ E). cbn [bind]. eexists. split; [reflexivity|]. destruct (0 <? _)%nat.
  - split; [auto|]. split; [intros; lia|discriminate].
  - destruct (lf_prev l) as [pv|]; [|split; [auto|]; split; [intros; lia|discriminate]].
    destruct (raise_ok ph b pv (ph (cu_n cu)) P (P _) B) as (Q1 & Q2 & Q3). split; [auto|]. split; [auto|]. intros c [= <-]. exact Q3.
Qed.


Lemma set_clock_ok c i x b b' : (forall j, 0 <= c j <= b) -> b <= b' -> 0 <= x <= b' -> forall j, 0 <= set_clock c i x j <= b'.
Proof. intros A B C j. unfold set_clock. destruct (j =? i)%nat; auto. specialize (A j). lia. Qed.

Lemma weaken t g m l b b' : sinv t g m l b -> b <= b' -> sinv t g m l b'.
Proof.
  intros [A B C D E F G H] L. constructor; auto.
  - intros i. specialize (B i). lia.
  - intros a. specialize (C a). lia.
  - intros k v Q. specialize (D k v Q). lia.
Qed.

Lemma put_ok t g m l b i k : sinv t g m l b -> bytes_ok k -> b + 8 < HB ->
  exists t' g' m' e, sstep t (SPut i k false) = Ok (t', e) /\ sinv t' g' m' (l ++ map to_upd e) (b + 4).
Proof.
  intros SI Hk HBb. destruct (si_rep _ _ _ _ _ SI) as [_ _ _ _]. cbn [sstep].
  destruct (fix_root_ok _ g m (si_rep _ _ _ _ _ SI)) as (t1 & E1 & [A B C D] & EH & _). rewrite E1. cbn [bind].
  destruct (find_locked_ok k (t_root t1) g Hk (S (length k)) (t_heap t1) 0%nat k (key_make k) (t_root t1) A) as (h0 & cu0 & L0 & s0 & l0 & A1 & A2 & A3 & A4 & A5 & A6 & J); auto.
  { constructor. } { rewrite (proj2 (iv_l0 _ _ A)). apply key_make_rep. } { apply at_root_0. auto. }
  rewrite A1. cbn [bind].
  assert (H0 : home (t_heap t1) g k (cu_n cu0)).
  { destruct (find_locked_pmono _ _ _ _ _ _ _ g (fun a => Z.of_nat a) A1 k (cu_n cu0) Hk (located_home _ _ _ _ _ _ _ A2 Hk J)) as (x & X1 & X2).
    pose proof (find_locked_leafs _ _ _ _ _ _ _ A1) as LF. pose proof (located_home _ _ _ _ _ _ _ A2 Hk J) as (L & s & lx & Q1 & Q2 & Q3 & Q4 & Q5). destruct (proj2 (LF (cu_n cu0))) as (ly & Q6); [eauto|]. exists L, s, ly. auto. }
  destruct (find_insert_ok _ _ k (t_root t1) (S (length k)) A Hk B) as (h1 & cu & f & F1 & F2); [lia|]. rewrite F1. cbn [bind].
  set (ph1 := inherit (s_ph t) (hp_next (t_heap t1)) (hp_next h1) (cu_n cu0)).
  pose proof (si_ph _ _ _ _ _ SI) as PI. pose proof (inherit_ok _ _ (hp_next (t_heap t1)) (hp_next h1) (cu_n cu0) PI) as PI1. fold ph1 in PI1.
  pose proof (si_clock _ _ _ _ _ SI i) as CI. pose proof (si_know _ _ _ _ _ SI k Hk) as KN. rewrite <- EH in KN.
  assert (OLD : forall h g', pmono (s_ph t) (t_heap t1) g (s_ph t) h g' -> (forall k c, home h g' k c -> (c < hp_next (t_heap t1))%nat) -> pmono (s_ph t) (t_heap t1) g ph1 h g').
  { intros h g' M LT k' c Hk' Hc. destruct (M k' c Hk' Hc) as (c0 & Q1 & Q2). exists c0. split; auto. unfold ph1. rewrite inherit_old by eauto. auto. }
  unfold old_value. destruct f.
  - destruct F2 as (L & s & lf & p & v0 & G1 & G2 & G3 & G4 & G5 & G6 & G7).
    assert (EF : h1 = h0). { unfold find_insert in F1. rewrite A1 in F1. cbn [bind] in F1. destruct (negb (cu_state cu0 =? 0)); [now inversion F1|]. destruct (cu_p _); [destruct (make_new_layer _ _) as [[? ?]|]; discriminate|]. destruct (hleaf _ _); [|discriminate]. cbn [bind] in F1. match type of F1 with context[ensure ?x] => destruct (ensure x) as [?|]; [|discriminate] end. cbn [bind] in F1. destruct (_ && _); [discriminate|]. destruct (make_split _ _) as [[? ?]|]; discriminate. }
    destruct (replace_ok h1 g k cu L s lf p 0 G1 G4 Hk G5) as (_ & _ & _ & _ & _ & (w & H5 & H6) & _); [lia|].
    rewrite H5. cbn [bind]. set (ts := update_ts (s_clock t i) w).
    destruct (replace_ok h1 g k cu L s lf p ts G1 G4 Hk G5) as (h2 & I1 & I2 & I3 & I4 & _ & I7); [lia|]. rewrite I1. cbn [bind]. unfold finish. rewrite G6. cbn [Z.ltb Z.eqb Z.compare andb Pos.compare]. cbn [bind].
    apply G2, D in H6. pose proof (si_row _ _ _ _ _ SI k w H6) as WB. destruct (update_ts_ok _ _ _ CI WB HBb) as [U1 U2]. fold ts in U1, U2.
    exists (MkS (MkTable h2 (t_root t1) (t_gc t1 ++ [])) ph1 (set_clock (s_clock t) i ts)), g, (map_set m k (Some ts)), [MkEv k false ts w]. split; [reflexivity|].
    apply (sinv_event t g m l b _ g (MkUpd k false ts w) (b + 4)); cbn [s_table s_ph s_clock t_heap u_key u_rem u_ts u_prev]; auto; try lia.
    + constructor; cbn [t_heap t_root t_gc].
      * exact I2.
      * apply I4, G3, B.
      * rewrite app_nil_r. intros it Hit. destruct (C it Hit). split; auto.
      * intros k' v'. rewrite I7, G2, D. destruct (list_eq_dec Z.eq_dec k' k) as [->|N]; [rewrite map_set_same|rewrite map_set_other by auto].
        -- split; [intros [[_ ->]|[N _]]; auto; contradiction|intros [= ->]; auto].
        -- split; [intros [[N2 _]|[_ H]]; auto; contradiction|auto].
    + apply (set_clock_ok _ _ _ b); [apply (si_clock _ _ _ _ _ SI)|lia|lia].
    + intros a. specialize (PI1 a). lia.
    + rewrite <- EH. apply OLD.
      * apply (pmono_trans _ _ _ (s_ph t) h1 g); [rewrite EF; exact (find_locked_pmono _ _ _ _ _ _ _ _ _ A1)|exact (set_value_pmono _ _ _ _ _ _ I1)].
      * intros k' c Hc. pose proof (home_live _ _ _ _ I2 Hc) as Q. rewrite I3, EF, A5 in Q. exact Q.
    + intros a Ha. rewrite Ha in KN. destruct (u_rem a); [destruct KN; congruence|]. assert (u_ts a = w) by congruence. lia.
    + destruct (latest k l) as [a|]; [destruct (u_rem a); [destruct KN|]|]; congruence.
  - destruct F2 as (G1 & G2 & g1 & L & s & lf & p & G3 & G4 & G5 & (G7 & n0 & N1 & N2 & N3) & G6). cbn [bind].
    assert (EN : n0 = cu_n cu0) by exact (home_det _ _ _ _ _ A N1 H0). subst n0.
    assert (MK : m k = None) by (destruct (m k) as [x|] eqn:Q; auto; apply D in Q; destruct (G2 x Q)).
    set (ts := observe (s_clock t i) (ph1 (cu_n cu))). destruct (observe_ok _ _ _ CI (PI1 (cu_n cu)) HBb) as [U1 U2]. fold ts in U1, U2.
    assert (PE : ph1 (cu_n cu) = s_ph t (cu_n cu0)).
    { unfold ph1. destruct N2 as [->|N2]; [apply inherit_old; exact (home_live _ _ _ _ A N1)|]. apply inherit_new. split; auto. apply (iv_heap _ _ G3 _ _ (is_leaf _ _ _ _ _ _ _ _ G6)). }
    destruct (finish_ok h1 g1 k cu L s lf p ts G3 G6) as (h2 & h3 & I1 & I2 & I3 & I4 & I5 & I6).
    rewrite I1. cbn [bind]. unfold finish. rewrite G1. cbn [Z.ltb Z.eqb Z.compare andb Pos.compare Pos.eqb]. rewrite I2. cbn [bind].
    exists (MkS (MkTable h3 (t_root t1) (t_gc t1 ++ [])) ph1 (set_clock (s_clock t) i ts)), g1, (map_set m k (Some ts)), [MkEv k false ts 0]. split; [reflexivity|].
    pose proof (PI1 (cu_n cu)) as P0.
    apply (sinv_event t g m l b _ g1 (MkUpd k false ts 0) (b + 4)); cbn [s_table s_ph s_clock t_heap u_key u_rem u_ts u_prev]; auto; try lia.
    + constructor; cbn [t_heap t_root t_gc].
      * exact I3.
      * apply I5, G5, B.
      * rewrite app_nil_r. intros it Hit. destruct (C it Hit). split; auto.
      * intros k' v'. rewrite I6, G4, D. destruct (list_eq_dec Z.eq_dec k' k) as [->|N]; [rewrite map_set_same|rewrite map_set_other by auto].
        -- split; [intros [[_ ->]|[N _]]; auto; contradiction|intros [= ->]; auto].
        -- split; [intros [[N2' _]|[_ H]]; auto; contradiction|auto].
    + apply (set_clock_ok _ _ _ b); [apply (si_clock _ _ _ _ _ SI)|lia|lia].
    + intros a. specialize (PI1 a). lia.
    + rewrite <- EH. apply (pmono_trans _ _ _ ph1 h1 g1); [|apply (pmono_trans _ _ _ ph1 h2 g1); [exact (set_value_pmono _ _ _ _ _ _ I1)|exact (finish_insert_pmono _ _ _ _ _ I2)]].
      intros k' c Hk' Hc. destruct (N3 k' c Hk' Hc) as (c0 & Q1 & Q2). exists c0. split; auto. destruct Q2 as [->|[-> Q2]].
      * unfold ph1. rewrite inherit_old by exact (home_live _ _ _ _ A Q1). lia.
      * unfold ph1. rewrite inherit_new; [lia|]. split; auto. exact (home_live _ _ _ _ G3 Hc).
    + intros a Ha. rewrite Ha in KN. destruct (u_rem a); [destruct KN as [_ KN]; specialize (KN _ H0); lia|congruence].
    + destruct (latest k l) as [a|]; [destruct (u_rem a)|]; congruence.
Qed.
