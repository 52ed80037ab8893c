(* Output buffers. *)
From Verif Require Import Lib M_Kvio Spec_Kvio.

Definition KInv (kv : kvout) (acc : Z) : Prop := 0 < kcap kv < 2 ^ 32 /\ 0 <= kv_n kv <= kcap kv /\ kv_n kv <= acc.
(* what a part of a run may do to the bytes on their way out *)
Definition Moves (kv : kvout) (os : list wres) (kv' : kvout) (os' : list wres) : Prop :=
  kv_fd kv' = kv_fd kv /\ kv_sent kv' ++ kv_held kv' = kv_sent kv ++ kv_held kv /\ no_failure os' /\ len (kv_sent kv) <= len (kv_sent kv') /\
  takes os - (len (kv_sent kv') - len (kv_sent kv)) <= takes os' /\ (kv_fd kv = false -> kv_sent kv' = kv_sent kv).
Definition Waits (kv : kvout) (os : list wres) : Prop := kv_fd kv = true /\ takes os < kv_n kv.

Lemma u32_id x : 0 <= x < 2 ^ 32 -> u32 x = x.
Proof. intros. apply Z.mod_small. lia. Qed.
Lemma held_len kv acc : KInv kv acc -> len (kv_held kv) = kv_n kv.
Proof. intros (A & B & C). unfold kv_held, len, kcap, len in *. rewrite firstn_length. lia. Qed.
Lemma takes_cons o os : takes (o :: os) = match o with WOk _ => 1 | _ => 0 end + takes os.
Proof. unfold takes. cbn [filter]. destruct o; rewrite ?len_cons; lia. Qed.
Lemma no_failure_cons o os : no_failure (o :: os) -> o <> WFail /\ no_failure os.
Proof. unfold no_failure. cbn. intuition. Qed.
Lemma firstn_add {A} a b (l : list A) : firstn a l ++ firstn b (skipn a l) = firstn (a + b) l.
Proof. revert l. induction a; intros l; cbn [firstn skipn Nat.add app]; auto. destruct l; cbn [app]; [now rewrite firstn_nil|]. f_equal. apply IHa. Qed.

Lemma flush_loop os : forall kv sent, no_failure os -> 0 <= kv_n kv <= kcap kv -> Z.of_nat sent <= kv_n kv -> kv_fd kv = true ->
  match kv_flush_loop os kv sent with
  | KOk (kv', os') => kv_buf kv' = kv_buf kv /\ kv_n kv' = 0 /\ kv_fd kv' = true /\ kv_sent kv' = kv_sent kv ++ firstn (Z.to_nat (kv_n kv) - sent) (skipn sent (kv_buf kv)) /\
    no_failure os' /\ takes os - (kv_n kv - Z.of_nat sent) <= takes os'
  | KErr KBlocked => takes os < kv_n kv - Z.of_nat sent
  | KErr _ => False
  end.
Proof.
  induction os as [|o os IH]; intros kv sent NF HN HS HF; cbn [kv_flush_loop].
  - destruct (kv_n kv <=? Z.of_nat sent) eqn:E.
    + cbn. replace (Z.to_nat (kv_n kv) - sent)%nat with O by lia. cbn. rewrite app_nil_r. repeat split; auto. lia.
    + unfold takes. cbn. lia.
  - destruct (kv_n kv <=? Z.of_nat sent) eqn:E.
    + cbn. replace (Z.to_nat (kv_n kv) - sent)%nat with O by lia. cbn. rewrite app_nil_r. repeat split; auto. lia.
    + apply no_failure_cons in NF as [NO NF]. rewrite takes_cons. destruct o; [| |congruence].
      * cbv zeta. set (cc := Nat.max 1 (Nat.min k (Z.to_nat (kv_n kv) - sent))).
        assert (CC : (1 <= cc <= Z.to_nat (kv_n kv) - sent)%nat) by lia. clearbody cc.
        match goal with |- context [kv_flush_loop os ?x ?y] => specialize (IH x y NF); destruct (kv_flush_loop os x y) as [[kv' os']|[]] end;
          cbn [kv_n kv_buf kv_fd kv_sent kcap] in IH; unfold kcap in *; cbn [kv_buf] in IH; try lia.
        destruct IH as (A & B & C & D & F & G); try lia; auto. repeat split; auto; try lia.
        rewrite D, <- app_assoc. f_equal. rewrite Nat.add_comm.
        assert (SS : forall a b (l : list Z), skipn (a + b) l = skipn a (skipn b l)). { intros a b. revert a. induction b; intros a l; [now rewrite Nat.add_0_r|]. rewrite Nat.add_succ_r. destruct l; cbn [skipn]; [now rewrite skipn_nil|]. apply IHb. }
        rewrite SS, firstn_add. f_equal. lia.
      * specialize (IH kv sent NF HN HS HF). destruct (kv_flush_loop os kv sent) as [[kv' os']|[]]; auto.
Qed.
Lemma flush_ok os kv acc : no_failure os -> KInv kv acc -> kv_fd kv = true ->
  match kvflush os kv with
  | KOk (kv', os') => Moves kv os kv' os' /\ kv_buf kv' = kv_buf kv /\ kv_n kv' = 0
  | KErr KBlocked => Waits kv os
  | KErr _ => False
  end.
Proof.
  intros NF I HF. unfold kvflush. rewrite HF. pose proof (held_len _ _ I) as HL. destruct I as (A & B & C). pose proof (flush_loop os kv 0 NF B ltac:(lia) HF) as X.
  destruct (kv_flush_loop os kv 0) as [[kv' os']|[]]; auto; [|unfold Waits; split; auto; lia].
  destruct X as (X1 & X2 & X3 & X4 & X5 & X6). rewrite Nat.sub_0_r in X4. cbn [skipn] in X4. fold (kv_held kv) in X4.
  split; auto. unfold Moves. rewrite X3, HF. repeat split; auto; rewrite ?X4, ?len_app; try lia.
  - unfold kv_held at 2. rewrite X2. cbn. now rewrite app_nil_r.
Qed.
Lemma double_ok want : want <= 2 ^ 31 -> forall fuel cap, 0 < cap < 2 ^ 32 -> want <= cap * 2 ^ Z.of_nat fuel ->
  exists cap', kv_double fuel want cap = KOk cap' /\ want <= cap' /\ cap <= cap' < 2 ^ 32.
Proof.
  intros W. induction fuel as [|fuel IH]; intros cap C F; cbn [kv_double]; destruct (want <=? cap) eqn:E.
  - exists cap. repeat split; lia.
  - cbn in F. lia.
  - exists cap. repeat split; lia.
  - rewrite u32_id by lia. destruct (IH (cap * 2)) as (c & A & B & D).
    + lia.
    + rewrite Nat2Z.inj_succ, Z.pow_succ_r in F by lia. lia.
    + exists c. rewrite A. repeat split; lia.
Qed.
Lemma realloc_len junk cap b : 0 <= cap -> len (kv_realloc junk cap b) = cap.
Proof. intros. unfold kv_realloc. rewrite len_app, len_map. unfold len. rewrite firstn_length, seq_length. lia. Qed.
Lemma realloc_first junk cap b n : Z.of_nat n <= len b <= cap -> firstn n (kv_realloc junk cap b) = firstn n b.
Proof. intros. unfold kv_realloc, len in *. rewrite firstn_app, firstn_firstn, firstn_length. replace (n - _)%nat with O by lia. rewrite Nat.min_l by lia. cbn. now rewrite app_nil_r. Qed.
Lemma Moves_refl kv os : no_failure os -> Moves kv os kv os.
Proof. intros. unfold Moves. repeat split; auto; lia. Qed.
Lemma Moves_trans kv os kv1 os1 kv2 os2 : Moves kv os kv1 os1 -> Moves kv1 os1 kv2 os2 -> Moves kv os kv2 os2.
Proof.
  intros (A1 & A2 & A3 & A4 & A5 & A6) (B1 & B2 & B3 & B4 & B5 & B6). unfold Moves. repeat split; auto; try congruence; try lia.
  intros F. rewrite B6 by congruence. auto.
Qed.
Lemma grow_ok junk os want kv acc : no_failure os -> KInv kv acc -> 0 <= want -> (if want =? 0 then kcap kv + 1 else want) <= 2 ^ 31 ->
  match kv_grow junk os want kv with
  | KOk (kv', os') => Moves kv os kv' os' /\ KInv kv' acc /\ kv_n kv' <= kv_n kv /\ (if want =? 0 then kcap kv + 1 else want) <= kcap kv'
  | KErr KBlocked => Waits kv os
  | KErr _ => False
  end.
Proof.
  intros NF I W0 W1. unfold kv_grow.
  assert (X : match (if kv_fd kv then kvflush os kv else KOk (kv, os)) with
     | KOk (kv', os') => Moves kv os kv' os' /\ kv_buf kv' = kv_buf kv /\ 0 <= kv_n kv' <= kv_n kv | KErr KBlocked => Waits kv os | KErr _ => False end).
  { destruct I as (I1 & I2 & I3). destruct (kv_fd kv) eqn:F.
    - pose proof (flush_ok os kv acc NF (conj I1 (conj I2 I3)) F) as X. destruct (kvflush os kv) as [[kv' os']|[]]; auto. destruct X as (A & B & C). split; [exact A|]. split; [exact B|lia].
    - split; [now apply Moves_refl|]. split; auto. lia. }
  destruct (if kv_fd kv then _ else _) as [[kv1 os1]|[]]; auto. destruct X as (M & B & N). destruct I as (I1 & I2 & I3).
  assert (K : kcap kv1 = kcap kv) by (unfold kcap; now rewrite B). rewrite K.
  assert (WW : (if want =? 0 then u32 (kcap kv + 1) else want) = (if want =? 0 then kcap kv + 1 else want)) by (destruct (want =? 0) eqn:E; auto; apply u32_id; lia).
  rewrite WW. destruct (double_ok _ W1 33 (kcap kv)) as (cap & C1 & C2 & C3); [lia|lia|]. rewrite C1.
  assert (L : kcap (MkKv (kv_fd kv1) (kv_realloc junk cap (kv_buf kv1)) (kv_n kv1) (kv_sent kv1)) = cap) by (unfold kcap; cbn [kv_buf]; apply realloc_len; lia).
  split; [|split; [|split]]; [| |cbn; lia|lia].
  - eapply Moves_trans; [exact M|]. destruct M as (_ & _ & M & _). unfold Moves. cbn [kv_fd kv_sent]. repeat split; auto; try lia.
    f_equal. unfold kv_held. cbn [kv_n kv_buf]. apply realloc_first. unfold kcap in *. lia.
  - unfold KInv. rewrite L. cbn [kv_n]. lia.
Qed.
Lemma store_ok s kv acc : KInv kv acc -> kv_n kv + len s <= kcap kv -> kv_n kv + len s <= acc ->
  exists kv', kv_store s kv = KOk kv' /\ let kv2 := kv_set_n (u32 (kv_n kv' + len s)) kv' in
    KInv kv2 acc /\ kv_fd kv2 = kv_fd kv /\ kv_sent kv2 = kv_sent kv /\ kv_held kv2 = kv_held kv ++ s.
Proof.
  intros (A & B & C) F G. unfold kv_store. replace (kv_n kv + len s <=? kcap kv) with true by lia. eexists. split; [reflexivity|]. cbv zeta.
  unfold kv_set_n. cbn [kv_n kv_buf kv_fd kv_sent]. pose proof (len_nonneg s). rewrite u32_id by lia.
  assert (L : len (firstn (Z.to_nat (kv_n kv)) (kv_buf kv) ++ s ++ skipn (Z.to_nat (kv_n kv) + length s) (kv_buf kv)) = kcap kv).
  { rewrite !len_app. unfold kcap, len in *. rewrite firstn_length, skipn_length. lia. }
  split; [|split; [|split]]; auto.
  - unfold KInv. match goal with |- context [kcap ?x] => change (kcap x) with (len (kv_buf x)) end. cbn [kv_buf kv_n]. rewrite L. lia.
  - unfold kv_held. cbn [kv_n kv_buf]. unfold kcap, len in *. rewrite app_assoc, firstn_app, firstn_all2 by (rewrite app_length, firstn_length; lia).
    replace (_ - _)%nat with O by (rewrite app_length, firstn_length; lia). cbn. now rewrite app_nil_r.
Qed.
Definition acc_after (acc : Z) (o : kop) : Z := match o with KFlush | KReset => 0 | _ => acc + op_space o end.
Lemma put_ok s kv os kv1 os1 acc acc1 : Moves kv os kv1 os1 -> KInv kv1 acc -> acc <= acc1 -> kv_n kv1 + len s <= kcap kv1 -> kv_n kv1 + len s <= acc1 ->
  exists kv', kv_store s kv1 = KOk kv' /\ let kv2 := kv_set_n (u32 (kv_n kv' + len s)) kv' in
    KInv kv2 acc1 /\ kv_fd kv2 = kv_fd kv /\ no_failure os1 /\ kv_sent kv2 ++ kv_held kv2 = (kv_sent kv ++ kv_held kv) ++ s /\ len (kv_sent kv) <= len (kv_sent kv2) /\
    takes os - (len (kv_sent kv2) - len (kv_sent kv)) <= takes os1 /\ (kv_fd kv = false -> kv_sent kv2 = kv_sent kv).
Proof.
  intros M I L1 L2 L3. destruct (store_ok s kv1 acc1) as (kv' & A & B); auto. { unfold KInv in *. lia. }
  cbv zeta in *. destruct B as (B1 & B2 & B3 & B4). destruct M as (M1 & M2 & M3 & M4 & M5 & M6).
  exists kv'. split; auto. split; auto. rewrite B2, B3, B4, app_assoc, M2. repeat split; auto.
Qed.
(* what one operation does *)
Lemma step_ok junk os o kv acc : no_failure os -> KInv kv acc -> op_fits o -> acc_after acc o <= 2 ^ 31 -> (if kv_fd kv then o <> KReset else o <> KFlush) ->
  match kstep junk os o kv with
  | KOk (kv', os') => KInv kv' (acc_after acc o) /\ kv_fd kv' = kv_fd kv /\ no_failure os' /\
    (o <> KReset -> kv_sent kv' ++ kv_held kv' = (kv_sent kv ++ kv_held kv) ++ op_bytes o) /\ len (kv_sent kv) <= len (kv_sent kv') /\
    takes os - (len (kv_sent kv') - len (kv_sent kv)) <= takes os' /\ (kv_fd kv = false -> kv_sent kv' = kv_sent kv) /\ (o = KFlush \/ o = KReset -> kv_held kv' = [])
  | KErr KBlocked => Waits kv os
  | KErr _ => False
  end.
Proof.
  intros NF I FI SP FD. pose proof I as (I1 & I2 & I3). destruct o as [c|m s|s| |]; cbn [kstep op_fits acc_after op_space op_bytes] in *.
  - unfold kv_append.
    assert (X : match (if kv_n kv =? kcap kv then kv_grow junk os 0 kv else KOk (kv, os)) with
       | KOk (kv', os') => Moves kv os kv' os' /\ KInv kv' acc /\ kv_n kv' <= kv_n kv /\ kv_n kv' + 1 <= kcap kv' | KErr KBlocked => Waits kv os | KErr _ => False end).
    { destruct (kv_n kv =? kcap kv) eqn:E.
      - pose proof (grow_ok junk os 0 kv acc NF I ltac:(lia) ltac:(cbn; lia)) as X. destruct (kv_grow junk os 0 kv) as [[kv' os']|[]]; auto. cbn in X. destruct X as (A & B & C & D). split; [exact A|]. split; [exact B|]. unfold KInv in B; lia.
      - split; [now apply Moves_refl|]. split; auto. lia. }
    destruct (if kv_n kv =? kcap kv then _ else _) as [[kv1 os1]|[]]; auto. destruct X as (A & B & C & D).
    destruct (put_ok [c] kv os kv1 os1 acc (acc + 1) A B) as (kv' & E & F); try (cbn; lia). rewrite E. cbv zeta in F. change (len [c]) with 1 in F.
    destruct F as (F1 & F2 & F3 & F4 & F5 & F6 & F7). split; [exact F1|]. repeat (split; [now auto|]). intros [Q|Q]; discriminate.
  - unfold kv_reserve. cbv zeta. pose proof (len_nonneg s). rewrite u32_id by lia.
    assert (X : match (if kcap kv <? kv_n kv + m then kv_grow junk os (kv_n kv + m) kv else KOk (kv, os)) with
       | KOk (kv', os') => Moves kv os kv' os' /\ KInv kv' acc /\ kv_n kv' <= kv_n kv /\ kv_n kv' + m <= kcap kv' | KErr KBlocked => Waits kv os | KErr _ => False end).
    { destruct (kcap kv <? kv_n kv + m) eqn:E.
      - assert (Q : (kv_n kv + m =? 0) = false) by lia.
        pose proof (grow_ok junk os (kv_n kv + m) kv acc NF I ltac:(lia)) as X. rewrite Q in X. specialize (X ltac:(lia)). destruct (kv_grow junk os _ kv) as [[kv' os']|[]]; auto. destruct X as (A & B & C & D). split; [exact A|]. split; [exact B|]. lia.
      - split; [now apply Moves_refl|]. split; auto. lia. }
    destruct (if kcap kv <? kv_n kv + m then _ else _) as [[kv1 os1]|[]]; auto. destruct X as (A & B & C & D).
    destruct (put_ok s kv os kv1 os1 acc (acc + m) A B) as (kv' & E & F); try (unfold KInv in B; lia). rewrite E. cbv zeta in F.
    destruct F as (F1 & F2 & F3 & F4 & F5 & F6 & F7). split; [exact F1|]. repeat (split; [now auto|]). intros [Q|Q]; discriminate.
  - unfold kvwrite. pose proof (len_nonneg s). rewrite u32_id by lia.
    assert (X : match (if (kcap kv <? kv_n kv + len s) && kv_fd kv then kvflush os kv else KOk (kv, os)) with
       | KOk (kv', os') => Moves kv os kv' os' /\ KInv kv' acc /\ kv_n kv' <= kv_n kv | KErr KBlocked => Waits kv os | KErr _ => False end).
    { destruct (_ && _) eqn:E.
      - pose proof (flush_ok os kv acc NF I ltac:(apply andb_true_iff in E; apply E)) as X. destruct (kvflush os kv) as [[kv' os']|[]]; auto. destruct X as (A & B & C). split; auto. unfold KInv, kcap in *. rewrite B, C. lia.
      - split; [now apply Moves_refl|]. split; auto. lia. }
    destruct (if _ && _ then _ else _) as [[kv1 os1]|[]]; auto. destruct X as (A & B & C). pose proof B as (B1 & B2 & B3). rewrite u32_id by lia.
    assert (X : match (if kcap kv1 <? kv_n kv1 + len s then kv_grow junk os1 (kv_n kv1 + len s) kv1 else KOk (kv1, os1)) with
       | KOk (kv', os') => Moves kv os kv' os' /\ KInv kv' acc /\ kv_n kv' <= kv_n kv /\ kv_n kv' + len s <= kcap kv' | KErr KBlocked => Waits kv os | KErr _ => False end).
    { destruct (kcap kv1 <? kv_n kv1 + len s) eqn:E.
      - assert (Q : (kv_n kv1 + len s =? 0) = false) by lia.
        pose proof (grow_ok junk os1 (kv_n kv1 + len s) kv1 acc ltac:(apply A) B ltac:(lia)) as X. rewrite Q in X. specialize (X ltac:(lia)). destruct (kv_grow junk os1 _ kv1) as [[kv' os']|[]]; auto.
        + destruct X as (X1 & X2 & X3 & X4). split; [eapply Moves_trans; eauto|]. split; [exact X2|]. lia.
        + destruct X as [X1 X2]. destruct A as (A1 & A2 & A3 & A4 & A5 & A6). split; [congruence|].
          pose proof (f_equal (@length Z) A2) as A7. rewrite !app_length in A7. pose proof (held_len _ _ I). pose proof (held_len _ _ B). unfold len in *. lia.
      - split; [auto|]. split; auto. lia. }
    destruct (if kcap kv1 <? _ then _ else _) as [[kv2 os2]|[]]; auto. destruct X as (X1 & X2 & X3 & X4).
    destruct (put_ok s kv os kv2 os2 acc (acc + len s) X1 X2) as (kv' & E & F); try (unfold KInv in X2; lia). rewrite E. cbv zeta in F.
    destruct F as (F1 & F2 & F3 & F4 & F5 & F6 & F7). split; [exact F1|]. repeat (split; [now auto|]). intros [Q|Q]; discriminate.
  - destruct (kv_fd kv) eqn:F; [|congruence]. pose proof (flush_ok os kv acc NF I F) as X. destruct (kvflush os kv) as [[kv' os']|[]]; auto.
    destruct X as ((A1 & A2 & A3 & A4 & A5 & A6) & B & C). unfold KInv, kcap in *. rewrite B, C, A1, app_nil_r. repeat split; auto; try lia.
    + intros _. unfold kv_held. now rewrite C.
  - destruct (kv_fd kv) eqn:F; [congruence|]. unfold kvout_reset. rewrite F. unfold kv_set_n, KInv, kcap in *. cbn [kv_buf kv_n kv_fd kv_sent]. repeat split; auto; try lia. intros Q. congruence.
Qed.
Lemma run_ok junk : forall l os kv acc, no_failure os -> KInv kv acc -> Forall op_fits l -> spaced acc l -> kv_fd kv = true -> ~ In KReset l ->
  match krun junk os l kv with
  | KOk (kv', os') => kv_sent kv' ++ kv_held kv' = (kv_sent kv ++ kv_held kv) ++ written l /\ (last l KReset = KFlush -> kv_held kv' = [])
  | KErr KBlocked => takes os + len (kv_sent kv) < len ((kv_sent kv ++ kv_held kv) ++ written l)
  | KErr _ => False
  end.
Proof.
  induction l as [|o l IH]; intros os kv acc NF I FI SP FD NR; cbn [krun].
  - cbn. rewrite app_nil_r. split; auto. discriminate.
  - inversion FI; subst. cbn [spaced] in SP. fold (acc_after acc o) in SP. destruct SP as [SP1 SP2].
    pose proof (step_ok junk os o kv acc NF I H1 SP1) as X. rewrite FD in X. specialize (X ltac:(intros ->; apply NR; now left)).
    destruct (kstep junk os o kv) as [[kv1 os1]|[]]; auto.
    + destruct X as (X1 & X2 & X3 & X4 & X5 & X6 & X7 & X8). specialize (X4 ltac:(intros ->; apply NR; now left)).
      specialize (IH os1 kv1 _ X3 X1 H2 SP2 ltac:(congruence) ltac:(intros Q; apply NR; now right)).
      cbn [written flat_map]. fold (written l). rewrite app_assoc, <- X4.
      assert (LL : last (o :: l) KReset = KFlush -> (l = [] /\ o = KFlush) \/ last l KReset = KFlush) by (destruct l; cbn; auto).
      destruct l as [|o2 l].
      * cbn in *. rewrite app_nil_r. split; auto.
      * destruct (krun junk os1 (o2 :: l) kv1) as [[kv2 os2]|[]]; auto.
        lia.
    + destruct X as [Q1 Q2]. rewrite !len_app. pose proof (held_len _ _ I). pose proof (len_nonneg (written (o :: l))). lia.
Qed.
Lemma run_buf_ok junk : forall l os kv acc, no_failure os -> KInv kv acc -> Forall op_fits l -> spaced acc l -> kv_fd kv = false -> ~ In KFlush l -> kv_sent kv = [] ->
  exists kv' os', krun junk os l kv = KOk (kv', os') /\ kv_held kv' = since_reset (kv_held kv) l /\ kv_sent kv' = [].
Proof.
  induction l as [|o l IH]; intros os kv acc NF I FI SP FD NR SE; cbn [krun].
  - exists kv, os. auto.
  - inversion FI; subst. cbn [spaced] in SP. fold (acc_after acc o) in SP. destruct SP as [SP1 SP2].
    pose proof (step_ok junk os o kv acc NF I H1 SP1) as X. rewrite FD in X. specialize (X ltac:(intros ->; apply NR; now left)).
    destruct (kstep junk os o kv) as [[kv1 os1]|[]]; try contradiction.
    + destruct X as (X1 & X2 & X3 & X4 & X5 & X6 & X7 & X8). specialize (X7 eq_refl). rewrite SE in X7.
      destruct (IH os1 kv1 _ X3 X1 H2 SP2 ltac:(congruence) ltac:(intros Q; apply NR; now right) X7) as (kv' & os' & A & B & C).
      exists kv', os'. split; auto. split; auto. rewrite B. rewrite SE, X7 in X4. cbn [app] in X4.
      destruct o; cbn [since_reset]; try (rewrite X4 by discriminate; reflexivity). rewrite X8 by auto. reflexivity.
    + destruct X as [Q1 Q2]. congruence.
Qed.
Lemma kv_transparent junk os mem l : 0 < len mem < 2 ^ 32 -> no_failure os -> Forall op_fits l -> spaced 0 l -> ~ In KReset l ->
  match krun junk os l (new_kvout true mem) with
  | KOk (kv, _) => kv_sent kv ++ kv_held kv = written l /\ (last l KReset = KFlush -> kv_sent kv = written l)
  | KErr e => e = KBlocked /\ takes os < len (written l)
  end.
Proof.
  intros M NF FI SP NR. assert (I : KInv (new_kvout true mem) 0) by (unfold KInv, kcap; cbn; lia).
  pose proof (run_ok junk l os _ 0 NF I FI SP eq_refl NR) as X. destruct (krun junk os l (new_kvout true mem)) as [[kv' os']|[]]; try contradiction.
  - destruct X as [A B]. cbn in A. split; auto. intros Q. rewrite B, app_nil_r in A by auto. auto.
  - cbn in X. change (len (@nil Z)) with 0 in X. split; auto. lia.
Qed.
Lemma kv_buffer junk mem l : 0 < len mem < 2 ^ 32 -> Forall op_fits l -> spaced 0 l -> ~ In KFlush l ->
  exists kv os', krun junk [] l (new_kvout false mem) = KOk (kv, os') /\ kv_held kv = since_reset [] l /\ kv_sent kv = [].
Proof.
  intros M FI SP NR. assert (I : KInv (new_kvout false mem) 0) by (unfold KInv, kcap; cbn; lia).
  destruct (run_buf_ok junk l [] (new_kvout false mem) 0) as (kv & os & A); auto. { intros []. } exists kv, os. exact A.
Qed.
Lemma kv_error_witness : exists junk os mem l kv os', krun junk os l (new_kvout true mem) = KOk (kv, os') /\ Forall op_fits l /\ spaced 0 l /\ 0 < len mem < 2 ^ 32 /\ last l KReset = KFlush /\
  written l = [1; 2] /\ kv_sent kv = [1; 1; 2] /\ kv_held kv = [].
Proof.
  exists (fun _ => 0), [WOk 1; WFail; WOk 5], (repeat 0 4), [KWrite [1; 2]; KFlush; KFlush]. eexists. eexists. split; [vm_compute; reflexivity|].
  split; [repeat constructor|]. split; [vm_compute; intuition discriminate|]. split; [vm_compute; auto|]. repeat split.
Qed.
Lemma kv_size_witness : exists l, Forall op_fits l /\ forall junk, krun junk [] l (new_kvout false (repeat 0 256)) = KErr KBadWrite.
Proof.
  exists [KAppend 7; KWrite (repeat 0 (Z.to_nat (2 ^ 32 - 1)))]. split; [repeat constructor|]. intros junk.
  assert (L : len (repeat 0 (Z.to_nat (2 ^ 32 - 1))) = 2 ^ 32 - 1) by (rewrite len_repeat; lia).
  remember (repeat 0 (Z.to_nat (2 ^ 32 - 1))) as s eqn:Es. clear Es. cbn [krun].
  change (kstep junk [] (KAppend 7) (new_kvout false (repeat 0 256))) with (@KOk (kvout * list wres) (MkKv false (7 :: repeat 0 255) 1 [], [])). cbn iota beta.
  cbn [kstep]. unfold kvwrite. cbn [kv_n kv_fd]. rewrite L. rewrite andb_false_r. cbn [kv_n].
  change (u32 (1 + (2 ^ 32 - 1))) with 0. change (kcap (MkKv false (7 :: repeat 0 255) 1 [])) with 256. change (256 <? 0) with false. cbn iota.
  unfold kv_store. cbn [kv_n]. rewrite L. reflexivity.
Qed.
