(* The log buffer: crashes, the order of the waiting list, progress. *)
From Verif Require Import Lib M_Key P_Key M_Circular P_Circular M_Msgpack M_Bag M_Log Spec_Log M_Logfile P_Log1 P_Log2 P_Log3 P_Log4 M_Logset M_Logbuf Spec_Logbuf P_Logbuf1 P_Logbuf2 P_Logbuf3 P_Logbuf4.

Lemma finv_run n : forall l s ws es es1 es0 s', binv n s ws es -> finv s es es1 es0 -> brun n s l = Ok s' ->
  exists ws' new, binv n s' ws' (es ++ new) /\ finv s' (es ++ new) es1 es0 /\ tagged (b_ep s) new = map tag (returned n s l) /\ (pend_ok s -> Forall act_ok l -> pend_ok s' /\ Forall entry_ok new).
Proof.
  induction l as [|a l IH]; intros s ws es es1 es0 s' V F E; cbn [brun returned] in *.
  - injection E as <-. exists ws, []. rewrite app_nil_r. auto.
  - pose proof (bstep_ok n s ws es a V) as B. destruct (bstep n s a) as [| |s1] eqn:Bs; try discriminate. destruct B as (ws1 & new1 & K).
    destruct (IH s1 ws1 _ es1 es0 s' (k_inv _ _ _ _ _ _ _ _ K) (finv_step _ _ _ _ _ _ _ _ _ _ V K Bs F) E) as (ws2 & new2 & V2 & F2 & T2 & P2).
    exists ws2, (new1 ++ new2). rewrite app_assoc. split; auto. split; auto. split.
    + rewrite tagged_app, map_app, (k_ret _ _ _ _ _ _ _ _ K). f_equal. rewrite <- T2. f_equal.
      pose proof (v_ep _ _ _ _ (k_inv _ _ _ _ _ _ _ _ K)) as Ee. rewrite epoch_after_app, (v_ep _ _ _ _ V) in Ee. exact Ee.
    + intros P Fa. inversion Fa; subst. destruct (ret_ok _ _ _ _ _ _ _ _ V K P H1) as (Q1 & Q2 & _). destruct (P2 Q1 H2) as (Q3 & Q4). split; auto. apply Forall_app; auto.
Qed.

Lemma prefix_firstn {A} (l a b : list A) : l = a ++ b -> a = firstn (length a) l.
Proof. intros ->. rewrite firstn_app, Nat.sub_diag, firstn_all. cbn. now rewrite app_nil_r. Qed.
Lemma file_len_mono l : forall a b, (a <= b)%nat -> (length (log_file (firstn a l)) <= length (log_file (firstn b l)))%nat.
Proof. intros a b H. replace (firstn a l) with (firstn a (firstn b l)) by (rewrite firstn_firstn; f_equal; lia). rewrite <- (firstn_skipn a (firstn b l)) at 2. unfold log_file. rewrite map_app, concat_app, app_length. lia. Qed.
Lemma map_some_inj {A} (a b : list A) : map Some a = map Some b -> a = b.
Proof. revert b. induction a as [|x a IH]; intros [|y b] H; try discriminate; auto. cbn in H. injection H as -> H. f_equal. auto. Qed.
Lemma firstn_len_le {A} (n : nat) (l : list A) : (length (firstn n l) <= n)%nat. Proof. rewrite firstn_length. lia. Qed.
(* The file and a part of the bytes that follow read as the entries of the file and some of those that follow. *)
Lemma disk_reads bytes file es ef er n : holds bytes es -> holds file ef -> es = ef ++ er -> (exists rest, bytes = file ++ rest) -> Forall entry_ok es -> (length file <= n <= length bytes)%nat ->
  exists rs x y, read_log (firstn n bytes) = Some rs /\ map view rs = map Some (ef ++ x) /\ es = (ef ++ x) ++ y.
Proof.
  intros Hb Hf E (rest & Er) Fo Hn. assert (Fe : Forall entry_ok ef) by (rewrite E in Fo; apply Forall_app in Fo; tauto).
  destruct (holds_file _ _ Hb Fo) as (L & L1 & L2 & L3). destruct (holds_file _ _ Hf Fe) as (M & M1 & M2 & M3).
  assert (Lf : (length file <= length (log_file L))%nat) by (rewrite <- L3, Er, app_length; lia).
  destruct (cut_reads L (length file) L1 Lf) as (m0 & rs0 & R1 & R2 & R3 & R4 & R5).
  assert (Ecut : firstn (length file) (log_file L) = log_file M). { rewrite <- L3, Er, <- M3. rewrite firstn_app, Nat.sub_diag, firstn_all. cbn. now rewrite app_nil_r. }
  rewrite Ecut in R1. destruct (file_reads M M1) as (rs1 & S1 & S2). assert (rs1 = rs0) by congruence. subst rs1. rewrite S2 in R2. apply map_some_inj in R2. rewrite M2, L2 in R2.
  destruct (cut_reads L n L1 ltac:(rewrite <- L3; lia)) as (m & rs & Q1 & Q2 & Q3 & Q4 & Q5). rewrite <- L3 in Q1.
  assert (Hm : (m0 <= m)%nat). { destruct (le_lt_dec m0 m) as [|Hlt]; auto. exfalso. specialize (Q5 ltac:(lia)). pose proof (file_len_mono L (S m) m0 ltac:(lia)). lia. }
  rewrite L2 in Q2. exists rs, (firstn (m - m0) (skipn m0 es)), (skipn m es). split; auto.
  assert (Ex : firstn m es = ef ++ firstn (m - m0) (skipn m0 es)). { rewrite R2. replace m with (m0 + (m - m0))%nat at 1 by lia. generalize (m - m0)%nat. clear. intros j. revert es. induction m0 as [|k IH]; intros es; [reflexivity|]. destruct es; cbn; [now rewrite firstn_nil|]. f_equal. apply IH. }
  rewrite <- Ex. split; auto. symmetry. apply firstn_skipn.
Qed.
Lemma disk_firstn s m : exists k, disk s m = firstn k (all_bytes s) /\ (length (b_file s) <= k <= length (all_bytes s))%nat.
Proof.
  unfold disk, all_bytes. destruct (b_write s) as [[x e]|].
  - set (w := firstn (Z.to_nat x) (b_xbuf s)). exists (length (b_file s) + Nat.min m (length w))%nat. rewrite firstn_app. replace (length (b_file s) + _ - length (b_file s))%nat with (Nat.min m (length w)) by lia. rewrite (@firstn_all2 Z (length (b_file s) + Nat.min m (length w)) (b_file s)) by lia. split; [|rewrite !app_length; lia].
    f_equal. rewrite firstn_app. replace (Nat.min m (length w) - length w)%nat with 0%nat by lia. rewrite firstn_O, app_nil_r. destruct (le_lt_dec m (length w)); [f_equal; lia|]. rewrite (@firstn_all2 Z m w) by lia. rewrite (@firstn_all2 Z (Nat.min m (length w)) w) by lia. reflexivity.
  - exists (length (b_file s)). rewrite firstn_app, Nat.sub_diag, firstn_all, firstn_O. split; [reflexivity|]. rewrite app_length. lia.
Qed.
Lemma disk_ok s ws n es es1 es0 m : binv n s ws es -> finv s es es1 es0 -> Forall entry_ok es ->
  exists rs x y, read_log (disk s m) = Some rs /\ map view rs = map Some (es0 ++ x) /\ es = (es0 ++ x) ++ y.
Proof.
  intros V (ew & eb & ef & er & x & y & F1 & F2 & F3 & F4 & F5 & F6) Fe. destruct (disk_firstn s m) as (k & -> & Hk).
  destruct (disk_reads (all_bytes s) (b_file s) es ef (er ++ eb) k (v_holds _ _ _ _ V) F5 ltac:(now rewrite F1, F4, <- app_assoc) ltac:(rewrite all_bytes_eq, <- app_assoc; eauto) Fe Hk) as (rs & x' & y' & R1 & R2 & R3).
  exists rs, (y ++ x'), y'. rewrite (app_assoc es0 y x'), <- F6. auto.
Qed.
Lemma run_crash n j1 j2 ge we l1 l2 l3 s m : 32 <= len j1 < 2 ^ 32 -> len j2 = len j1 -> 0 <= ge < 2 ^ 64 -> Forall act_ok (l1 ++ Round :: l2 ++ Written :: l3) -> brun n (lb_init j1 j2 ge we) (l1 ++ Round :: l2 ++ Written :: l3) = Ok s ->
  exists rs es k, read_log (disk s m) = Some rs /\ map view rs = map Some es /\ tagged 0 es = map tag (firstn k (returned n (lb_init j1 j2 ge we) (l1 ++ Round :: l2 ++ Written :: l3))) /\
    (length (returned n (lb_init j1 j2 ge we) l1) <= k)%nat.
Proof.
  intros H1 H2 H3 Ha E. set (s0 := lb_init j1 j2 ge we) in *. pose proof (binv_init n j1 j2 ge we H1 H2) as V0. fold s0 in V0.
  apply Forall_app in Ha. destruct Ha as [A1 Ha]. inversion Ha as [|? ? _ Ha']; subst. apply Forall_app in Ha'. destruct Ha' as [A2 A3]. inversion A3 as [|? ? _ A4]; subst.
  rewrite brun_app in E. destruct (brun n s0 l1) as [| |s1] eqn:E1; try discriminate. cbn [brun] in E. destruct (bstep n s1 Round) as [| |s2] eqn:E2; try discriminate.
  rewrite brun_app in E. destruct (brun n s2 l2) as [| |s3] eqn:E3; try discriminate. cbn [brun] in E. destruct (bstep n s3 Written) as [| |s4] eqn:E4; try discriminate.
  destruct (finv_run n l1 s0 [] [] [] [] s1 V0 (finv_init j1 j2 ge we) E1) as (w1 & es1 & V1 & F1 & T1 & P1). cbn [app] in V1, F1. change (b_ep s0) with 0 in T1. destruct (P1 (init_pend _ _ _ _ H3) A1) as (Q1 & O1).
  pose proof (bstep_ok n s1 w1 es1 Round V1) as B2. rewrite E2 in B2. destruct B2 as (w2 & n2 & K2). destruct (ret_ok _ _ _ _ _ _ _ _ V1 K2 Q1 Logic.I) as (Q2 & O2 & _).
  pose proof (finv_round _ _ _ _ _ _ _ _ _ V1 K2 E2 F1) as F2.
  destruct (finv_run n l2 s2 w2 _ _ _ s3 (k_inv _ _ _ _ _ _ _ _ K2) F2 E3) as (w3 & n3 & V3 & F3 & T3 & P3). destruct (P3 Q2 A2) as (Q3 & O3).
  pose proof (bstep_ok n s3 w3 _ Written V3) as B4. rewrite E4 in B4. destruct B4 as (w4 & n4 & K4). destruct (ret_ok _ _ _ _ _ _ _ _ V3 K4 Q3 Logic.I) as (Q4 & O4 & _).
  pose proof (finv_written _ _ _ _ _ _ _ _ _ V3 K4 E4 F3) as F4.
  destruct (finv_run n l3 s4 w4 _ _ _ s (k_inv _ _ _ _ _ _ _ _ K4) F4 E) as (w5 & n5 & V5 & F5 & T5 & P5). destruct (P5 Q4 A4) as (Q5 & O5).
  set (es := (((es1 ++ n2) ++ n3) ++ n4) ++ n5) in *. assert (Fo : Forall entry_ok es) by (unfold es; repeat (apply Forall_app; split); auto).
  destruct (disk_ok s w5 n es _ _ m V5 F5 Fo) as (rs & x & y & R1 & R2 & R3). exists rs, (es1 ++ x).
  assert (TT : tagged 0 es = map tag (returned n s0 (l1 ++ Round :: l2 ++ Written :: l3))).
  { assert (Eall : brun n s0 (l1 ++ Round :: l2 ++ Written :: l3) = Ok s). { rewrite brun_app, E1. cbn [brun]. rewrite E2, brun_app, E3. cbn [brun]. now rewrite E4. }
    rewrite (returned_app n l1 _ s0 s1 E1). cbn [returned]. rewrite E2. cbn [ret1 app]. rewrite (returned_app n l2 _ s2 s3 E3). cbn [returned]. rewrite E4. cbn [ret1 app].
    pose proof (k_ret _ _ _ _ _ _ _ _ K2) as X2. pose proof (k_ret _ _ _ _ _ _ _ _ K4) as X4. cbn [ret1 map] in X2, X4.
    pose proof (v_ep _ _ _ _ V1) as Y1. pose proof (v_ep _ _ _ _ (k_inv _ _ _ _ _ _ _ _ K2)) as Y2. pose proof (v_ep _ _ _ _ V3) as Y3. pose proof (v_ep _ _ _ _ (k_inv _ _ _ _ _ _ _ _ K4)) as Y4.
    unfold es. rewrite tagged_app, Y4, T5, tagged_app, Y3, X4, app_nil_r, tagged_app, Y2, T3, tagged_app, Y1, X2, app_nil_r, !map_app. rewrite T1, app_assoc. reflexivity. }
  rewrite R3, tagged_app in TT. exists (length (tagged 0 (es1 ++ x))). split; auto. split; auto. rewrite <- firstn_map, <- TT. rewrite firstn_app, Nat.sub_diag, firstn_all, firstn_O, app_nil_r. split; auto.
  rewrite tagged_app, app_length. pose proof (f_equal (@length _) T1) as X. rewrite map_length in X. lia.
Qed.
