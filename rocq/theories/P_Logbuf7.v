(* The log buffer: calls that never return and calls that are overtaken. *)
From Verif Require Import Lib M_Key P_Key M_Circular P_Circular M_Msgpack M_Bag M_Log Spec_Log M_Logfile P_Log1 P_Log2 P_Log3 P_Log4 M_Logset M_Logbuf Spec_Logbuf P_Logbuf1 P_Logbuf2 P_Logbuf3 P_Logbuf4 P_Logbuf6.

Lemma big_waits n t r : forall l s ws es, binv n s ws es -> b_pc s t = Some r -> b_len s < req_size r -> waits_through n t s l.
Proof.
  induction l as [|a l IH]; intros s ws es V P L; cbn [waits_through] in *; (split; [congruence|]); [exact Logic.I|].
  pose proof (bstep_ok n s ws es a V) as B. destruct (bstep n s a) as [| |s1] eqn:Bs; auto. destruct B as (ws1 & new1 & K).
  assert (E : brun n s [a] = Ok s1) by (cbn; now rewrite Bs). destruct (big_run n t r [a] s ws es s1 V P L E) as (ws2 & new2 & V2 & P2 & _). apply (IH s1 _ _ V2); auto. rewrite (k_len _ _ _ _ _ _ _ _ K). exact L.
Qed.
Definition req_of (v : nat) (e : Z) : req := MkReq CPut [107] (repeat 0 v) 4 0 e.
Lemma req_of_ok v e : Z.of_nat v < 2 ^ 31 -> 0 <= e < 2 ^ 64 -> req_ok (req_of v e).
Proof.
  intros H He. unfold req_ok, req_of, kv_ok, len. cbn [q_key q_val q_ts q_prev q_epoch length]. rewrite repeat_length.
  assert (B : bytes_ok [107]) by (apply bytes_okb_spec; reflexivity). assert (C : bytes_ok (repeat 0 v)) by (apply Forall_forall; intros x Hx; apply repeat_spec in Hx; subst; unfold byte_ok; lia).
  repeat split; auto; lia.
Qed.
Lemma req_of_size v e : req_size (req_of v e) = 57 + Z.of_nat v.
Proof. unfold req_size, req_of, len. cbn [q_key q_val length]. rewrite repeat_length. lia. Qed.
Lemma big_witness n j1 j2 ge we : (3 <= n)%nat -> len j1 = 20971520 -> len j2 = len j1 ->
  exists r0 r1 r2 s, req_ok r0 /\ req_ok r1 /\ req_ok r2 /\ req_size r2 = 57 /\ brun n (lb_init j1 j2 ge we) [Call 0 r0; Call 1 r1; Call 2 r2] = Ok s /\ (forall l, waits_through n 0 s l /\ waits_through n 2 s l).
Proof.
  intros Hn H1 H2. set (v0 := Z.to_nat 20971520). set (v1 := Z.to_nat (20971520 - 57)). assert (Z0 : Z.of_nat v0 = 20971520) by (unfold v0; rewrite Z2Nat.id; lia). assert (Z1 : Z.of_nat v1 = 20971520 - 57) by (unfold v1; rewrite Z2Nat.id; lia). clearbody v0 v1.
  exists (req_of v0 5), (req_of v1 5), (req_of 0 5).
  pose proof (binv_init n j1 j2 ge we ltac:(lia) H2) as V0. set (s0 := lb_init j1 j2 ge we) in *. assert (L0 : b_len s0 = 20971520) by exact H1.
  destruct (new_waits n s0 [] [] 0 (req_of v0 5) V0 ltac:(lia) eq_refl) as (s1 & B1 & V1 & P1 & O1 & L1 & Q1). { rewrite req_of_size. change (b_pos s0) with 0. lia. }
  change (b_pos s0) with 0 in Q1. destruct (new_fits n s1 _ _ 1 (req_of v1 5) V1 ltac:(lia)) as (s2 & new & B2 & V2 & P2 & O2 & L2 & Q2). { rewrite O1 by lia. reflexivity. } { rewrite req_of_size. lia. }
  rewrite req_of_size in Q2. destruct (new_waits n s2 _ _ 2 (req_of 0 5) V2 ltac:(lia)) as (s3 & B3 & V3 & P3 & O3 & L3 & Q3). { rewrite O2, O1 by lia. reflexivity. } { rewrite req_of_size. lia. }
  exists s3. split; [apply req_of_ok; lia|]. split; [apply req_of_ok; lia|]. split; [apply req_of_ok; lia|]. split; [now rewrite req_of_size|]. split; [cbn [brun]; rewrite B1; cbn [brun]; rewrite B2; cbn [brun]; now rewrite B3|].
  assert (P0 : b_pc s3 0 = Some (req_of v0 5)) by (rewrite O3, O2 by lia; exact P1).
  intros l. assert (W : waits_through n 0 s3 l). { apply (big_waits n 0 (req_of v0 5) l s3 _ _ V3); auto. rewrite req_of_size. lia. }
  split; auto. cbn [app] in V3. apply (fifo_run n 0 2 l s3 _ [0%nat] [2%nat] V3); auto; now left.
Qed.
Lemma overtake_witness n j1 j2 ge we : (2 <= n)%nat -> len j1 = 20971520 -> len j2 = len j1 ->
  exists r0 r1 s, req_ok r0 /\ req_ok r1 /\ req_size r0 <= len j1 /\ brun n (lb_init j1 j2 ge we) [Call 1 r1; Call 0 r0] = Ok s /\
    forall k, exists l s', brun n s l = Ok s' /\ waits_through n 0 s l /\ tries 0 l = k /\ returned n s l = repeat r1 k.
Proof.
  intros Hn H1 H2. set (v0 := Z.to_nat (20971520 - 57)). assert (Z0 : Z.of_nat v0 = 20971520 - 57) by (unfold v0; rewrite Z2Nat.id; lia). clearbody v0.
  exists (req_of v0 5), (req_of 0 5). pose proof (binv_init n j1 j2 ge we ltac:(lia) H2) as V0. set (s0 := lb_init j1 j2 ge we) in *. assert (L0 : b_len s0 = 20971520) by exact H1.
  destruct (new_fits n s0 _ _ 1 (req_of 0 5) V0 ltac:(lia) eq_refl) as (s1 & new & B1 & V1 & P1 & O1 & L1 & Q1). { rewrite req_of_size. change (b_pos s0) with 0. lia. } change (b_pos s0) with 0 in Q1. rewrite req_of_size in Q1.
  destruct (new_waits n s1 _ _ 0 (req_of v0 5) V1 ltac:(lia)) as (s2 & B2 & V2 & P2 & O2 & L2 & Q2). { rewrite O1 by lia. reflexivity. } { rewrite req_of_size. lia. }
  exists s2. split; [apply req_of_ok; lia|]. split; [apply req_of_ok; lia|]. split; [rewrite req_of_size; lia|]. split; [cbn [brun]; rewrite B1; cbn [brun]; now rewrite B2|].
  intros k. apply (overtake_inv n 0 (req_of v0 5) 1 (req_of 0 5) ltac:(lia) ltac:(lia) k s2 _ _ V2); auto; [rewrite O2 by lia; exact P1| |]; rewrite req_of_size; lia.
Qed.
Lemma some_len z : 0 <= z -> exists j : list Z, len j = z.
Proof. intros H. exists (repeat 0 (Z.to_nat z)). unfold len. rewrite repeat_length, Z2Nat.id; auto. Qed.
