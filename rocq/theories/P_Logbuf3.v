(* The log buffer: runs. *)
From Verif Require Import Lib M_Key P_Key M_Circular P_Circular M_Msgpack M_Bag M_Log Spec_Log M_Logfile P_Log1 P_Log2 P_Log3 P_Log4 M_Logset M_Logbuf Spec_Logbuf P_Logbuf1 P_Logbuf2.

Lemma logger_ok n s ws es : binv n s ws es ->
  match b_write s with
  | Some _ => logger_round s = No
  | None => exists s' new, logger_round s = Ok s' /\ binv n s' ws (es ++ new) /\ tagged (b_ep s) new = [] /\ (forall t, b_pc s' t = b_pc s t) /\ (new <> [] -> ws = []) /\ b_pos s' = 0 /\ b_len s' = b_len s /\ b_wait s' = b_wait s /\
      b_ge s' = b_ge s /\ Forall (fun e => e = EEpoch (b_ge s) \/ e = EWake \/ e = EQuiesce) new
  end.
Proof.
  intros V. pose proof (v_L _ _ _ _ V) as HL. pose proof (v_pos _ _ _ _ V) as HP. unfold logger_round. destruct (b_write s) as [[x xe]|] eqn:Ew; [reflexivity|]. cbv zeta.
  pose proof (v_holds _ _ _ _ V) as H0. rewrite all_bytes_eq in H0. unfold in_flight in H0. rewrite Ew, app_nil_r in H0.
  destruct ((b_pos s =? 0) && ((if b_wk s =? b_we s then b_q s else 0) =? 0) && negb (b_ge s =? b_ep s) && negb (b_ge s =? b_we s) && match b_wait s with None => true | Some _ => false end) eqn:C.
  - assert (P0 : b_pos s = 0) by (repeat (apply andb_true_iff in C; destruct C as [C ?]); lia). assert (W0 : b_wait s = None) by (apply andb_true_iff in C; destruct C as [_ C]; destruct (b_wait s); [discriminate|reflexivity]).
    assert (Ws : ws = []). { pose proof (v_chain _ _ _ _ V) as Ch. rewrite W0 in Ch. destruct ws; auto. cbn in Ch. destruct Ch; discriminate. } subst ws.
    rewrite P0 in H0. assert (R0 : room (b_len s) (b_buf s, 0) 32) by (unfold room; cbn [fst snd]; pose proof (v_buf _ _ _ _ V); lia).
    destruct (emit_epoch (b_len s) _ 32 (b_ge s) (b_file s) es ltac:(lia) R0 ltac:(lia) H0) as (x1 & E1 & R1 & P1 & H1). rewrite E1. set (wk := b_ge s =? b_we s).
    assert (S2 : exists x2, (if wk then emit (enc_base logcmd_wake) 8 (Some x1) else Some x1) = Some x2 /\ room (b_len s) x2 8 /\ 0 < snd x2 /\ holds (b_file s ++ upto x2) ((es ++ [EEpoch (b_ge s)]) ++ if wk then [EWake] else [])).
    { destruct wk.
      - destruct (emit_base (b_len s) x1 (32 - 16) logcmd_wake EWake (b_file s) _ ltac:(lia) R1 ltac:(lia) H1 ltac:(reflexivity)) as (x2 & A1 & A2 & A3 & A4). exists x2. cbn [snd] in *. repeat split; auto; unfold room in *; lia.
      - exists x1. cbn [snd] in *. rewrite app_nil_r. repeat split; auto; unfold room in *; lia. }
    destruct S2 as (x2 & E2 & R2 & P2 & H2). rewrite E2.
    destruct (emit_base (b_len s) x2 8 logcmd_quiesce EQuiesce (b_file s) _ ltac:(lia) R2 ltac:(lia) H2 ltac:(reflexivity)) as ([buf pos] & E3 & R3 & P3 & H3). rewrite E3. destruct R3 as (R31 & R32 & R33). cbn [fst snd] in *.
    replace (0 <? pos) with true by lia. set (new := EEpoch (b_ge s) :: (if wk then [EWake] else []) ++ [EQuiesce]).
    eexists. exists new. split; [reflexivity|]. split.
    { constructor; bf; auto; try lia; try (now apply (v_xbuf _ _ _ _ V)); try (now constructor).
      - rewrite all_bytes_eq. unfold in_flight, upto in *. bf. cbn [fst snd firstn Z.to_nat] in *. rewrite app_nil_r. replace (es ++ new) with (((es ++ [EEpoch (b_ge s)]) ++ (if wk then [EWake] else [])) ++ [EQuiesce]) by (unfold new; rewrite <- !app_assoc; reflexivity). exact H3.
      - rewrite epoch_after_app. unfold new. destruct wk; reflexivity.
      - intros t. apply (v_in _ _ _ _ V).
      - intros t [] . }
    split; [unfold new; destruct wk; reflexivity|]. repeat split; auto. unfold new. destruct wk; cbn [app]; repeat (constructor; auto).
  - set (q := if b_wk s =? b_we s then b_q s else 0).
    assert (SW : forall s', all_bytes s' = all_bytes s -> b_len s' = b_len s -> len (b_buf s') = b_len s -> len (b_xbuf s') = b_len s -> 0 <= b_pos s' <= b_len s -> b_ep s' = b_ep s -> b_next s' = b_next s -> b_wait s' = b_wait s -> b_pc s' = b_pc s -> binv n s' ws (es ++ [])).
    { intros s' A1 A2 A3 A4 A5 A6 A7 A8 A9. rewrite app_nil_r. destruct V. constructor; rewrite ?A1, ?A2, ?A6, ?A7, ?A8, ?A9; auto. }
    pose proof (v_buf _ _ _ _ V). pose proof (v_xbuf _ _ _ _ V).
    destruct (0 <? b_pos s) eqn:Hp.
    + eexists. exists []. split; [reflexivity|]. split; [apply SW; bf; auto; try lia|repeat split; auto; congruence].
      unfold all_bytes. bf. rewrite Ew. cbn [firstn Z.to_nat app]. now rewrite app_nil_r.
    + eexists. exists []. split; [reflexivity|]. split; [apply SW; bf; auto; try lia|repeat split; auto; bf; try congruence; lia].
      unfold all_bytes. bf. rewrite Ew. reflexivity.
Qed.

(* One step. *)
Definition order_step (a : bact) (ws ws' : list nat) : Prop :=
  ws' = ws \/ (exists t r, a = Call t r /\ ~ In t ws /\ ws' = ws ++ [t]) \/ (exists t, a = Again t /\ ws = t :: ws').
Definition new_ok (s : lb) (a : bact) (s' : lb) (e : entry) : Prop :=
  e = EWake \/ e = EQuiesce \/ e = EEpoch (b_ge s) \/ exists r, In r (ret1 s a s') /\ (e = entry_of r \/ e = EEpoch (q_epoch r)).
Record sok (n : nat) (s : lb) (ws : list nat) (es : list entry) (a : bact) (s' : lb) (ws' : list nat) (new : list entry) : Prop := MkSok {
  k_inv : binv n s' ws' (es ++ new);
  k_ret : tagged (b_ep s) new = map tag (ret1 s a s');
  k_ord : order_step a ws ws';
  k_len : b_len s' = b_len s;
  k_stay : forall u, In u ws -> In u ws' -> b_pc s' u = b_pc s u;
  k_call : forall u r, b_pc s u = None -> b_pc s' u = Some r -> a = Call u r;
  k_fit : forall t r, a = Again t -> ws <> ws' -> b_pc s t = Some r -> req_size r <= b_len s - b_pos s;
  k_q : In EQuiesce new -> ws = [];
  k_new : Forall (new_ok s a s') new;
  k_ge : b_ge s' = b_ge s \/ b_ge s' = ci_next_nonzero 64 (b_ge s) }.
Lemma bstep_ok n s ws es a : binv n s ws es ->
  match bstep n s a with No => True | UB => False | Ok s' => exists ws' new, sok n s ws es a s' ws' new end.
Proof.
  intros V. pose proof (v_pos _ _ _ _ V) as HP.
  assert (CH : forall t, In t ws -> b_next s t <> LSelf).
  { assert (X : forall ws h t, chain (b_next s) h ws -> In t ws -> b_next s t <> LSelf). { clear. induction ws as [|w ws IH]; intros h t Cc Hi; [destruct Hi|]. cbn in Cc. destruct Cc as (_ & B & Cc). destruct Hi as [->|Hi]; eauto. }
    intros t Hi. exact (X ws _ t (v_chain _ _ _ _ V) Hi). }
  assert (TR : forall s', b_len s' = b_len s -> b_buf s' = b_buf s -> b_xbuf s' = b_xbuf s -> b_pos s' = b_pos s -> all_bytes s' = all_bytes s -> b_ep s' = b_ep s -> b_next s' = b_next s -> b_wait s' = b_wait s -> b_pc s' = b_pc s -> ret1 s a s' = [] ->
    (b_ge s' = b_ge s \/ b_ge s' = ci_next_nonzero 64 (b_ge s)) -> sok n s ws es a s' ws []).
  { intros s' A1 A2 A3 A4 A5 A6 A7 A8 A9 A10 A11. constructor; auto; try congruence; try (now intros []); [|now rewrite A10|now left].
    rewrite app_nil_r. destruct V; constructor; rewrite ?A1, ?A2, ?A3, ?A4, ?A5, ?A6, ?A7, ?A8, ?A9; auto. }
  destruct a as [t r|t| | | |e]; cbn [bstep].
  - destruct (b_pc s t) as [r0|] eqn:Pt; [exact Logic.I|]. destruct (Nat.ltb_spec t n) as [Ht|]; [|exact Logic.I].
    assert (NI : ~ In t ws) by (intros X; apply (v_in _ _ _ _ V) in X; congruence).
    destruct (round_cases n t r LSelf s ws es V Ht (or_introl (conj eq_refl NI)) ltac:(congruence)) as (s' & -> & [(ws' & new & A1 & A2 & A3 & A4 & A5 & A6 & A6b & A7 & A8 & A9)|(A1 & A2 & A3 & A4 & A5 & A6 & A7 & A8 & A9)]).
    + destruct A7 as [[_ ->]|A7]; [|exfalso; apply NI; rewrite A7; now left]. exists ws, new. assert (R : ret1 s (Call t r) s' = [r]) by (cbn [ret1]; now rewrite A2).
      constructor; auto; try congruence; [now rewrite R|now left| | | |].
      * intros u Hu _. apply A3. intros ->. contradiction.
      * intros u r' U1 U2. destruct (Nat.eq_dec u t) as [->|N]; [congruence|]. rewrite A3 in U2 by auto. congruence.
      * intros Q. exfalso. rewrite Forall_forall in A5. destruct (A5 _ Q) as [X|[X|X]]; try discriminate. pose proof (entry_key r) as Y. rewrite <- X in Y. now apply Y.
      * eapply Forall_impl; [|exact A5]. intros e He. unfold new_ok. rewrite R. cbn [In]. destruct He as [-> | [-> | ->]]; eauto 10.
    + exists (ws ++ [t]), []. assert (R : ret1 s (Call t r) s' = []) by (cbn [ret1]; now rewrite A2).
      constructor; auto; try congruence; try (now intros []); [now rewrite app_nil_r|now rewrite R| | |].
      * right; left. exists t, r. auto.
      * intros u Hu _. apply A3. intros ->. contradiction.
      * intros u r' U1 U2. destruct (Nat.eq_dec u t) as [->|N]; [congruence|]. rewrite A3 in U2 by auto. congruence.
  - destruct (b_pc s t) as [r|] eqn:Pt; [|exact Logic.I].
    assert (Hi : In t ws) by (apply (v_in _ _ _ _ V); congruence). assert (Ht : (t < n)%nat) by now apply (v_lt _ _ _ _ V).
    destruct (round_cases n t r (b_next s t) s ws es V Ht (or_intror (conj eq_refl Hi)) ltac:(auto)) as (s' & -> & [(ws' & new & A1 & A2 & A3 & A4 & A5 & A6 & A6b & A7 & A8 & A9)|(A1 & A2 & A3 & A4 & A5 & A6 & A7 & A8 & A9)]).
    + destruct A7 as [[A7 _]|A7]; [exfalso; now apply (CH t)|]. exists ws', new. assert (R : ret1 s (Again t) s' = [r]) by (cbn [ret1]; now rewrite Pt, A2).
      constructor; auto; try congruence; [now rewrite R|right; right; exists t; auto| | | |].
      * intros u _ Hu. apply A3. intros ->. pose proof (v_nd _ _ _ _ V) as Nd. rewrite A7 in Nd. inversion Nd; contradiction.
      * intros u r' U1 U2. destruct (Nat.eq_dec u t) as [->|N]; [congruence|]. rewrite A3 in U2 by auto. congruence.
      * intros Q. exfalso. rewrite Forall_forall in A5. destruct (A5 _ Q) as [X|[X|X]]; try discriminate. pose proof (entry_key r) as Y. rewrite <- X in Y. now apply Y.
      * eapply Forall_impl; [|exact A5]. intros e He. unfold new_ok. rewrite R. cbn [In]. destruct He as [-> | [-> | ->]]; eauto 10.
    + assert (s' = s) by (apply A9; now apply CH). subst s'. exists ws, []. apply TR; auto. cbn [ret1]. rewrite Pt. reflexivity.
  - pose proof (logger_ok n s ws es V) as LO. destruct (b_write s) eqn:Ew; [rewrite LO; exact Logic.I|]. destruct LO as (s' & new & -> & A1 & A2 & A3 & A4 & A5 & A6 & A7 & A8 & A9).
    exists ws, new. constructor; auto; try congruence; [now left| |].
    + intros Q. apply A4. intros ->. destruct Q.
    + eapply Forall_impl; [|exact A9]. intros e [He|[He|He]]; unfold new_ok; auto.
  - unfold logger_written. destruct (b_write s) as [[x xe]|] eqn:Ew; [|exact Logic.I]. exists ws, []. apply TR; auto. unfold all_bytes. bf. rewrite Ew. now rewrite <- app_assoc.
  - exists ws, []. apply TR; auto.
  - exists ws, []. apply TR; auto.
Qed.
