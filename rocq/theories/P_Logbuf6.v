(* The log buffer: the order of the waiting list, progress, requests that never return. *)
From Verif Require Import Lib M_Key P_Key M_Circular P_Circular M_Msgpack M_Bag M_Log Spec_Log M_Logfile P_Log1 P_Log2 P_Log3 P_Log4 M_Logset M_Logbuf Spec_Logbuf P_Logbuf1 P_Logbuf2 P_Logbuf3 P_Logbuf4.

Lemma app_cons_split {A} (a b : list A) t l : a ++ b = t :: l -> a = [] \/ exists a', a = t :: a' /\ l = a' ++ b.
Proof. destruct a as [|x a]; auto. cbn. intros H. injection H as -> <-. eauto. Qed.
Lemma fifo_run n t1 t2 : forall l s es a b, binv n s (a ++ b) es -> In t1 a -> In t2 b -> waits_through n t1 s l -> waits_through n t2 s l.
Proof.
  induction l as [|c l IH]; intros s es a b V I1 I2 W; cbn [waits_through] in *; (split; [apply (v_in _ _ _ _ V); apply in_or_app; auto|]); [exact Logic.I|].
  destruct W as [_ W]. pose proof (bstep_ok n s _ es c V) as B. destruct (bstep n s c) as [| |s']; auto. destruct B as (ws' & new & K). pose proof (k_inv _ _ _ _ _ _ _ _ K) as V'.
  destruct (k_ord _ _ _ _ _ _ _ _ K) as [-> | [(t & r & _ & _ & ->)|(t & _ & E)]].
  - eapply IH; eauto.
  - rewrite <- app_assoc in V'. eapply IH; eauto. apply in_or_app. auto.
  - apply app_cons_split in E. destruct E as [-> | (a' & -> & ->)]; [destruct I1|]. destruct I1 as [-> |I1]; [|eapply IH; eauto].
    exfalso. assert (Hp : b_pc s' t1 <> None) by (destruct l; apply W). apply (v_in _ _ _ _ V') in Hp. pose proof (v_nd _ _ _ _ V) as Nd. cbn in Nd. inversion Nd; contradiction.
Qed.
Lemma fifo n j1 j2 ge we l0 s t1 t2 r s1 l : 32 <= len j1 < 2 ^ 32 -> len j2 = len j1 -> brun n (lb_init j1 j2 ge we) l0 = Ok s -> b_pc s t1 <> None -> bstep n s (Call t2 r) = Ok s1 -> b_pc s1 t2 <> None ->
  waits_through n t1 s1 l -> waits_through n t2 s1 l.
Proof.
  intros H1 H2 E P1 B P2 W. destruct (run_inv _ _ _ _ _ _ (binv_init n j1 j2 ge we H1 H2) E) as (ws & es & V & _). pose proof (bstep_ok n s ws _ (Call t2 r) V) as K. rewrite B in K. destruct K as (ws' & new & K).
  pose proof (k_inv _ _ _ _ _ _ _ _ K) as V'. apply (v_in _ _ _ _ V) in P1. apply (v_in _ _ _ _ V') in P2.
  destruct (k_ord _ _ _ _ _ _ _ _ K) as [-> | [(t & r' & Ec & NI & ->)|(t & Ec & _)]]; [|injection Ec as <- <-|discriminate].
  - exfalso. apply (v_in _ _ _ _ V) in P2. cbn [bstep] in B. destruct (b_pc s t2); [discriminate|contradiction].
  - eapply fifo_run; eauto. now left.
Qed.

(* A request that does not fit. *)
Lemma big_run n t r : forall l s ws es s', binv n s ws es -> b_pc s t = Some r -> b_len s < req_size r -> brun n s l = Ok s' ->
  exists ws' new, binv n s' ws' (es ++ new) /\ b_pc s' t = Some r /\ ~ In EQuiesce new /\ waits_through n t s l /\ (pend_ok s -> Forall act_ok l -> Forall entry_ok new).
Proof.
  induction l as [|a l IH]; intros s ws es s' V P L E; cbn [brun waits_through] in *.
  - injection E as <-. exists ws, []. rewrite app_nil_r. split; auto. split; auto. split; [intros []|]. split; [split; [congruence|exact Logic.I]|auto].
  - pose proof (bstep_ok n s ws es a V) as B. destruct (bstep n s a) as [| |s1]; try discriminate. destruct B as (ws1 & new1 & K). pose proof (k_inv _ _ _ _ _ _ _ _ K) as V1.
    assert (I0 : In t ws) by (apply (v_in _ _ _ _ V); congruence).
    assert (I1 : In t ws1). { destruct (k_ord _ _ _ _ _ _ _ _ K) as [-> | [(u & r' & _ & _ & ->)|(u & -> & Ew)]]; auto; [apply in_or_app; auto|]. rewrite Ew in I0. destruct I0 as [-> |]; auto. exfalso.
      assert (Hf : req_size r <= b_len s - b_pos s). { apply (k_fit _ _ _ _ _ _ _ _ K t r); auto. rewrite Ew. intros X. apply (f_equal (@length nat)) in X. cbn in X. lia. } pose proof (v_pos _ _ _ _ V). lia. }
    assert (P1 : b_pc s1 t = Some r) by (rewrite <- P; now apply (k_stay _ _ _ _ _ _ _ _ K)).
    destruct (IH s1 ws1 _ s' V1 P1 ltac:(rewrite (k_len _ _ _ _ _ _ _ _ K); lia) E) as (ws2 & new2 & V2 & P2 & Q2 & W2 & O2). exists ws2, (new1 ++ new2). rewrite app_assoc. split; auto. split; auto. split; [|split; [split; [congruence|auto]|]].
    + intros Q. apply in_app_iff in Q. destruct Q as [Q|Q]; auto. apply (k_q _ _ _ _ _ _ _ _ K) in Q. subst ws. destruct I0.
    + intros Po F. inversion F; subst. destruct (ret_ok _ _ _ _ _ _ _ _ V K Po H1) as (Q1 & O1 & _). apply Forall_app. auto.
Qed.
Lemma big n j1 j2 ge we l0 s t r l s' : 32 <= len j1 < 2 ^ 32 -> len j2 = len j1 -> 0 <= ge < 2 ^ 64 -> Forall act_ok (l0 ++ l) -> brun n (lb_init j1 j2 ge we) l0 = Ok s -> b_pc s t = Some r -> len j1 < req_size r -> brun n s l = Ok s' ->
  waits_through n t s l /\ b_pc s' t = Some r /\
  exists rs rs' es new, read_log (all_bytes s) = Some rs /\ map view rs = map Some es /\ read_log (all_bytes s') = Some rs' /\ map view rs' = map Some (es ++ new) /\ ~ In EQuiesce new.
Proof.
  intros H1 H2 H3 Ha E P L E'. apply Forall_app in Ha. destruct Ha as [A1 A2]. destruct (run_inv _ _ _ _ _ _ (binv_init n j1 j2 ge we H1 H2) E) as (ws & es & V & _ & Ln & Po). cbn [app] in V. change (b_len (lb_init j1 j2 ge we)) with (len j1) in Ln.
  destruct (Po (init_pend _ _ _ _ H3) A1) as (Q1 & O1). destruct (big_run n t r l s ws es s' V P ltac:(lia) E') as (ws' & new & V' & P' & Nq & W & O2).
  destruct (holds_file _ _ (v_holds _ _ _ _ V) O1) as (f1 & F1 & G1 & B1). destruct (holds_file _ _ (v_holds _ _ _ _ V') ltac:(apply Forall_app; auto)) as (f2 & F2 & G2 & B2).
  destruct (file_reads f1 F1) as (rs & R1 & R2). destruct (file_reads f2 F2) as (rs' & R3 & R4). split; auto. split; auto. exists rs, rs', es, new. rewrite B1, B2, R1, R3, R2, R4, G1, G2. auto.
Qed.

(* The logger empties the buffer. *)
Lemma drain n s ws es : binv n s ws es -> exists l s' new, brun n s l = Ok s' /\ Forall (fun a => a = Round \/ a = Written) l /\ binv n s' ws (es ++ new) /\ b_pos s' = 0 /\ (forall t, b_pc s' t = b_pc s t) /\ returned n s l = [] /\ b_len s' = b_len s /\ b_wait s' = b_wait s.
Proof.
  intros V. assert (G : forall s, binv n s ws es -> b_write s = None -> exists s' new, bstep n s Round = Ok s' /\ binv n s' ws (es ++ new) /\ b_pos s' = 0 /\ (forall t, b_pc s' t = b_pc s t) /\ b_len s' = b_len s /\ b_wait s' = b_wait s).
  { clear s V. intros s V Ew. pose proof (logger_ok n s ws es V) as LO. rewrite Ew in LO. destruct LO as (s' & new & A0 & A1 & A2 & A3 & A4 & A5 & A6 & A7 & _). exists s', new. auto 10. }
  destruct (b_write s) as [[x xe]|] eqn:Ew.
  - assert (B : exists s1, bstep n s Written = Ok s1 /\ binv n s1 ws es /\ b_write s1 = None /\ b_pc s1 = b_pc s /\ b_len s1 = b_len s /\ b_wait s1 = b_wait s).
    { cbn [bstep]. unfold logger_written. rewrite Ew. eexists. split; [reflexivity|]. split; [|bf; auto]. pose proof (v_holds _ _ _ _ V) as Hh. destruct V. constructor; bf; auto. unfold all_bytes in *. bf. rewrite Ew in Hh. rewrite <- app_assoc. exact Hh. }
    destruct B as (s1 & B1 & V1 & W1 & P1 & L1 & Q1). destruct (G s1 V1 W1) as (s' & new & B2 & V2 & X1 & X2 & X3 & X4). exists [Written; Round], s', new. cbn [brun returned ret1]. rewrite B1, B2. cbn [app].
    split; auto. split; [auto|]. split; auto. split; auto. split; [intros t; rewrite X2, P1; auto|]. split; auto. split; congruence.
  - destruct (G s V Ew) as (s' & new & B2 & V2 & X1 & X2 & X3 & X4). exists [Round], s', new. cbn [brun returned ret1]. rewrite B2. auto 10.
Qed.
Lemma progress_inv n : forall ws s es, binv n s ws es -> (forall t r, b_pc s t = Some r -> req_size r <= b_len s) ->
  exists l s', brun n s l = Ok s' /\ Forall own_step l /\ (forall t, b_pc s' t = None) /\ map Some (returned n s l) = map (b_pc s) ws.
Proof.
  induction ws as [|t ws IH]; intros s es V F.
  - exists [], s. repeat split; auto. intros t. destruct (b_pc s t) eqn:E; auto. exfalso. apply (v_in _ _ _ _ V t). congruence.
  - destruct (drain n s _ es V) as (l1 & s1 & new1 & D1 & D2 & V1 & D3 & D4 & D5 & D6 & D7).
    assert (Pt : b_pc s1 t <> None) by (apply (v_in _ _ _ _ V1); now left). destruct (b_pc s1 t) as [r|] eqn:Er; [clear Pt|congruence].
    assert (Ht : (t < n)%nat) by (apply (v_lt _ _ _ _ V1); now left). pose proof (v_chain _ _ _ _ V1) as (Hw & Hn & _).
    assert (Fr : req_size r <= b_len s1 - b_pos s1) by (rewrite D3, D6; rewrite D4 in Er; apply F in Er; lia).
    destruct (round_cases n t r (b_next s1 t) s1 _ _ V1 Ht (or_intror (conj eq_refl (or_introl eq_refl))) ltac:(auto)) as (s2 & R & [(ws' & new & A1 & A2 & A3 & A4 & A5 & A6 & A6b & A7 & A8 & A9)|(A1 & A2 & A3 & A4 & _)]); [|exfalso; destruct (A4 Fr) as [_ X]; now apply X].
    destruct A7 as [[X _]|X]; [exfalso; now apply Hn|]. injection X as <-.
    assert (Nd : ~ In t ws) by (pose proof (v_nd _ _ _ _ V) as Nd; inversion Nd; auto).
    destruct (IH s2 _ A1) as (l2 & s' & E1 & E2 & E3 & E4).
    { intros u r' Hu. rewrite A8, D6. destruct (Nat.eq_dec u t) as [-> |N]; [congruence|]. rewrite A3, D4 in Hu by auto. eauto. }
    assert (Bs : bstep n s1 (Again t) = Ok s2) by (cbn [bstep]; now rewrite Er). exists (l1 ++ Again t :: l2), s'. rewrite brun_app, D1. cbn [brun]. rewrite Bs. split; auto. split; [|split; auto].
    + apply Forall_app. split; [eapply Forall_impl; [|exact D2]; intros a [-> | ->]; exact Logic.I|]. constructor; [exact Logic.I|auto].
    + rewrite (returned_app n l1 _ s s1 D1), D5. cbn [app returned]. rewrite Bs. cbn [ret1]. rewrite Er, A2. cbn [app map]. rewrite E4, <- D4, Er. f_equal. apply map_ext_in. intros u Hu. rewrite A3, D4; auto. intros ->. contradiction.
Qed.
Lemma progress n j1 j2 ge we l0 s : 32 <= len j1 < 2 ^ 32 -> len j2 = len j1 -> brun n (lb_init j1 j2 ge we) l0 = Ok s -> (forall t r, b_pc s t = Some r -> req_size r <= len j1) ->
  exists l s', brun n s l = Ok s' /\ Forall own_step l /\ (forall t, b_pc s' t = None) /\ (forall t r, b_pc s t = Some r -> In r (returned n s l)).
Proof.
  intros H1 H2 E F. destruct (run_inv _ _ _ _ _ _ (binv_init n j1 j2 ge we H1 H2) E) as (ws & es & V & _ & Ln & _). change (b_len (lb_init j1 j2 ge we)) with (len j1) in Ln.
  destruct (progress_inv n ws s _ V ltac:(rewrite Ln; exact F)) as (l & s' & A1 & A2 & A3 & A4). exists l, s'. repeat split; auto. intros t r Hr.
  assert (I : In (b_pc s t) (map (b_pc s) ws)) by (apply in_map; apply (v_in _ _ _ _ V); congruence). rewrite <- A4, Hr in I. apply in_map_iff in I. destruct I as (r' & Er & I). congruence.
Qed.

(* Newcomers that fit pass the list. *)
Lemma new_fits n s ws es u r : binv n s ws es -> (u < n)%nat -> b_pc s u = None -> req_size r <= b_len s - b_pos s ->
  exists s' new, bstep n s (Call u r) = Ok s' /\ binv n s' ws (es ++ new) /\ b_pc s' u = None /\ (forall t, t <> u -> b_pc s' t = b_pc s t) /\ b_len s' = b_len s /\ b_pos s + req_size r - 32 <= b_pos s'.
Proof.
  intros V Hu Pu Fr. assert (NI : ~ In u ws) by (intros X; apply (v_in _ _ _ _ V) in X; congruence).
  destruct (round_cases n u r LSelf s ws es V Hu (or_introl (conj eq_refl NI)) ltac:(congruence)) as (s' & R & [(ws' & new & A1 & A2 & A3 & A4 & A5 & A6 & A6b & A7 & A8 & A9)|(A1 & A2 & A3 & A4 & _)]); [|exfalso; destruct (A4 Fr) as [X _]; now apply X].
  destruct A7 as [[_ ->]|A7]; [|exfalso; apply NI; rewrite A7; now left]. exists s', new. cbn [bstep]. rewrite Pu. replace (u <? n)%nat with true by (symmetry; now apply Nat.ltb_lt). auto 10.
Qed.
Lemma new_waits n s ws es u r : binv n s ws es -> (u < n)%nat -> b_pc s u = None -> b_len s - b_pos s < req_size r ->
  exists s', bstep n s (Call u r) = Ok s' /\ binv n s' (ws ++ [u]) es /\ b_pc s' u = Some r /\ (forall t, t <> u -> b_pc s' t = b_pc s t) /\ b_len s' = b_len s /\ b_pos s' = b_pos s.
Proof.
  intros V Hu Pu Fr. assert (NI : ~ In u ws) by (intros X; apply (v_in _ _ _ _ V) in X; congruence).
  destruct (round_cases n u r LSelf s ws es V Hu (or_introl (conj eq_refl NI)) ltac:(congruence)) as (s' & R & [(ws' & new & A1 & A2 & A3 & A4 & A5 & A6 & _)|(A1 & A2 & A3 & A4 & A5 & A6 & A7 & _)]); [lia|].
  exists s'. cbn [bstep]. rewrite Pu. replace (u <? n)%nat with true by (symmetry; now apply Nat.ltb_lt). auto 10.
Qed.
Lemma again_waits n s ws es t r : binv n s ws es -> b_pc s t = Some r -> b_len s - b_pos s < req_size r -> bstep n s (Again t) = Ok s.
Proof.
  intros V P Fr. assert (Hi : In t ws) by (apply (v_in _ _ _ _ V); congruence). cbn [bstep]. rewrite P.
  assert (X : forall ws h, chain (b_next s) h ws -> In t ws -> b_next s t <> LSelf). { clear. induction ws as [|w ws IH]; intros h Cc Hi; [destruct Hi|]. cbn in Cc. destruct Cc as (_ & B & Cc). destruct Hi as [-> |Hi]; eauto. }
  pose proof (X ws _ (v_chain _ _ _ _ V) Hi) as Ns.
  destruct (round_cases n t r (b_next s t) s ws es V (v_lt _ _ _ _ V t Hi) (or_intror (conj eq_refl Hi)) ltac:(auto)) as (s' & R & [(ws' & new & A1 & A2 & A3 & A4 & A5 & A6 & _)|(A1 & A2 & A3 & A4 & A5 & A6 & A7 & A8 & A9)]); [lia|].
  rewrite R, A9; auto.
Qed.
Lemma tries_app t a b : tries t (a ++ b) = (tries t a + tries t b)%nat.
Proof. unfold tries. rewrite filter_app, app_length. reflexivity. Qed.
Lemma overtake_inv n t r u r2 : t <> u -> (u < n)%nat -> forall k s ws es, binv n s ws es -> b_pc s t = Some r -> b_pc s u = None -> req_size r = b_len s -> req_size r2 <= b_len s ->
  exists l s', brun n s l = Ok s' /\ waits_through n t s l /\ tries t l = k /\ returned n s l = repeat r2 k.
Proof.
  intros Ntu Hu. assert (WT : forall l1 l2 s s1, brun n s l1 = Ok s1 -> waits_through n t s l1 -> waits_through n t s1 l2 -> waits_through n t s (l1 ++ l2)).
  { induction l1 as [|a l1 IH]; intros l2 s s1 E W1 W2; cbn [brun app waits_through] in *; [injection E as <-; exact W2|]. destruct W1 as [P W1]. split; auto. destruct (bstep n s a); auto. eauto. }
  assert (WD : forall l s ws es s', binv n s ws es -> In t ws -> Forall (fun a => a = Round \/ a = Written) l -> brun n s l = Ok s' -> waits_through n t s l).
  { induction l as [|a l IH]; intros s ws es s' V I F E; cbn [brun waits_through] in *; (split; [now apply (v_in _ _ _ _ V)|]); auto.
    pose proof (bstep_ok n s ws es a V) as B. destruct (bstep n s a) as [| |s1]; auto. destruct B as (ws1 & new1 & K). inversion F; subst. apply (IH s1 ws1 _ s' (k_inv _ _ _ _ _ _ _ _ K)); auto.
    destruct (k_ord _ _ _ _ _ _ _ _ K) as [-> | [(? & ? & -> & _)|(? & -> & _)]]; auto; destruct H1; discriminate. }
  induction k as [|k IH]; intros s ws es V P Pu L L2.
  - exists [], s. cbn. repeat split; auto. congruence.
  - assert (It : In t ws) by (apply (v_in _ _ _ _ V); congruence).
    destruct (drain n s ws es V) as (l1 & s1 & new1 & D1 & D2 & V1 & D3 & D4 & D5 & D6 & D7).
    destruct (new_fits n s1 ws _ u r2 V1 Hu ltac:(rewrite D4; exact Pu) ltac:(lia)) as (s2 & new2 & B2 & V2 & U2 & O2 & L22 & Q2).
    assert (Sz : 56 <= req_size r2) by (unfold req_size, len; lia).
    assert (P2 : b_pc s2 t = Some r) by (rewrite O2, D4; auto). pose proof (again_waits n s2 ws _ t r V2 P2 ltac:(lia)) as B3.
    destruct (IH s2 ws _ V2 P2 U2 ltac:(lia) ltac:(lia)) as (l & s' & E1 & E2 & E3 & E4). exists (l1 ++ Call u r2 :: Again t :: l), s'.
    split; [rewrite brun_app, D1; cbn [brun]; rewrite B2; cbn [brun]; rewrite B3; exact E1|]. split; [|split].
    + apply (WT l1 _ s s1 D1); [exact (WD l1 s ws es s1 V It D2 D1)|]. cbn [waits_through]. rewrite B2, D4, P, P2, B3. repeat split; auto; congruence.
    + rewrite tries_app. unfold tries in *. cbn [filter]. rewrite Nat.eqb_refl. cbn [length]. rewrite E3.
      assert (filter (fun a => match a with Again u0 => (u0 =? t)%nat | _ => false end) l1 = []) as ->; [|reflexivity]. clear - D2. induction D2 as [|a l1 [-> | ->] _ IH]; auto.
    + rewrite (returned_app n l1 _ s s1 D1), D5. cbn [app returned ret1]. rewrite B2. cbn [returned ret1]. rewrite U2, B3, P2. cbn [app repeat]. now rewrite E4.
Qed.
