(* The log buffer: what the bytes of a run read as, and who waits. *)
From Verif Require Import Lib M_Key P_Key M_Circular P_Circular M_Msgpack M_Bag M_Log Spec_Log M_Logfile P_Log1 P_Log2 P_Log3 P_Log4 M_Logset M_Logbuf Spec_Logbuf P_Logbuf1 P_Logbuf2 P_Logbuf3.

Lemma binv_init n j1 j2 ge we : 32 <= len j1 < 2 ^ 32 -> len j2 = len j1 -> binv n (lb_init j1 j2 ge we) [] [].
Proof.
  intros H1 H2. unfold lb_init. constructor; bf; auto; try lia; try (now constructor).
  - unfold all_bytes. bf. cbn. apply holds_nil.
  - intros t [].
Qed.
Lemma brun_app n : forall l1 l2 s, brun n s (l1 ++ l2) = match brun n s l1 with Ok s1 => brun n s1 l2 | x => x end.
Proof. induction l1 as [|a l1 IH]; intros l2 s; auto. cbn [app brun]. destruct (bstep n s a); auto. Qed.
Lemma returned_app n : forall l1 l2 s s1, brun n s l1 = Ok s1 -> returned n s (l1 ++ l2) = returned n s l1 ++ returned n s1 l2.
Proof.
  induction l1 as [|a l1 IH]; intros l2 s s1 H; cbn [app brun returned] in *; [congruence|].
  destruct (bstep n s a); try discriminate. rewrite (IH l2 _ _ H). now rewrite app_assoc.
Qed.

(* Runs keep the invariant. *)
Definition pend_ok (s : lb) : Prop := 0 <= b_ge s < 2 ^ 64 /\ forall t r, b_pc s t = Some r -> req_ok r.
Lemma entry_of_ok r : req_ok r -> entry_ok (entry_of r).
Proof. intros (H1 & H2 & H3). unfold entry_of. destruct (q_cmd r); [destruct ((q_prev r =? 0) || Z.odd (q_prev r))| |]; cbn [entry_ok]; auto. Qed.
Lemma ret_ok n s ws es a s' ws' new : binv n s ws es -> sok n s ws es a s' ws' new -> pend_ok s -> act_ok a -> pend_ok s' /\ Forall entry_ok new /\ Forall req_ok (ret1 s a s').
Proof.
  intros V K (G & P) A. assert (R : Forall req_ok (ret1 s a s')).
  { destruct a as [t r|t| | | |e]; cbn [ret1 act_ok] in *; auto; [destruct (b_pc s' t); auto|]. destruct (b_pc s t) eqn:E; auto. destruct (b_pc s' t); auto. constructor; eauto. }
  split; [|split; auto].
  - split.
    + destruct (k_ge _ _ _ _ _ _ _ _ K) as [-> | ->]; auto. destruct (ci_next_spec 64 ltac:(lia) (b_ge s) G) as [X _]. lia.
    + intros t r H. destruct (b_pc s t) as [r0|] eqn:E.
      * assert (I1 : In t ws) by (apply (v_in _ _ _ _ V); congruence). assert (I2 : In t ws') by (apply (v_in _ _ _ _ (k_inv _ _ _ _ _ _ _ _ K)); congruence).
        apply (P t). rewrite <- H. symmetry. now apply (k_stay _ _ _ _ _ _ _ _ K).
      * pose proof (k_call _ _ _ _ _ _ _ _ K t r E H) as ->. exact A.
  - eapply Forall_impl; [|exact (k_new _ _ _ _ _ _ _ _ K)]. rewrite Forall_forall in R. intros e [-> | [-> | [-> | (r & I & [-> | ->])]]]; cbn [entry_ok]; auto; [apply entry_of_ok; auto|]. apply (R r I).
Qed.
Lemma run_ok n : forall l s ws es, binv n s ws es ->
  match brun n s l with No => True | UB => False
  | Ok s' => exists ws' new, binv n s' ws' (es ++ new) /\ tagged (b_ep s) new = map tag (returned n s l) /\ b_len s' = b_len s /\ (pend_ok s -> Forall act_ok l -> pend_ok s' /\ Forall entry_ok new) end.
Proof.
  induction l as [|a l IH]; intros s ws es V; cbn [brun returned].
  - exists ws, []. rewrite app_nil_r. auto.
  - pose proof (bstep_ok n s ws es a V) as B. destruct (bstep n s a) as [| |s1]; auto. destruct B as (ws1 & new1 & K).
    specialize (IH s1 ws1 _ (k_inv _ _ _ _ _ _ _ _ K)). destruct (brun n s1 l) as [| |s2]; auto. destruct IH as (ws2 & new2 & V2 & T2 & L2 & P2).
    exists ws2, (new1 ++ new2). rewrite app_assoc. split; auto. split; [|split; [now rewrite L2, (k_len _ _ _ _ _ _ _ _ K)|]].
    + rewrite tagged_app, map_app, (k_ret _ _ _ _ _ _ _ _ K). f_equal. rewrite <- T2. f_equal.
      pose proof (v_ep _ _ _ _ (k_inv _ _ _ _ _ _ _ _ K)) as E. rewrite epoch_after_app, (v_ep _ _ _ _ V) in E. exact E.
    + intros P F. inversion F; subst. destruct (ret_ok _ _ _ _ _ _ _ _ V K P H1) as (Q1 & Q2 & _). destruct (P2 Q1 H2) as (Q3 & Q4). split; auto. apply Forall_app; auto.
Qed.
Lemma run_inv n l s s' ws es : binv n s ws es -> brun n s l = Ok s' ->
  exists ws' new, binv n s' ws' (es ++ new) /\ tagged (b_ep s) new = map tag (returned n s l) /\ b_len s' = b_len s /\ (pend_ok s -> Forall act_ok l -> pend_ok s' /\ Forall entry_ok new).
Proof. intros V E. pose proof (run_ok n l s ws es V) as R. now rewrite E in R. Qed.
Lemma run_safe n j1 j2 ge we l : 32 <= len j1 < 2 ^ 32 -> len j2 = len j1 -> brun n (lb_init j1 j2 ge we) l <> UB.
Proof. intros H1 H2 E. pose proof (run_ok n l _ _ _ (binv_init n j1 j2 ge we H1 H2)) as R. now rewrite E in R. Qed.

Lemma holds_file bytes es : holds bytes es -> Forall entry_ok es -> exists l, file_ok l /\ entries l = es /\ bytes = log_file l.
Proof.
  intros (l & E & F & ->) H. exists l. split; auto. unfold file_ok. rewrite Forall_forall in *. intros x Hx. split; auto. apply H. rewrite <- E. unfold entries. now apply in_map.
Qed.
Lemma init_pend j1 j2 ge we : 0 <= ge < 2 ^ 64 -> pend_ok (lb_init j1 j2 ge we).
Proof. intros H. split; [exact H|]. intros t r E. discriminate E. Qed.
Lemma run_contents n j1 j2 ge we l s : 32 <= len j1 < 2 ^ 32 -> len j2 = len j1 -> 0 <= ge < 2 ^ 64 -> Forall act_ok l -> brun n (lb_init j1 j2 ge we) l = Ok s ->
  exists rs es, read_log (all_bytes s) = Some rs /\ map view rs = map Some es /\ tagged 0 es = map tag (returned n (lb_init j1 j2 ge we) l).
Proof.
  intros H1 H2 H3 H4 E. destruct (run_inv _ _ _ _ _ _ (binv_init n j1 j2 ge we H1 H2) E) as (ws & es & V & T & _ & P). destruct (P (init_pend j1 j2 ge we H3) H4) as (_ & Fe).
  destruct (holds_file _ _ (v_holds _ _ _ _ V) Fe) as (L & F & Ee & Eb). destruct (file_reads L F) as (rs & R1 & R2). exists rs, es. rewrite Eb, R1. cbn [app] in Ee. rewrite Ee in R2. auto.
Qed.

(* The file: the entries es0 are written, es1 are written or being written. *)
Definition finv (s : lb) (es es1 es0 : list entry) : Prop :=
  exists ew eb ef er x y, es = ew ++ eb /\ holds (b_file s ++ in_flight s) ew /\ ew = es1 ++ x /\ ew = ef ++ er /\ holds (b_file s) ef /\ ef = es0 ++ y.
Lemma record_keeps n t r nx s s' : record_round n t r nx s = Ok s' -> b_file s' = b_file s /\ in_flight s' = in_flight s.
Proof.
  unfold record_round. destruct (_ && _).
  - cbv zeta. destruct (emit (req_bytes r) _ _) as [[buf pos]|]; [|discriminate]. intros H. injection H as <-. split; reflexivity.
  - destruct nx; [|intros H; injection H as <-; auto|intros H; injection H as <-; auto]. destruct (walk _ _ _) as [[u|]|]; try discriminate; intros H; injection H as <-; split; reflexivity.
Qed.
Lemma finv_step n s ws es a s' ws' new es1 es0 : binv n s ws es -> sok n s ws es a s' ws' new -> bstep n s a = Ok s' -> finv s es es1 es0 -> finv s' (es ++ new) es1 es0.
Proof.
  intros V K B (ew & eb & ef & er & x & y & F1 & F2 & F3 & F4 & F5 & F6).
  assert (SAME : b_file s' = b_file s -> in_flight s' = in_flight s -> finv s' (es ++ new) es1 es0).
  { intros E1 E2. exists ew, (eb ++ new), ef, er, x, y. rewrite E1, E2. repeat split; auto. now rewrite F1, app_assoc. }
  destruct a as [t r|t| | | |e]; cbn [bstep] in B.
  - destruct (b_pc s t); [discriminate|]. destruct (t <? n)%nat; [|discriminate]. apply record_keeps in B. now apply SAME.
  - destruct (b_pc s t); [|discriminate]. apply record_keeps in B. now apply SAME.
  - pose proof (logger_ok n s ws es V) as LO. destruct (b_write s) eqn:Ew; [congruence|]. destruct LO as (s0 & new0 & B0 & _ & _ & _ & _ & P0 & _). assert (s0 = s') by congruence. subst s0.
    pose proof (v_holds _ _ _ _ (k_inv _ _ _ _ _ _ _ _ K)) as Hh. rewrite all_bytes_eq in Hh. unfold upto in Hh. cbn [fst snd] in Hh. rewrite P0 in Hh. cbn [Z.to_nat firstn] in Hh. rewrite app_nil_r in Hh.
    assert (Ef : b_file s' = b_file s).
    { unfold logger_round in B. rewrite Ew in B. cbv zeta in B. destruct (_ && match b_wait s with None => true | Some _ => false end);
      (destruct (if _ then _ else _) as [[? ?]|] || idtac); repeat match type of B with context [match ?x with _ => _ end] => destruct x end; try discriminate; injection B as <-; reflexivity. }
    unfold in_flight in F2. rewrite Ew, app_nil_r in F2.
    exists (es ++ new), [], ew, (eb ++ new), (x ++ eb ++ new), (y ++ er). rewrite app_nil_r, Ef. subst es. split; [reflexivity|]. split; [now rewrite <- Ef|]. rewrite <- !app_assoc. split; [now rewrite F3, <- app_assoc|]. split; auto. split; auto. now rewrite F4, F6, <- app_assoc.
  - unfold logger_written in B. destruct (b_write s) as [[xp xe]|] eqn:Ew; [|discriminate]. injection B as <-. unfold in_flight in F2. rewrite Ew in F2.
    exists ew, (eb ++ new), ew, [], x, (y ++ er). bf. unfold in_flight. bf. rewrite !app_nil_r. repeat split; auto; [now rewrite F1, app_assoc|]. now rewrite F4, F6, <- app_assoc.
  - injection B as <-. now apply SAME.
  - injection B as <-. now apply SAME.
Qed.
Lemma finv_written n s ws es s' ws' new es1 es0 : binv n s ws es -> sok n s ws es Written s' ws' new -> bstep n s Written = Ok s' -> finv s es es1 es0 -> finv s' (es ++ new) es1 es1.
Proof.
  intros V K B (ew & eb & ef & er & x & y & F1 & F2 & F3 & F4 & F5 & F6). cbn [bstep] in B. unfold logger_written in B. destruct (b_write s) as [[xp xe]|] eqn:Ew; [|discriminate]. injection B as <-. unfold in_flight in F2. rewrite Ew in F2.
  exists ew, (eb ++ new), ew, [], x, x. bf. unfold in_flight. bf. rewrite !app_nil_r. repeat split; auto. now rewrite F1, app_assoc.
Qed.
Lemma finv_round n s ws es s' ws' new es1 es0 : binv n s ws es -> sok n s ws es Round s' ws' new -> bstep n s Round = Ok s' -> finv s es es1 es0 -> finv s' (es ++ new) es es0.
Proof.
  intros V K B F. destruct (finv_step _ _ _ _ _ _ _ _ _ _ V K B F) as (ew & eb & ef & er & x & y & F1 & F2 & F3 & F4 & F5 & F6).
  pose proof (logger_ok n s ws es V) as LO. cbn [bstep] in B. destruct (b_write s) eqn:Ew; [congruence|]. destruct LO as (s0 & new0 & B0 & _ & _ & _ & _ & P0 & _). assert (s0 = s') by congruence. subst s0.
  pose proof (v_holds _ _ _ _ (k_inv _ _ _ _ _ _ _ _ K)) as Hh. rewrite all_bytes_eq in Hh. unfold upto in Hh. cbn [fst snd] in Hh. rewrite P0 in Hh. cbn [Z.to_nat firstn] in Hh. rewrite app_nil_r in Hh.
  exists (es ++ new), [], ef, (er ++ eb), new, y. rewrite app_nil_r. repeat split; auto. now rewrite F1, F4, app_assoc.
Qed.
Lemma finv_init j1 j2 ge we : finv (lb_init j1 j2 ge we) [] [] [].
Proof. exists [], [], [], [], [], []. repeat split; auto using holds_nil. Qed.
