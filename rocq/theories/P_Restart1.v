(* When recovery succeeds. *)
From Verif Require Import Lib M_Key P_Key M_Circular P_Circular M_Msgpack M_Bag M_Log Spec_Log M_Logfile P_Log1 P_Log2 P_Log3 P_Log4 M_Logset P_Logset P_Recover M_Restart.

Lemma all_some_ex {A B} (f : A -> option B) : forall l, (forall x, In x l -> exists y, f x = Some y) -> exists r, all_some (map f l) = Some r.
Proof.
  induction l as [|x l IH]; intros H; [exists []; reflexivity|]. destruct (H x (or_introl eq_refl)) as (y & Ey). destruct IH as (r & Er); [intros; apply H; now right|].
  exists (y :: r). cbn. now rewrite Ey, Er.
Qed.
Lemma min_q_above c l : Forall (fun it => in_quiescent it = true -> c < in_last it) l -> min_quiescent l = 0 \/ c < min_quiescent l.
Proof.
  intros F. unfold min_quiescent.
  assert (G : forall l, Forall (fun it => in_quiescent it = true -> c < in_last it) l -> forall z, z = 0 \/ c < z ->
    let m := fold_left (fun acc it => if in_quiescent it && ((acc =? 0) || elt (in_last it) acc) then in_last it else acc) l z in m = 0 \/ c < m).
  { clear. induction 1 as [|it l Hq F IH]; intros z Hz; cbn [fold_left]; auto. apply IH. destruct (in_quiescent it) eqn:E; cbn [andb]; auto. destruct ((z =? 0) || elt (in_last it) z); auto. }
  apply G; auto.
Qed.
Lemma first_wake_above q : forall l c, first_wake c q l = 0 \/ q <= first_wake c q l.
Proof. induction l as [|e l IH]; intros c; cbn [first_wake]; auto. destruct e; auto. destruct (negb (c =? 0) && (q <=? c)) eqn:E; auto. lia. Qed.
Lemma replay_max_above c : forall l s, Forall (fun x => (small (in_last (fst x)) /\ small (snd x)) /\ c < in_last (fst x) /\ (snd x = 0 \/ c < snd x)) l -> small s -> c < s -> c < replay_max l s.
Proof.
  unfold replay_max. induction l as [|[it w] l IH]; intros s F Hs Hc; cbn [fold_left]; auto. inversion F as [|? ? ((A & A2) & B & C) F']; subst. cbn [fst snd] in *.
  set (s1 := if negb (in_quiescent it) && negb (in_last it =? 0) && elt (in_last it) s then in_last it else s).
  assert (H1 : small s1 /\ c < s1) by (unfold s1; destruct (negb (in_quiescent it) && negb (in_last it =? 0) && elt (in_last it) s); lia).
  apply IH; auto; destruct (negb (w =? 0) && elt w s1) eqn:E; lia.
Qed.
Lemma up_max_below c : forall l s, Forall (fun e => small e /\ e < c) l -> small s -> s < c -> up_max l s < c.
Proof.
  unfold up_max. induction l as [|e l IH]; intros s F Hs Hc; cbn [fold_left]; auto. inversion F as [|? ? (A & B) F']; subst.
  apply IH; auto; destruct (_ && _); lia.
Qed.

(* The epochs of a log of which some prefix, of at least what is synced, is found. *)
Definition fits_ck (ck_min ck_max : Z) (g : lg) : Prop :=
  forall m, (l_disk g <= m <= length (l_all g))%nat ->
    first_epoch (firstn m (l_all g)) < ck_min /\ ck_max < epoch_after 0 (firstn m (l_all g)).

Lemma recover_starts epoch old acts s junk ck_min ck_max files : old_ok epoch old -> epoch + len acts < 2 ^ 63 -> no_stalls acts -> updates_ok acts ->
  ls_run (ls_init epoch old) acts = Some s -> Forall2 crash_file (s_logs s) files -> 0 <= ck_min <= ck_max -> 0 <= ck_max < 2 ^ 63 - 1 ->
  (ck_min = 0 \/ Forall (fits_ck ck_min ck_max) (s_logs s)) ->
  exists r, recover junk ck_min ck_max files = Some r /\ (ck_min <> 0 -> rec_min r = ck_min /\ ck_max < rec_max r).
Proof.
  intros H1 H2 H3 H4 H5 HF Hmin Hmax HC. destruct (reach_inv _ _ _ _ H1 H2 H3 H4 H5) as [HI _]. rewrite Forall_forall in HI.
  assert (V : forall j f, nth_error files j = Some f -> exists g seen, nth_error (s_logs s) j = Some g /\ shows g f seen).
  { intros j f' Hj. destruct (Forall2_nth_r _ _ _ _ _ HF Hj) as (g' & Hg' & Hc). pose proof (HI g' (nth_error_In _ _ Hg')) as I'.
    destruct (crash_view _ _ _ I' Hc) as (m & t & E & Ht & Hm). exists g', (firstn m (l_all g')). split; auto. exists m, t. repeat split; auto; try lia; apply (log_ok_firstn m _ (i_ok _ _ I')). }
  unfold recover.
  destruct (all_some_ex (file_info junk) files) as (infos & Ei0).
  { intros f Hf. apply In_nth_error in Hf. destruct Hf as (j & Hj). destruct (V j f Hj) as (g & seen & _ & (m & t & S1 & S2 & S3 & S4 & S5)).
    destruct (file_info_ok junk seen t S5 S3) as (inf & I1 & _). rewrite <- S2 in I1. eauto. }
  rewrite Ei0. apply all_some_map in Ei0. rename Ei0 into Ei.
  set (max_epoch := up_max (map in_last infos) (if ck_max =? 0 then 0 else ci_next_nonzero 64 ck_max)).
  set (max_first := up_max (map in_first infos) 0). set (max_wake := up_max (map in_wake infos) 0).
  set (qe := if negb (max_wake =? 0) && ele (min_quiescent infos) max_wake then min_quiescent infos else 0).
  assert (SI : forall j inf, nth_error infos j = Some inf -> exists f seen g, nth_error files j = Some f /\ nth_error (s_logs s) j = Some g /\ shows g f seen /\ in_first inf = first_epoch seen /\
     in_last inf = epoch_after 0 seen /\ in_wake inf = wake_after 0 0 seen /\ (seen <> [] -> in_quiescent inf = ends_quiescent seen)).
  { intros j inf Hj. destruct (Forall2_nth_r _ _ _ _ _ Ei Hj) as (f' & Hf' & Hi). destruct (V j f' Hf') as (g' & seen & Hg' & Hs). exists f', seen, g'.
    destruct Hs as (m & t & S1 & S2 & S3 & S4 & S5). destruct (file_info_ok junk seen t S5 S3) as (inf' & I1 & I2 & I3 & I4 & I5). rewrite <- S2, Hi in I1. injection I1 as <-.
    repeat split; auto. exists m, t. auto. }
  assert (SL : Forall (fun e => small e) (map in_last infos)).
  { apply Forall_map, Forall_nth. intros j inf Hj. destruct (SI j inf Hj) as (f' & seen & g' & _ & _ & (m & t & _ & _ & _ & _ & (_ & _ & C & _)) & _ & -> & _). apply small_bound; auto; lia. }
  assert (SFi : Forall (fun e => small e) (map in_first infos)).
  { apply Forall_map, Forall_nth. intros j inf Hj. destruct (SI j inf Hj) as (f' & seen & g' & _ & _ & (m & t & _ & _ & _ & _ & (_ & _ & C & _)) & -> & _ & _). now apply first_epoch_small. }
  assert (SWi : Forall (fun e => small e) (map in_wake infos)).
  { apply Forall_map, Forall_nth. intros j inf Hj. destruct (SI j inf Hj) as (f' & seen & g' & _ & _ & (m & t & _ & _ & _ & _ & (_ & _ & C & _)) & _ & _ & -> & _). apply wake_after_small; auto; lia. }
  assert (Sck : small (if ck_max =? 0 then 0 else ci_next_nonzero 64 ck_max)) by (destruct (ck_max =? 0) eqn:Ec; [lia|rewrite next_small; lia]).
  destruct (up_max_ok _ SL _ Sck) as (M1 & M2 & M3). fold max_epoch in M1, M2, M3.
  destruct (up_max_ok _ SFi 0 ltac:(lia)) as (N1 & N2 & N3). fold max_first in N1, N2, N3.
  destruct (up_max_ok _ SWi 0 ltac:(lia)) as (W1 & W2 & W3). fold max_wake in W1, W2, W3.
  assert (Sq : small (min_quiescent infos)) by now apply min_quiescent_small.
  assert (Sqe : small qe) by (unfold qe; destruct (negb (max_wake =? 0) && ele (min_quiescent infos) max_wake); [exact Sq|lia]).
  match goal with |- context [all_some (map ?f (combine files infos))] => set (wf := f) end.
  destruct (all_some_ex wf (combine files infos)) as (wakes & Ew0).
  { intros [f inf] Hin. unfold wf. cbn [fst snd]. destruct f as [|b f]; [eauto|]. destruct (negb (qe =? 0) && ele qe (in_wake inf)); [|eauto].
    apply In_nth_error in Hin. destruct Hin as (j & Hj). apply combine_nth in Hj. cbn [fst snd] in Hj. destruct Hj as [J1 _].
    destruct (V j _ J1) as (g & seen & _ & (m & t & S1 & S2 & S3 & S4 & S5)). rewrite S2, (file_mpqw_ok qe seen t S5 S3 Sqe). eauto. }
  rewrite Ew0. apply all_some_map in Ew0. rename Ew0 into Ew.
  set (rmax := replay_max (combine infos wakes) max_epoch).
  assert (SX : Forall (fun x => small (in_last (fst x)) /\ small (snd x)) (combine infos wakes)).
  { apply Forall_nth. intros j [inf w] Hj. apply combine_nth in Hj. destruct Hj as [J1 J2]. cbn [fst snd] in *. split.
    - rewrite Forall_map, Forall_forall in SL. apply (SL inf). now apply nth_error_In in J1.
    - destruct (Forall2_nth_r _ _ _ _ _ Ew J2) as ([f' inf'] & Hc & Hw). unfold wf in Hw. cbn [fst snd] in Hw. apply combine_nth in Hc. destruct Hc as [C1 C2]. cbn [fst snd] in *.
      destruct (V j f' C1) as (g' & seen & _ & (m & t & S1 & S2 & S3 & S4 & S5)).
      assert (Hw2 : w = 0 \/ log_mpqw qe f' = Some w).
      { destruct f'; [injection Hw as <-; auto|]. destruct (negb (qe =? 0) && ele qe (in_wake inf')); [auto|injection Hw as <-; auto]. }
      destruct Hw2 as [->|Hw2]; [lia|]. rewrite S2, (file_mpqw_ok qe seen t S5 S3 Sqe) in Hw2. injection Hw2 as <-. apply first_wake_small; [lia|apply S5]. }
  destruct (replay_max_ok _ SX max_epoch M1) as (R1 & R2 & R3 & R4). fold rmax in R1, R2, R3, R4.
  (* the assertions *)
  assert (AS : ck_min = 0 \/ max_first < ck_min /\ ck_min < rmax /\ ck_max < rmax).
  { destruct HC as [->|HC]; [now left|]. destruct (Z.eq_dec ck_min 0) as [->|Nz]; [now left|]. right. rewrite Forall_forall in HC.
    assert (AI : forall j inf, nth_error infos j = Some inf -> in_first inf < ck_min /\ ck_max < in_last inf).
    { intros j inf Hj. destruct (SI j inf Hj) as (f & seen & g & Hf & Hg & (m & t & S1 & S2 & S3 & S4 & S5) & -> & -> & _ & Q). destruct (HC g (nth_error_In _ _ Hg) m S4) as (X1 & X3). rewrite <- S1 in *. auto. }
    assert (F1 : max_first < ck_min).
    { unfold max_first. apply up_max_below; [|lia|lia]. apply Forall_map, Forall_nth. intros j inf Hj. rewrite Forall_map, Forall_forall in SFi. split; [apply SFi; eapply nth_error_In; eauto|eapply AI; eauto]. }
    assert (QE : qe = 0 \/ ck_max < qe).
    { unfold qe. destruct (negb (max_wake =? 0) && ele (min_quiescent infos) max_wake); [|now left]. apply min_q_above. apply Forall_nth. intros j inf Hj _. eapply AI; eauto. }
    assert (RM : ck_max < rmax).
    { unfold rmax. apply replay_max_above; auto.
      - apply Forall_nth. intros j [inf w] Hj. rewrite Forall_forall in SX. pose proof (SX _ (nth_error_In _ _ Hj)) as X. apply combine_nth in Hj. cbn [fst snd] in *. destruct Hj as [J1 J2]. split; auto. split; [eapply AI; eauto|].
        destruct (Forall2_nth_r _ _ _ _ _ Ew J2) as ([f' inf'] & Hc & Hw). unfold wf in Hw. cbn [fst snd] in Hw. apply combine_nth in Hc. destruct Hc as [C1 C2]. cbn [fst snd] in *.
        destruct (V j f' C1) as (g' & seen & _ & (m & t & S1 & S2 & S3 & S4 & S5)).
        destruct f' as [|b0 f']; [injection Hw as <-; auto|]. destruct (negb (qe =? 0) && ele qe (in_wake inf')) eqn:Eq; [|injection Hw as <-; auto].
        rewrite S2, (file_mpqw_ok qe seen t S5 S3 Sqe) in Hw. injection Hw as <-. apply andb_true_iff in Eq. destruct Eq as [Eq _]. destruct (first_wake_above qe seen 0); [now left|right; lia].
      - rewrite next_small in M2 by lia. destruct (ck_max =? 0) eqn:X; lia. }
    lia. }
  replace (negb (ck_min =? 0) && negb (elt max_first ck_min && elt ck_min rmax && elt ck_max rmax)) with false.
  2: { symmetry. destruct AS as [->|(A1 & A2 & A3)]; [reflexivity|]. rewrite !elt_small by lia. lia. }
  match goal with |- context [all_some (map ?f files)] => destruct (all_some_ex f files) as (runs & Er) end.
  { intros f Hf. apply In_nth_error in Hf. destruct Hf as (j & Hj). destruct (V j f Hj) as (g & seen & Hg & (m & t & S1 & S2 & S3 & S4 & S5)).
    destruct f as [|b f]; [eauto|]. destruct seen as [|e0 seen0] eqn:Es.
    - cbn [plain map log_file concat app] in S2. unfold replay_log. cbn [length replay_loop]. rewrite <- S2 in S3.
      destruct (torn_extract lr_init (b :: f) S3 ltac:(discriminate)) as (lr' & El & Ec). rewrite El, Ec. eexists. reflexivity.
    - rewrite <- Es in *. assert (Hne : seen <> []) by (rewrite Es; discriminate).
      destruct (Forall2_nth _ _ _ _ _ Ei Hj) as (inf & Hinf & _). destruct (SI j inf Hinf) as (f2 & seen2 & g2 & _).
      assert (HI3 : in_last inf = epoch_after 0 seen /\ in_first inf = first_epoch seen).
      { destruct (Forall2_nth _ _ _ _ _ Ei Hj) as (inf' & Hinf' & Hfi). rewrite Hinf in Hinf'. injection Hinf' as <-. destruct (file_info_ok junk seen t S5 S3) as (inf2 & I1 & I2 & I3 & _). rewrite <- S2, Hfi in I1. injection I1 as <-. auto. }
      destruct HI3 as [Il If].
      assert (Ilast : in_last inf <= max_epoch). { rewrite Forall_map, Forall_forall in M3. apply (M3 inf). now apply nth_error_In in Hinf. }
      assert (Ifirst : in_first inf <= max_first). { rewrite Forall_map, Forall_forall in N3. apply (N3 inf). now apply nth_error_In in Hinf. }
      assert (Hck : ck_min = 0 \/ first_epoch seen < ck_min) by (destruct AS as [?|(A1 & _)]; [auto|right; lia]).
      destruct (start_rule ck_min seen S5 Hne Hck) as [St Pos].
      assert (P0 : ck_min < rmax < 2 ^ 63) by (split; [destruct AS as [->|(_ & A2 & _)]; [apply R3; lia|lia]|lia]).
      destruct S5 as (A & B & C & D). destruct S3 as (ex & sx & k & X1 & X2 & X3 & ->).
      destruct (replay_torn ck_min rmax (plain seen) (ex, sx) k ltac:(lia) P0 (plain_ok _ A) X1 X2 X3) as (r' & Y1 & _); rewrite ?plain_entries; auto.
      unfold torn_file in Y1. cbn [fst snd] in Y1. rewrite S2. eauto. }
  rewrite Er. eexists. split; [reflexivity|]. cbn. intros Nz. split; auto. destruct AS as [?|(_ & _ & ?)]; [contradiction|auto].
Qed.

(* What is flushed is on disk, unless the log was quiescent when it was counted as flushed. *)
Record inv2 (g : lg) : Prop := MkInv2 {
  j_fl : l_flushed g <= epoch_after 0 (firstn (l_disk g) (l_all g)) \/ ends_quiescent (firstn (l_disk g) (l_all g)) = true;
  j_le : l_flushed g <= l_epoch g;
  j_xe : forall x, l_xe g = Some x -> x <= epoch_after 0 (firstn (l_sent g) (l_all g)) /\ l_flushed g <= x <= l_epoch g /\ (l_disk g < l_sent g)%nat;
  j_q : l_quiesce g <> 0 -> l_sent g = length (l_all g) /\ ends_quiescent (l_all g) = true;
  j_qf : l_quiesce g <> 0 -> l_flushed g = l_quiesce g -> l_disk g = length (l_all g) }.

Lemma firstn_old {A} n (a b : list A) : (n <= length a)%nat -> firstn n (a ++ b) = firstn n a.
Proof. intros H. rewrite firstn_app. replace (n - length a)%nat with 0%nat by lia. cbn. apply app_nil_r. Qed.
Lemma ends_app a e : ends_quiescent (a ++ [e]) = match e with EQuiesce => true | _ => false end.
Proof. unfold ends_quiescent. rewrite rev_app_distr. cbn. destruct e; reflexivity. Qed.
Ltac fields := cbn [l_epoch l_quiesce l_wake l_flushed l_all l_sent l_disk l_xe l_held l_stalled] in *.

Lemma commit2 ge we u g g' we' : inv ge g -> inv2 g -> is_upd u -> lg_commit we u g = Some (g', we') -> inv2 g' /\ l_flushed g <= l_flushed g'.
Proof.
  intros H [A1 A2 A3 A4 A5] Hu E. unfold lg_commit in E. destruct (l_held g) as [e|] eqn:He; [|discriminate]. cbv zeta in E. pose proof (i_held _ _ H e He) as (B1 & B2 & B3 & B4 & B5). pose proof (i_pos _ _ H) as Hp.
  injection E as <- _.
  match goal with |- inv2 (MkLg _ _ _ ?fl ?all _ _ _ _ _) /\ _ => set (f := fl); set (al := all) end.
  assert (F : f = l_flushed g \/ f = e /\ l_quiesce g <> 0 /\ l_flushed g = l_quiesce g).
  { unfold f. destruct (negb (l_quiesce g =? 0) && (l_flushed g =? l_quiesce g)) eqn:Q; [right|now left]. split; auto. lia. }
  assert (D : firstn (l_disk g) al = firstn (l_disk g) (l_all g)) by (apply firstn_old; lia).
  assert (D2 : firstn (l_sent g) al = firstn (l_sent g) (l_all g)) by (apply firstn_old; lia).
  split; [constructor|]; fields.
  - rewrite D. destruct F as [->|(-> & F1 & F2)]; [exact A1|right]. rewrite (A5 F1 F2), firstn_all. apply (A4 F1).
  - destruct F as [->|(-> & _)]; lia.
  - intros x Hx. rewrite D2. destruct (A3 x Hx) as (C1 & C2 & C3). split; auto. split; [|exact C3]. destruct F as [->|(-> & F1 & F2)]; [specialize (B5 x Hx); lia|].
    exfalso. pose proof (A5 F1 F2). pose proof (i_pos _ _ H). lia.
  - intros []; reflexivity.
  - intros []; reflexivity.
  - destruct F as [->|(-> & _)]; lia.
Qed.
Lemma logger2 ge we g g' : inv ge g -> inv2 g -> 0 < ge -> lg_logger ge we g = Some g' -> inv2 g' /\ l_flushed g <= l_flushed g'.
Proof.
  intros H [A1 A2 A3 A4 A5] Hge E. unfold lg_logger in E. destruct (l_held g) eqn:He; [discriminate|]. destruct (l_xe g) eqn:Hx; [discriminate|]. cbv zeta in E.
  pose proof (i_pos _ _ H) as Hp. pose proof (i_le _ _ H) as Hle. pose proof (i_idle _ _ H Hx) as Hid.
  set (q := if l_wake g =? we then l_quiesce g else 0) in *. assert (Hq : q = 0 \/ q = l_quiesce g) by (unfold q; destruct (l_wake g =? we); auto).
  match type of E with context [if ?c then (ge, ge, _) else _] => destruct c eqn:C end.
  - set (nw := [EEpoch ge] ++ (if ge =? we then [EWake] else []) ++ [EQuiesce]) in *.
    assert (C1 : ge <> l_epoch g) by lia.
    assert (L : (l_sent g <? length (l_all g ++ nw))%nat = true) by (apply Nat.ltb_lt; rewrite app_length; unfold nw; destruct (ge =? we); cbn; lia).
    rewrite L in E. injection E as <-. apply Nat.ltb_lt in L.
    assert (EA : epoch_after 0 (l_all g ++ nw) = ge) by (rewrite epoch_after_app; unfold nw; destruct (ge =? we); reflexivity).
    assert (EQ : ends_quiescent (l_all g ++ nw) = true) by (unfold nw; rewrite !app_assoc; rewrite ends_app; reflexivity).
    split; [constructor|]; fields; try lia.
    + rewrite firstn_old by lia. exact A1.
    + intros x Hxx. injection Hxx as <-. rewrite firstn_all, EA. lia.
    + auto.
  - destruct (l_sent g <? length (l_all g))%nat eqn:L.
    + injection E as <-. apply Nat.ltb_lt in L. assert (NQ : l_quiesce g = 0) by (destruct (Z.eq_dec (l_quiesce g) 0) as [|N]; auto; destruct (A4 N); lia).
      assert (q = 0) as -> by lia. split; [constructor|]; fields; try lia; auto.
      intros x Hxx. injection Hxx as <-. rewrite firstn_all. destruct (i_ok _ _ H) as (_ & _ & Sm & _). pose proof (small_bound (l_all g) 0 Sm ltac:(lia)). lia.
    + injection E as <-. split; [constructor|]; fields; try lia; auto; try discriminate; (destruct Hq as [Z0|Q]; [intros N; lia|rewrite Q; auto]).
Qed.
Lemma synced2 ge g g' : inv ge g -> inv2 g -> lg_synced g = Some g' -> inv2 g' /\ l_flushed g <= l_flushed g'.
Proof.
  intros H [A1 A2 A3 A4 A5] E. unfold lg_synced in E. destruct (l_xe g) as [x|] eqn:Hx; [|discriminate]. injection E as <-. destruct (A3 x eq_refl) as (B1 & B2 & B3).
  split; [constructor|]; fields; try lia; auto; try discriminate; intros N; intros; apply A4; exact N.
Qed.
Lemma begin2 ge g g' : inv2 g -> lg_begin ge g = Some g' -> inv2 g' /\ l_flushed g <= l_flushed g'.
Proof. intros [A1 A2 A3 A4 A5] E. unfold lg_begin in E. destruct (l_held g); [discriminate|]. injection E as <-. split; [constructor; auto|fields; lia]. Qed.

(* Logs of a run and the same logs later. *)
Definition later (l l' : list lg) : Prop := Forall2 (fun g g' => inv2 g' /\ l_flushed g <= l_flushed g') l l'.
Lemma later_refl l : Forall inv2 l -> later l l.
Proof. induction 1; constructor; auto. split; auto. lia. Qed.
Lemma later_set : forall l i g g', Forall inv2 l -> nth_error l i = Some g -> inv2 g' -> l_flushed g <= l_flushed g' -> later l (set_log i g' l).
Proof.
  induction l as [|x l IH]; intros [|i] g g' F N I L; cbn in *; try discriminate; inversion F; subst.
  - injection N as ->. constructor; auto. now apply later_refl.
  - constructor; [split; auto; lia|]. eapply IH; eauto.
Qed.
Lemma later_inv l l' : later l l' -> Forall inv2 l'.
Proof. induction 1; constructor; tauto. Qed.
Lemma later_trans l l' : later l l' -> forall l'', later l' l'' -> later l l''.
Proof.
  induction 1 as [|g g' l l' [A B] F IH]; intros l'' H; inversion H as [|? g'' ? l2 [C D] F']; subst; constructor; [split; auto; lia|]. now apply IH.
Qed.
Lemma step2 s a s' : Forall (inv (s_epoch s)) (s_logs s) -> 0 < s_epoch s -> Forall inv2 (s_logs s) -> (forall i, a <> Stall i) -> (forall i u, a = Commit i u -> is_upd u) ->
  ls_step s a = Some s' -> later (s_logs s) (s_logs s').
Proof.
  intros V Hge F NS HU E. pose proof (proj1 (Forall_forall _ _) V) as V'. pose proof (proj1 (Forall_forall _ _) F) as F'.
  assert (ON : forall i f, (forall g g', inv (s_epoch s) g -> inv2 g -> f g = Some g' -> inv2 g' /\ l_flushed g <= l_flushed g') -> on_log i f s = Some s' -> later (s_logs s) (s_logs s')).
  { intros i f Hf X. unfold on_log in X. destruct (nth_error (s_logs s) i) as [g|] eqn:N; [|discriminate]. destruct (f g) as [g'|] eqn:G; [|discriminate]. injection X as <-. cbn [s_logs].
    pose proof (nth_error_In _ _ N) as M. destruct (Hf g g' (V' g M) (F' g M) G). eapply later_set; eauto. }
  destruct a as [|i|i|i|i u|i|i]; cbn [ls_step] in E.
  - injection E as <-. cbn. now apply later_refl.
  - eapply ON; [|exact E]. intros. eapply begin2; eauto.
  - exfalso. eapply NS; eauto.
  - eapply ON; [|exact E]. intros g g' I _ X. unfold lg_resume in X. pose proof (i_stall _ _ I) as S0. rewrite S0 in X. destruct (l_held g); discriminate.
  - destruct (nth_error (s_logs s) i) as [g|] eqn:N; [|discriminate]. destruct (lg_commit (s_wake s) u g) as [[g' we]|] eqn:G; [|discriminate]. injection E as <-. cbn [s_logs].
    pose proof (nth_error_In _ _ N) as M. destruct (commit2 _ _ _ _ _ _ (V' g M) (F' g M) (HU i u eq_refl) G). eapply later_set; eauto.
  - eapply ON; [|exact E]. intros. eapply logger2; eauto.
  - eapply ON; [|exact E]. intros. eapply synced2; eauto.
Qed.
Lemma run2 : forall l s s', Forall (inv (s_epoch s)) (s_logs s) -> 0 < s_epoch s -> s_epoch s + len l < 2 ^ 63 -> no_stalls l -> updates_ok l -> Forall inv2 (s_logs s) ->
  ls_run s l = Some s' -> later (s_logs s) (s_logs s').
Proof.
  induction l as [|a l IH]; intros s s' V Hg1 Hg2 Hns Hu F E; cbn [ls_run] in E; [injection E as <-; now apply later_refl|].
  destruct (ls_step s a) as [s1|] eqn:Es; [|discriminate]. unfold len in *. cbn [length] in Hg2.
  assert (N1 : forall i, a <> Stall i) by (intros i ->; apply (Hns i); now left).
  assert (L : later (s_logs s) (s_logs s1)). { eapply step2; eauto. intros i u ->. apply (Hu i u). now left. }
  destruct (step_inv s a s1 V Hg1 ltac:(lia) N1) as [A B]; auto. { intros i u ->. apply (Hu i u). now left. }
  eapply later_trans; [exact L|]. eapply IH; eauto; try lia; try (intros i Hi; apply (Hns i); now right); try (intros i u Hi; apply (Hu i u); now right). eapply later_inv; eauto.
Qed.
Lemma init2 epoch old : old_ok epoch old -> Forall inv2 (s_logs (ls_init epoch old)).
Proof.
  intros [_ H]. cbn [ls_init s_logs]. apply Forall_map. apply Forall_impl with (2 := H). intros l [(_ & _ & Sm & _) _]. unfold lg_init. constructor; fields; try lia; try discriminate.
  left. rewrite firstn_all. pose proof (small_bound l 0 Sm ltac:(lia)). lia.
Qed.
Lemma run_app : forall a b s s1, ls_run s a = Some s1 -> ls_run s (a ++ b) = ls_run s1 b.
Proof. induction a as [|x a IH]; intros b s s1 H; cbn in *; [congruence|]. destruct (ls_step s x); [|discriminate]. now apply IH. Qed.
Lemma epoch_mono l a b : epochs_from 0 l -> (a <= b)%nat -> epoch_after 0 (firstn a l) <= epoch_after 0 (firstn b l).
Proof.
  intros H L. replace (firstn a l) with (firstn a (firstn b l)) by (rewrite firstn_firstn; f_equal; lia).
  assert (B : epochs_from 0 (firstn b l)) by now apply epochs_firstn. rewrite <- (firstn_skipn a (firstn b l)) in B at 1. apply epochs_from_app in B. destruct B as [_ B].
  rewrite <- (firstn_skipn a (firstn b l)) at 2. rewrite epoch_after_app. apply (tagged_le _ _ B).
Qed.

(* A checkpoint committed while every log is being written, and a crash while none is quiescent. *)
Lemma ck_restart epoch old acts1 acts2 s1 s junk ck_min ck_max files : old_ok epoch old -> epoch + len (acts1 ++ acts2) < 2 ^ 63 -> no_stalls (acts1 ++ acts2) -> updates_ok (acts1 ++ acts2) ->
  ls_run (ls_init epoch old) acts1 = Some s1 -> ls_run s1 acts2 = Some s -> Forall2 crash_file (s_logs s) files -> 0 < ck_min <= ck_max -> ck_max < 2 ^ 63 - 1 ->
  may_commit s1 ck_max = true -> (forall g, In g (s_logs s1) -> if lg_quiescent g then ck_max < l_flushed g else l_flushed g <> 0) ->
  (forall g, In g (s_logs s) -> first_epoch (l_all g) < ck_min /\ (ends_quiescent (firstn (l_disk g) (l_all g)) = true -> ck_max < epoch_after 0 (firstn (l_disk g) (l_all g)))) ->
  exists r, recover junk ck_min ck_max files = Some r /\ rec_min r = ck_min /\ ck_max < rec_max r.
Proof.
  intros H1 H2 H3 H4 R1 R2 HF Hck Hmax HM HQ HC.
  pose proof (run_app acts1 acts2 _ _ R1) as R. rewrite R2 in R.
  assert (L1 : len acts1 + len acts2 = len (acts1 ++ acts2)) by (unfold len; rewrite app_length; lia).
  assert (L2 : 0 <= len acts1 /\ 0 <= len acts2) by (unfold len; lia).
  assert (N1 : no_stalls acts1) by (intros i Hi; apply (H3 i), in_app_iff; auto). assert (N2 : no_stalls acts2) by (intros i Hi; apply (H3 i), in_app_iff; auto).
  assert (U1 : updates_ok acts1) by (intros i u Hi; apply (H4 i u), in_app_iff; auto). assert (U2 : updates_ok acts2) by (intros i u Hi; apply (H4 i u), in_app_iff; auto).
  destruct (reach_inv epoch old acts1 s1 H1 ltac:(lia) N1 U1 R1) as [V1 E1]. destruct (reach_inv _ _ _ _ H1 H2 H3 H4 R) as [V E].
  pose proof (run2 acts1 _ _ (init_inv epoch old H1) (proj1 H1) ltac:(cbn; lia) N1 U1 (init2 epoch old H1) R1) as LT1.
  assert (EP : s_epoch s1 + len acts2 < 2 ^ 63).
  { assert (G : forall l s0 s0', Forall (inv (s_epoch s0)) (s_logs s0) -> 0 < s_epoch s0 -> s_epoch s0 + len l < 2 ^ 63 -> no_stalls l -> updates_ok l -> ls_run s0 l = Some s0' -> s_epoch s0' <= s_epoch s0 + len l).
    { induction l as [|a l IH]; intros s0 s0' W G1 G2 G3 G4 G5; cbn [ls_run] in G5; [injection G5 as <-; unfold len; cbn; lia|]. destruct (ls_step s0 a) as [s2|] eqn:Es; [|discriminate]. unfold len in *. cbn [length] in G2 |- *.
      destruct (step_inv s0 a s2 W G1 ltac:(lia)) as [A B]; auto. { intros i ->. apply (G3 i). now left. } { intros i u ->. apply (G4 i u). now left. }
      specialize (IH s2 s0' A ltac:(lia) ltac:(lia)). rewrite (Nat2Z.inj_succ (length l)). assert (X : s_epoch s0' <= s_epoch s2 + Z.of_nat (length l)); [|lia].
      apply IH; auto; [intros i Hi; apply (G3 i); now right|intros i u Hi; apply (G4 i u); now right]. }
    specialize (G acts1 _ _ (init_inv epoch old H1) (proj1 H1) ltac:(cbn; lia) N1 U1 R1). cbn [ls_init s_epoch] in G. lia. }
  pose proof (run2 acts2 _ _ V1 ltac:(lia) EP N2 U2 (later_inv _ _ LT1) R2) as LT2.
  assert (FL : forall g, In g (s_logs s1) -> ck_max < l_flushed g).
  { rewrite Forall_forall in V1. assert (SF : forall g, In g (s_logs s1) -> small (l_flushed g) /\ (lg_quiescent g = false -> 0 < l_flushed g)).
    { intros g Hg. pose proof (i_fl _ _ (V1 g Hg)). pose proof (HQ g Hg) as X. destruct (lg_quiescent g); split; intros; try lia; discriminate. }
    destruct (mfe_fold (s_epoch s1) ltac:(lia) ltac:(lia) (s_logs s1) 0 ltac:(lia) SF) as (A & _ & C).
    intros g Hg. specialize (C g Hg). pose proof (HQ g Hg) as HQg. destruct (lg_quiescent g) eqn:Qg; [exact HQg|]. specialize (C eq_refl). cbv zeta in A, C. change (small (max_flushed_epoch s1)) in A. change (max_flushed_epoch s1 <= l_flushed g) in C. set (mf := max_flushed_epoch s1) in *. unfold may_commit in HM. cbv zeta in HM. fold mf in HM. apply orb_true_iff in HM. destruct HM as [HM|HM].
    - exfalso. assert (0 < mf); [unfold mf|lia]. destruct (s_logs s1) as [|g0 l0] eqn:El; [destruct Hg|]. unfold max_flushed_epoch. rewrite El. cbn [fold_left]. cbn [Z.eqb orb]. cbv zeta.
      assert (X : small (if lg_quiescent g0 then s_epoch s1 else l_flushed g0) /\ 0 < (if lg_quiescent g0 then s_epoch s1 else l_flushed g0)).
      { destruct (SF g0 (or_introl eq_refl)) as [X Y]. destruct (lg_quiescent g0); [lia|]. auto. }
      destruct (mfe_fold (s_epoch s1) ltac:(lia) ltac:(lia) l0 _ (proj1 X) (fun g' I => SF g' (or_intror I))) as (_ & B & _). apply B. apply X.
    - rewrite elt_small in HM by (auto; lia). lia. }
  assert (FIT : Forall (fits_ck ck_min ck_max) (s_logs s)).
  { apply Forall_nth. intros j g Hj. destruct (Forall2_nth_r _ _ _ _ _ LT2 Hj) as (g1 & Hg1 & I2 & Lf). pose proof (FL g1 (nth_error_In _ _ Hg1)) as F1.
    destruct (HC g (nth_error_In _ _ Hj)) as [Ff Fq]. rewrite Forall_forall in V. pose proof (V g (nth_error_In _ _ Hj)) as Ig. destruct (i_ok _ _ Ig) as (O1 & O2 & O3 & O4). pose proof (i_pos _ _ Ig) as Hp.
    intros m Hm. split.
    - destruct (l_all g) as [|[] l0]; try contradiction; [destruct m; cbn; lia|]. destruct m as [|m]; [cbn; lia|]. cbn [firstn first_epoch] in *. cbn [epochs_small] in O3. replace (e =? 0) with false in * by lia. exact Ff.
    - pose proof (epoch_mono (l_all g) (l_disk g) m O2 ltac:(lia)). destruct (j_fl _ I2) as [X|X]; [|specialize (Fq X)]; lia. }
  destruct (recover_starts epoch old (acts1 ++ acts2) s junk ck_min ck_max files H1 H2 H3 H4 R HF ltac:(lia) ltac:(lia) (or_intror FIT)) as (r & Hr & Hm). exists r. split; auto. apply Hm. lia.
Qed.
