(* Recovery from the files of several logs. *)
From Verif Require Import Lib M_Key P_Key M_Circular P_Circular M_Msgpack M_Bag M_Log Spec_Log M_Logfile P_Log1 P_Log2 P_Log3 P_Log4 M_Logset P_Logset.

Notation small e := (0 <= e < 2 ^ 63).
Lemma elt_small a b : small a -> small b -> elt a b = (a <? b).
Proof. apply ci_lt_small. Qed.
Lemma ele_small a b : small a -> small b -> ele a b = (a <=? b).
Proof. intros Ha Hb. unfold ele, ci_le. change (ci_less 64 b a) with (ci_lt 64 b a). rewrite ci_lt_small by auto. lia. Qed.

Lemma up_max_ok l : Forall (fun e => small e) l -> forall s, small s -> small (up_max l s) /\ s <= up_max l s /\ Forall (fun e => e <= up_max l s) l.
Proof.
  unfold up_max. induction 1 as [|e l He Hl IH]; intros s Hs; cbn [fold_left]; [repeat split; auto; lia|].
  rewrite elt_small by auto. set (s' := if negb (e =? 0) && ((s =? 0) || (s <? e)) then e else s).
  assert (small s') by (unfold s'; destruct (_ && _); auto). assert (s <= s' /\ e <= s') by (unfold s'; destruct (negb (e =? 0) && ((s =? 0) || (s <? e))) eqn:E; lia).
  destruct (IH s' H) as (A & B & C). repeat split; try lia. constructor; [lia|auto].
Qed.
Lemma replay_max_ok l : Forall (fun x => small (in_last (fst x)) /\ small (snd x)) l -> forall s, small s ->
  small (replay_max l s) /\ replay_max l s <= s /\ (0 < s -> 0 < replay_max l s) /\
  Forall (fun x => in_quiescent (fst x) = false -> in_last (fst x) <> 0 -> replay_max l s <= in_last (fst x)) l.
Proof.
  unfold replay_max. induction 1 as [|[it w] l [He Hw] Hl IH]; intros s Hs; cbn [fold_left fst snd] in *; [repeat split; auto; lia|].
  rewrite (elt_small (in_last it) s) by auto.
  set (s1 := if negb (in_quiescent it) && negb (in_last it =? 0) && (in_last it <? s) then in_last it else s).
  assert (H1 : small s1 /\ s1 <= s /\ (0 < s -> 0 < s1) /\ (in_quiescent it = false -> in_last it <> 0 -> s1 <= in_last it)).
  { unfold s1. destruct (negb (in_quiescent it) && negb (in_last it =? 0) && (in_last it <? s)) eqn:E; repeat split; try lia. intros Hq Hn. rewrite Hq in E. cbn [negb andb] in E. lia. }
  rewrite (elt_small w s1) by (auto; lia). set (s2 := if negb (w =? 0) && (w <? s1) then w else s1).
  assert (H2 : small s2 /\ s2 <= s1 /\ (0 < s1 -> 0 < s2)). { unfold s2. destruct (negb (w =? 0) && (w <? s1)) eqn:E; repeat split; lia. }
  destruct H1 as (A1 & A2 & A3 & A4). destruct H2 as (B1 & B2 & B3). destruct (IH s2 B1) as (C1 & C2 & C3 & C4).
  split; [auto|]. split; [lia|]. split; [intros; apply C3, B3, A3; auto|]. constructor; [|exact C4]. cbn [fst]. intros Hq Hn. specialize (A4 Hq Hn). lia.
Qed.

Lemma min_quiescent_small l : Forall (fun e => small e) (map in_last l) -> small (min_quiescent l).
Proof.
  assert (G : forall l s0, Forall (fun e => small e) (map in_last l) -> small s0 ->
      small (fold_left (fun acc it => if in_quiescent it && ((acc =? 0) || elt (in_last it) acc) then in_last it else acc) l s0)).
  { clear l. induction l as [|it l IHl]; intros s0 Hl Hs0; cbn [fold_left]; [exact Hs0|]. inversion Hl as [|? ? Hi Hl']; subst. apply IHl; [exact Hl'|].
    destruct (in_quiescent it && ((s0 =? 0) || elt (in_last it) s0)); [exact Hi|exact Hs0]. }
  intros H. apply G; [exact H|lia].
Qed.
Lemma plain_ok l : Forall entry_ok l -> file_ok (plain l).
Proof. intros H. unfold file_ok, plain. apply Forall_map. apply Forall_impl with (2 := H). intros e He. cbn. auto. Qed.
Lemma plain_entries l : entries (plain l) = l.
Proof. unfold entries, plain. rewrite map_map. cbn. apply map_id. Qed.
Lemma plain_firstn m l : firstn m (plain l) = plain (firstn m l).
Proof. unfold plain. apply firstn_map. Qed.
Lemma log_file_mono a b l : (a <= b)%nat -> (length (log_file (firstn a l)) <= length (log_file (firstn b l)))%nat.
Proof.
  intros H. replace (firstn a l) with (firstn a (firstn b l)) by (rewrite firstn_firstn; f_equal; lia).
  rewrite <- (firstn_skipn a (firstn b l)) at 2. rewrite file_app, app_length. lia.
Qed.
Lemma log_ok_firstn m l : log_ok l -> log_ok (firstn m l).
Proof.
  intros (A & B & C & D). split; [|split; [now apply epochs_firstn|split; [now apply small_firstn|]]].
  - rewrite <- (firstn_skipn m l) in A. apply Forall_app in A. tauto.
  - destruct l as [|e l], m; cbn [firstn]; auto.
Qed.

Lemma crash_view ge g f : inv ge g -> crash_file g f -> exists m t, f = log_file (plain (firstn m (l_all g))) ++ t /\ torn t /\ (l_disk g <= m <= length (l_all g))%nat.
Proof.
  intros H (n & Hn & ->). pose proof (i_pos _ _ H) as Hp. pose proof (i_ok _ _ H) as (Hk & _).
  destruct (log_ok_firstn (l_sent g) _ (i_ok _ _ H)) as (Hk' & _). pose proof (plain_ok _ Hk') as Hf.
  destruct (le_lt_dec n (length (log_file (plain (firstn (l_sent g) (l_all g)))))) as [L|L].
  - destruct (cut_split _ Hf n L) as (m & t & E & Ht & E1 & E2 & E3). unfold plain in E2, E3 at 1. rewrite map_length, firstn_length_le in E2, E3 by lia.
    rewrite plain_firstn, firstn_firstn in E. replace (Nat.min m (l_sent g)) with m in E by lia. exists m, t. split; auto. split; auto. split; [|lia].
    destruct (le_lt_dec (l_disk g) m) as [L2|L2]; auto. exfalso. specialize (E3 ltac:(lia)). rewrite plain_firstn, firstn_firstn in E3. replace (Nat.min (S m) (l_sent g)) with (S m) in E3 by lia.
    pose proof (log_file_mono (S m) (l_disk g) (plain (l_all g)) ltac:(lia)) as M. rewrite !plain_firstn in M. lia.
  - exists (l_sent g), []. rewrite app_nil_r, firstn_all2 by lia. split; auto. split; [apply torn_nil|lia].
Qed.

Lemma first_epoch_small l : epochs_small l -> small (first_epoch l).
Proof. induction l as [|e l IH]; cbn; [lia|]. destruct e; auto. intros [H1 H2]. destruct (e =? 0); auto. lia. Qed.
Lemma wake_after_small l : forall c w, small c -> small w -> epochs_small l -> small (wake_after c w l).
Proof. induction l as [|e l IH]; intros c w Hc Hw Hs; cbn [wake_after]; auto. destruct e; cbn [epochs_small] in Hs; try (apply IH; auto; fail). destruct Hs. apply IH; auto. lia. Qed.
Lemma first_wake_small l : forall c q, small c -> epochs_small l -> small (first_wake c q l).
Proof. induction l as [|e l IH]; intros c q Hc Hs; cbn [first_wake]; [lia|]. destruct e; cbn [epochs_small] in Hs; try (apply IH; auto; fail). - destruct Hs. apply IH; auto. lia. - destruct (_ && _); auto. Qed.

Lemma file_info_ok junk seen t : log_ok seen -> torn t -> exists inf, file_info junk (log_file (plain seen) ++ t) = Some inf /\
  in_first inf = first_epoch seen /\ in_last inf = epoch_after 0 seen /\ in_wake inf = wake_after 0 0 seen /\ (seen <> [] -> in_quiescent inf = ends_quiescent seen).
Proof.
  intros (A & B & C & D) Ht. unfold file_info. destruct (log_file (plain seen) ++ t) as [|b s] eqn:E.
  - eexists. split; [reflexivity|]. destruct seen as [|e seen]; [cbn; repeat split; auto; easy|]. exfalso. change (plain (e :: seen)) with ((e, [0; 0; 0; 0]) :: plain seen) in E. rewrite file_cons in E. cbn [fst snd] in E. rewrite <- app_assoc in E. now apply store_nonnil in E.
  - rewrite <- E. unfold log_info. rewrite (info_ok (plain seen) (plain_ok _ A)); rewrite ?plain_entries; auto; cbn [inf_init in_first in_last in_wake in_quiescent]; try lia.
    eexists. split; [reflexivity|]. cbn [in_first in_last in_wake in_quiescent]. repeat split; auto. intros Hn. destruct seen; easy.
Qed.
Lemma file_mpqw_ok q seen t : log_ok seen -> torn t -> small q -> log_mpqw q (log_file (plain seen) ++ t) = Some (first_wake 0 q seen).
Proof. intros (A & B & C & D) Ht Hq. unfold log_mpqw. rewrite (mpqw_ok (plain seen) (plain_ok _ A)); rewrite ?plain_entries; auto; lia. Qed.

Lemma all_some_map {A B} (f : A -> option B) l r : all_some (map f l) = Some r -> Forall2 (fun x y => f x = Some y) l r.
Proof.
  revert r. induction l as [|x l IH]; intros r H; cbn [map all_some] in H; [injection H as <-; constructor|].
  destruct (f x) eqn:E; [|discriminate]. destruct (all_some (map f l)) eqn:E2; [|discriminate]. injection H as <-. constructor; auto.
Qed.
Lemma Forall2_nth {A B} (P : A -> B -> Prop) l r i x : Forall2 P l r -> nth_error l i = Some x -> exists y, nth_error r i = Some y /\ P x y.
Proof. intros H. revert i. induction H as [|a b l r Hab H IH]; intros [|i] E; cbn in *; try discriminate; [injection E as <-; eauto|auto]. Qed.
Lemma Forall2_nth_r {A B} (P : A -> B -> Prop) l r i y : Forall2 P l r -> nth_error r i = Some y -> exists x, nth_error l i = Some x /\ P x y.
Proof. intros H. revert i. induction H as [|a b l r Hab H IH]; intros [|i] E; cbn in *; try discriminate; [injection E as <-; eauto|auto]. Qed.
Lemma Forall2_length {A B} (P : A -> B -> Prop) l r : Forall2 P l r -> length l = length r. Proof. induction 1; cbn; auto. Qed.
Lemma nth_combine {A B} (l : list A) (r : list B) i x y : nth_error l i = Some x -> nth_error r i = Some y -> nth_error (combine l r) i = Some (x, y).
Proof. revert r i. induction l as [|a l IH]; intros [|b r] [|i] H1 H2; cbn in *; try discriminate; [congruence|auto]. Qed.
Lemma combine_nth {A B} (l : list A) (r : list B) i z : nth_error (combine l r) i = Some z -> nth_error l i = Some (fst z) /\ nth_error r i = Some (snd z).
Proof. revert r i. induction l as [|a l IH]; intros [|b r] [|i] H; cbn in *; try discriminate; [injection H as <-; auto|auto]. Qed.
Lemma Forall_nth {A} (P : A -> Prop) l : (forall i x, nth_error l i = Some x -> P x) -> Forall P l.
Proof. intros H. apply Forall_forall. intros x Hx. apply In_nth_error in Hx. destruct Hx as [i Hi]. eauto. Qed.

(* What a file of a crashed log shows: the first entries of everything recorded. *)
Definition shows (g : lg) (f : list Z) (seen : list entry) : Prop :=
  exists m t, seen = firstn m (l_all g) /\ f = log_file (plain seen) ++ t /\ torn t /\ (l_disk g <= m <= length (l_all g))%nat /\ log_ok seen.

Lemma start_rule ck seen : log_ok seen -> seen <> [] -> (ck = 0 \/ first_epoch seen < ck) -> starts_before ck seen /\ 0 < epoch_after 0 seen.
Proof.
  intros (A & B & C & D) Hn Hc. destruct seen as [|[] seen]; try easy. cbn in B, C |- *. destruct B as [_ B]. cbn [first_epoch] in Hc.
  destruct (tagged_le e seen B) as [_ G]. replace (e =? 0) with false in Hc by lia. repeat split; lia.
Qed.

Lemma recover_log epoch old acts s junk ck_min ck_max files r i g f run : old_ok epoch old -> epoch + len acts < 2 ^ 63 -> no_stalls acts -> updates_ok acts ->
  ls_run (ls_init epoch old) acts = Some s -> Forall2 crash_file (s_logs s) files -> small ck_min -> 0 <= ck_max < 2 ^ 63 - 1 ->
  recover junk ck_min ck_max files = Some r -> nth_error (s_logs s) i = Some g -> nth_error files i = Some f -> nth_error (rec_logs r) i = Some run ->
  exists seen inf, shows g f seen /\ file_info junk f = Some inf /\ in_last inf = epoch_after 0 seen /\ rec_min r = ck_min /\
    map view (rp_run run) = map (fun x => Some (snd x)) (filter has_key (wanted (rec_min r) (rec_max r) seen)) /\
    (in_quiescent inf = false -> in_last inf <> 0 -> wanted (rec_min r) (rec_max r) seen = wanted (rec_min r) (rec_max r) (l_all g)).
Proof.
  intros H1 H2 H3 H4 H5 HF Hmin Hmax HR Hg Hf Hrun. destruct (reach_inv _ _ _ _ H1 H2 H3 H4 H5) as [HI _].
  unfold recover in HR. destruct (all_some (map (file_info junk) files)) as [infos|] eqn:Ei; [|discriminate]. apply all_some_map in Ei.
  set (max_epoch := up_max (map in_last infos) (if ck_max =? 0 then 0 else ci_next_nonzero 64 ck_max)) in *.
  set (max_first := up_max (map in_first infos) 0) in *. set (max_wake := up_max (map in_wake infos) 0) in *.
  set (qe := if negb (max_wake =? 0) && ele (min_quiescent infos) max_wake then min_quiescent infos else 0) in *.
  match type of HR with (match ?x with Some _ => _ | None => None end) = _ => destruct x as [wakes|] eqn:Ew; [|discriminate] end. apply all_some_map in Ew.
  set (rmax := replay_max (combine infos wakes) max_epoch) in *.
  destruct (negb (ck_min =? 0) && negb (elt max_first ck_min && elt ck_min rmax && elt ck_max rmax)) eqn:Ea; [discriminate|].
  match type of HR with (match ?x with Some _ => _ | None => None end) = _ => destruct x as [runs|] eqn:Er; [|discriminate] end. apply all_some_map in Er. injection HR as <-. cbn [rec_min rec_max rec_logs] in *.
  (* every log *)
  assert (V : forall j f, nth_error files j = Some f -> exists g seen, nth_error (s_logs s) j = Some g /\ shows g f seen).
  { intros j f' Hj. destruct (Forall2_nth_r _ _ _ _ _ HF Hj) as (g' & Hg' & Hc). rewrite Forall_forall in HI. pose proof (HI g' (nth_error_In _ _ Hg')) as I'.
    destruct (crash_view _ _ _ I' Hc) as (m & t & E & Ht & Hm). exists g', (firstn m (l_all g')). split; auto. exists m, t. repeat split; auto; try lia; apply (log_ok_firstn m _ (i_ok _ _ I')). }
  assert (SI : forall j inf, nth_error infos j = Some inf -> exists f seen g, nth_error files j = Some f /\ shows g f seen /\ in_first inf = first_epoch seen /\ in_last inf = epoch_after 0 seen /\ in_wake inf = wake_after 0 0 seen).
  { intros j inf Hj. destruct (Forall2_nth_r _ _ _ _ _ Ei Hj) as (f' & Hf' & Hi). destruct (V j f' Hf') as (g' & seen & Hg' & Hs). exists f', seen, g'.
    destruct Hs as (m & t & S1 & S2 & S3 & S4 & S5). destruct (file_info_ok junk seen t S5 S3) as (inf' & I1 & I2 & I3 & I4 & I5). rewrite <- S2, Hi in I1. injection I1 as <-.
    repeat split; auto. exists m, t. auto. }
  assert (SL : Forall (fun e => small e) (map in_last infos)).
  { apply Forall_map, Forall_nth. intros j inf Hj. destruct (SI j inf Hj) as (f' & seen & g' & _ & (m & t & _ & _ & _ & _ & (_ & _ & C & _)) & _ & -> & _). apply small_bound; auto; lia. }
  assert (SFi : Forall (fun e => small e) (map in_first infos)).
  { apply Forall_map, Forall_nth. intros j inf Hj. destruct (SI j inf Hj) as (f' & seen & g' & _ & (m & t & _ & _ & _ & _ & (_ & _ & C & _)) & -> & _ & _). now apply first_epoch_small. }
  assert (SWi : Forall (fun e => small e) (map in_wake infos)).
  { apply Forall_map, Forall_nth. intros j inf Hj. destruct (SI j inf Hj) as (f' & seen & g' & _ & (m & t & _ & _ & _ & _ & (_ & _ & C & _)) & _ & _ & ->). apply wake_after_small; auto; lia. }
  assert (Sck : small (if ck_max =? 0 then 0 else ci_next_nonzero 64 ck_max)) by (destruct (ck_max =? 0) eqn:Ec; [lia|rewrite next_small; lia]).
  destruct (up_max_ok _ SL _ Sck) as (M1 & M2 & M3). fold max_epoch in M1, M2, M3.
  destruct (up_max_ok _ SFi 0 ltac:(lia)) as (N1 & N2 & N3). fold max_first in N1, N2, N3.
  destruct (up_max_ok _ SWi 0 ltac:(lia)) as (W1 & W2 & W3). fold max_wake in W1, W2, W3.
  assert (Sq : small (min_quiescent infos)).
  { now apply min_quiescent_small. }
  assert (Sqe : small qe) by (unfold qe; destruct (negb (max_wake =? 0) && ele (min_quiescent infos) max_wake); [exact Sq|lia]).
  assert (SX : Forall (fun x => small (in_last (fst x)) /\ small (snd x)) (combine infos wakes)).
  { apply Forall_nth. intros j [inf w] Hj. apply combine_nth in Hj. destruct Hj as [J1 J2]. cbn [fst snd] in *. split.
    - rewrite Forall_map, Forall_forall in SL. apply (SL inf). now apply nth_error_In in J1.
    - destruct (Forall2_nth_r _ _ _ _ _ Ew J2) as ([f' inf'] & Hc & Hw). cbn [fst snd] in Hw. apply combine_nth in Hc. destruct Hc as [C1 C2]. cbn [fst snd] in *.
      destruct (V j f' C1) as (g' & seen & _ & (m & t & S1 & S2 & S3 & S4 & S5)).
      assert (Hw2 : w = 0 \/ log_mpqw qe f' = Some w).
      { destruct f'; [injection Hw as <-; auto|]. destruct (negb (qe =? 0) && ele qe (in_wake inf')); [auto|injection Hw as <-; auto]. }
      destruct Hw2 as [->|Hw2]; [lia|]. rewrite S2, (file_mpqw_ok qe seen t S5 S3 Sqe) in Hw2. injection Hw2 as <-. apply first_wake_small; [lia|apply S5]. }
  destruct (replay_max_ok _ SX max_epoch M1) as (R1 & R2 & R3 & R4). fold rmax in R1, R2, R3, R4.
  (* this log *)
  destruct (V i f Hf) as (g0 & seen & Hg0 & Hs). rewrite Hg in Hg0. injection Hg0 as <-.
  destruct (Forall2_nth _ _ _ _ _ Ei Hf) as (inf & Hinf & HI2). exists seen, inf.
  assert (Hs' := Hs). destruct Hs' as (m & t & S1 & S2 & S3 & S4 & S5). destruct (file_info_ok junk seen t S5 S3) as (inf' & I1 & I2 & I3 & I4 & I5). rewrite <- S2, HI2 in I1. injection I1 as <-.
  assert (Ilast : in_last inf <= max_epoch).
  { rewrite Forall_map, Forall_forall in M3. apply (M3 inf). now apply nth_error_In in Hinf. }
  assert (Ifirst : in_first inf <= max_first).
  { rewrite Forall_map, Forall_forall in N3. apply (N3 inf). now apply nth_error_In in Hinf. }
  split; auto. split; auto. split; auto. split; auto.
  destruct (Forall2_nth _ _ _ _ _ Er Hf) as (run' & Hr1 & Hr2). rewrite Hrun in Hr1. injection Hr1 as <-.
  split.
  - destruct seen as [|e0 seen0] eqn:Es.
    + (* nothing complete in the file *)
      cbn [plain map log_file concat app] in S2. unfold wanted. cbn [tagged filter map]. assert (run = MkRp [] 0 0) as ->; [|reflexivity].
      destruct f as [|b f]; [now injection Hr2 as <-|]. unfold replay_log in Hr2. cbn [length replay_loop] in Hr2. rewrite <- S2 in S3.
      destruct (torn_extract lr_init (b :: f) S3 ltac:(discriminate)) as (lr' & El & Ec). rewrite El, Ec in Hr2. now injection Hr2 as <-.
    + rewrite <- Es in *. assert (Hne : seen <> []) by (rewrite Es; discriminate).
      assert (Hck : ck_min = 0 \/ first_epoch seen < ck_min).
      { destruct (Z.eq_dec ck_min 0); [auto|right]. replace (ck_min =? 0) with false in Ea by lia. cbn [negb andb] in Ea. rewrite elt_small in Ea by auto. lia. }
      destruct (start_rule ck_min seen S5 Hne Hck) as [St Pos].
      assert (P0 : ck_min < rmax < 2 ^ 63).
      { split; [|lia]. destruct (Z.eq_dec ck_min 0); [subst ck_min; apply R3; lia|]. replace (ck_min =? 0) with false in Ea by lia. cbn [negb andb] in Ea. rewrite (elt_small ck_min rmax) in Ea by auto. lia. }
      assert (Hfr : replay_log f ck_min rmax = Some run). { destruct f as [|b f]; [|exact Hr2]. exfalso. symmetry in S2. rewrite Es in S2. change (plain (e0 :: seen0)) with ((e0, [0; 0; 0; 0]) :: plain seen0) in S2. rewrite file_cons in S2. cbn [fst snd] in S2. rewrite <- app_assoc in S2. now apply store_nonnil in S2. }
      destruct S5 as (A & B & C & D). destruct S3 as (ex & sx & k & X1 & X2 & X3 & ->).
      destruct (replay_torn ck_min rmax (plain seen) (ex, sx) k ltac:(lia) P0 (plain_ok _ A) X1 X2 X3) as (r' & Y1 & Y2 & _); rewrite ?plain_entries; auto.
      unfold torn_file in Y1. cbn [fst snd] in Y1. rewrite <- S2, Hfr in Y1. injection Y1 as <-. now rewrite plain_entries in Y2.
  - intros Hq Hl. assert (Hr : rmax <= epoch_after 0 seen).
    { rewrite <- I3. assert (exists w, nth_error wakes i = Some w) as [w Hw].
      { destruct (nth_error wakes i) eqn:E; eauto. exfalso. apply nth_error_None in E. apply Forall2_length in Ew. apply Forall2_length in Ei. rewrite combine_length in Ew.
        assert (nth_error infos i <> None) as N by congruence. apply nth_error_Some in N. lia. }
      rewrite Forall_forall in R4. apply (R4 (inf, w)); auto. apply nth_error_In with i. now apply nth_combine. }
    destruct (i_ok _ _ (proj1 (Forall_forall _ _) HI g (nth_error_In _ _ Hg))) as (A & B & C & D).
    rewrite <- (firstn_skipn m (l_all g)) at 1. rewrite <- S1. unfold wanted. rewrite tagged_app, filter_app.
    rewrite (filter_none _ (tagged (epoch_after 0 seen) (skipn m (l_all g)))); [now rewrite app_nil_r|].
    rewrite <- (firstn_skipn m (l_all g)), <- S1 in B. apply epochs_from_app in B. destruct B as [_ B]. pose proof (tagged_ge _ _ B) as G.
    apply Forall_impl with (2 := G). intros x Hx. cbn beta in Hx. lia.
Qed.

Lemma recover_spec epoch old acts s junk ck_min ck_max files r i g f run : old_ok epoch old -> epoch + len acts < 2 ^ 63 -> no_stalls acts -> updates_ok acts ->
  ls_run (ls_init epoch old) acts = Some s -> Forall2 crash_file (s_logs s) files -> 0 <= ck_min < 2 ^ 63 -> 0 <= ck_max < 2 ^ 63 - 1 ->
  recover junk ck_min ck_max files = Some r -> nth_error (s_logs s) i = Some g -> nth_error files i = Some f -> nth_error (rec_logs r) i = Some run ->
  exists m rs, (l_disk g <= m <= length (l_all g))%nat /\ read_log f = Some rs /\ map view rs = map Some (firstn m (l_all g)) /\
    map view (rp_run run) = map (fun x => Some (snd x)) (filter has_key (wanted ck_min (rec_max r) (firstn m (l_all g)))) /\
    (ends_quiescent (firstn m (l_all g)) = false -> wanted ck_min (rec_max r) (firstn m (l_all g)) = wanted ck_min (rec_max r) (l_all g)).
Proof.
  intros H1 H2 H3 H4 H5 HF Hmin Hmax HR Hg Hf Hrun.
  destruct (recover_log _ _ _ _ _ _ _ _ _ _ _ _ _ H1 H2 H3 H4 H5 HF Hmin Hmax HR Hg Hf Hrun) as (seen & inf & (m & t & S1 & S2 & S3 & S4 & S5) & E1 & E2 & E3 & E4 & E5).
  rewrite E3 in *.
  destruct (extract_all_ok (plain seen) (plain_ok _ (proj1 S5)) (length (log_file (plain seen) ++ t)) lr_init t S3 ltac:(lia)) as (rs & X1 & X2). rewrite plain_entries in X2.
  exists m, rs. rewrite <- S1. split; auto. split; [unfold read_log; rewrite S2; exact X1|]. split; auto. split; auto. intros Hq.
  assert (Hn : seen <> []) by (intros Hn; rewrite Hn in Hq; discriminate).
  destruct (file_info_ok junk seen t S5 S3) as (inf' & I1 & I2 & I3 & I4 & I5). rewrite <- S2, E1 in I1. injection I1 as <-.
  apply E5; [rewrite I5; auto|]. rewrite E2. destruct (start_rule 0 seen S5 Hn (or_introl eq_refl)). lia.
Qed.

Lemma restored epoch old acts s junk ck_min ck_max files r i g f run t u : old_ok epoch old -> epoch + len acts < 2 ^ 63 -> no_stalls acts -> updates_ok acts ->
  ls_run (ls_init epoch old) acts = Some s -> Forall2 crash_file (s_logs s) files -> 0 <= ck_min < 2 ^ 63 -> 0 <= ck_max < 2 ^ 63 - 1 ->
  recover junk ck_min ck_max files = Some r -> nth_error (s_logs s) i = Some g -> nth_error files i = Some f -> nth_error (rec_logs r) i = Some run ->
  In (t, u) (tagged 0 (l_all g)) -> update_key u <> Some [] -> t < l_flushed g \/ lg_quiescent g = true -> ck_min <= t < rec_max r -> In (Some u) (map view (rp_run run)).
Proof.
  intros H1 H2 H3 H4 H5 HF Hmin Hmax HR Hg Hf Hrun Hin Hk Hfl Ht.
  destruct (recover_spec _ _ _ _ _ _ _ _ _ _ _ _ _ H1 H2 H3 H4 H5 HF Hmin Hmax HR Hg Hf Hrun) as (m & rs & M & _ & _ & E & _).
  destruct (flushed_ok _ _ _ _ _ _ H1 H2 H3 H4 H5 Hg) as (rest & R1 & R2 & R3).
  assert (D : In (t, u) (tagged 0 (firstn (l_disk g) (l_all g)))).
  { rewrite R1 in Hin. apply in_app_or in Hin. destruct Hin as [Hin|Hin]; auto. exfalso. destruct Hfl as [Hfl|Hfl]; [apply R2 in Hin; lia|]. rewrite (R3 Hfl) in Hin. exact Hin. }
  rewrite E. apply in_map_iff. exists (t, u). split; auto. apply filter_In. split.
  - unfold wanted. apply filter_In. split; [|cbn [fst]; lia].
    rewrite <- (firstn_skipn (l_disk g) (firstn m (l_all g))), tagged_app. apply in_or_app. left. rewrite firstn_firstn. now replace (Nat.min (l_disk g) m) with (l_disk g) by lia.
  - unfold has_key. cbn [snd]. assert (Hu : update_key u <> None).
    { clear - Hin. intros Hn. revert Hin. generalize 0. induction (l_all g) as [|e l IH]; intros c Hin; [destruct Hin|]. destruct e; cbn [tagged update_key app] in Hin.
      1-4: destruct Hin as [[= <- <-]|Hin]; [discriminate|now apply IH in Hin]. all: now apply IH in Hin. }
    destruct (update_key u) as [[|]|]; congruence.
Qed.

(* What max_flushed_epoch promises when every log that is not quiescent has been flushed at least once. *)
Lemma mfe_fold ge : small ge -> 0 < ge -> forall l m0, small m0 ->
  (forall g, In g l -> small (l_flushed g) /\ (lg_quiescent g = false -> 0 < l_flushed g)) ->
  let m := fold_left (fun mfe g => let fe := if lg_quiescent g then ge else l_flushed g in
                                   if (mfe =? 0) || elt fe mfe then fe else mfe) l m0 in
  small m /\ (0 < m0 -> 0 < m <= m0) /\ (forall g, In g l -> lg_quiescent g = false -> m <= l_flushed g).
Proof.
  intros Hge Pge. induction l as [|g l IH]; intros m0 Hm H; cbn [fold_left].
  - repeat split; try lia. intros g [].
  - destruct (H g (or_introl eq_refl)) as [F1 F2].
    set (fe := if lg_quiescent g then ge else l_flushed g).
    assert (Hfe : small fe /\ 0 < fe). { unfold fe. destruct (lg_quiescent g); [lia|]. specialize (F2 eq_refl). lia. }
    set (m1 := if (m0 =? 0) || elt fe m0 then fe else m0).
    assert (H1 : small m1 /\ 0 < m1 <= fe /\ (0 < m0 -> m1 <= m0)).
    { unfold m1. rewrite elt_small by lia. destruct (Z.eqb_spec m0 0), (Z.ltb_spec fe m0); cbn [orb]; lia. }
    destruct (IH m1 ltac:(lia) (fun g' I => H g' (or_intror I))) as (A & B & C). cbv zeta in A, B, C.
    split; [exact A|]. split; [intros; specialize (B ltac:(lia)); lia|].
    intros g' [<-|I] Q; [|exact (C g' I Q)]. specialize (B ltac:(lia)). unfold fe in H1. rewrite Q in H1. lia.
Qed.
Lemma report_ok epoch old l s i g t u : old_ok epoch old -> epoch + len l < 2 ^ 63 -> no_stalls l -> updates_ok l -> ls_run (ls_init epoch old) l = Some s ->
  (forall g', In g' (s_logs s) -> lg_quiescent g' = false -> l_flushed g' <> 0) ->
  nth_error (s_logs s) i = Some g -> In (t, u) (tagged 0 (l_all g)) -> t < max_flushed_epoch s ->
  In (t, u) (tagged 0 (firstn (l_disk g) (l_all g))).
Proof.
  intros H1 H2 H3 H4 H5 HF Hg Hin Ht. destruct (reach_inv _ _ _ _ H1 H2 H3 H4 H5) as [V E]. rewrite Forall_forall in V.
  destruct (flushed_ok _ _ _ _ _ _ H1 H2 H3 H4 H5 Hg) as (rest & R1 & R2 & R3).
  rewrite R1 in Hin. apply in_app_or in Hin. destruct Hin as [Hin|Hin]; [exact Hin|]. exfalso.
  destruct (lg_quiescent g) eqn:Q; [rewrite (R3 eq_refl) in Hin; exact Hin|]. apply R2 in Hin.
  destruct (mfe_fold (s_epoch s) ltac:(lia) ltac:(lia) (s_logs s) 0 ltac:(lia)) as (_ & _ & C).
  { intros g' I. pose proof (i_fl _ _ (V g' I)). split; [lia|]. intros Q'. specialize (HF g' I Q'). lia. }
  specialize (C g (nth_error_In _ _ Hg) Q). unfold max_flushed_epoch in Ht. cbv zeta in C, Ht. apply (Z.lt_irrefl t). eapply Z.lt_le_trans; [exact Ht|]. etransitivity; [exact C|exact Hin].
Qed.
