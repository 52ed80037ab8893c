(* Which updates replay applies and which part of the log it keeps. *)
From Verif Require Import Lib M_Key P_Key M_Circular P_Circular M_Msgpack M_Bag M_Log Spec_Log M_Logfile P_Log1 P_Log2.

Lemma tagged_app c a b : tagged c (a ++ b) = tagged c a ++ tagged (epoch_after c a) b.
Proof. revert c. induction a as [|e a IH]; intros c; auto. destruct e; cbn [app tagged epoch_after update_key]; rewrite ?IH; auto. Qed.
Lemma epoch_after_app c a b : epoch_after c (a ++ b) = epoch_after (epoch_after c a) b.
Proof. revert c. induction a as [|e a IH]; intros c; auto. destruct e; cbn [app epoch_after]; auto. Qed.
Lemma epochs_from_app c a b : epochs_from c (a ++ b) <-> epochs_from c a /\ epochs_from (epoch_after c a) b.
Proof. revert c. induction a as [|e a IH]; intros c; [cbn; tauto|]. destruct e; cbn [app epoch_after epochs_from]; rewrite ?IH; tauto. Qed.
Lemma tagged_ge c a : epochs_from c a -> Forall (fun x => c <= fst x) (tagged c a).
Proof.
  revert c. induction a as [|e a IH]; intros c H; cbn [tagged]; [constructor|]. destruct e; cbn [epochs_from update_key app] in *.
  1-4: constructor; [cbn; lia|now apply IH].
  - destruct H as [H1 H2]. apply Forall_impl with (P := fun x => e <= fst x); [|now apply IH]. intros [? ?]; cbn; lia.
  - now apply IH.
  - now apply IH.
Qed.
Lemma tagged_le c a : epochs_from c a -> Forall (fun x => fst x <= epoch_after c a) (tagged c a) /\ c <= epoch_after c a.
Proof.
  revert c. induction a as [|e a IH]; intros c H; cbn [tagged epoch_after]; [split; [constructor|lia]|]. destruct e; cbn [epochs_from update_key app] in *.
  1-4: destruct (IH c H); split; [constructor; [cbn; lia|auto]|auto].
  - destruct H as [H1 H2]. destruct (IH e H2). split; [auto|lia].
  - now apply IH.
  - now apply IH.
Qed.
Lemma filter_none {A} (f : A -> bool) l : Forall (fun x => f x = false) l -> filter f l = [].
Proof. induction 1 as [|x l Hx Hl IH]; cbn; auto. now rewrite Hx. Qed.
Lemma epochs_small_app a b : epochs_small (a ++ b) <-> epochs_small a /\ epochs_small b.
Proof. induction a as [|e a IH]; [cbn; tauto|]. destruct e; cbn [app epochs_small]; rewrite ?IH; tauto. Qed.
Lemma epoch_after_small c l : 0 <= c < 2 ^ 63 -> epochs_small l -> 0 <= epoch_after c l < 2 ^ 63.
Proof. revert c. induction l as [|e l IH]; intros c Hc Hs; auto. destruct e; cbn [epochs_small epoch_after] in *; try (apply IH; [lia|tauto]); apply IH; tauto. Qed.

Definition from (mn : Z) (x : Z * entry) : bool := mn <=? fst x.

Section Replay.
Variables (mn mx : Z).
Hypothesis (Hmn : 0 <= mn < 2 ^ 63) (Hmx : 0 < mx < 2 ^ 63) (Hmm : mn < mx).

(* State after the entries p: the kept part starts at p2 = the rest of p behind p1. *)
Definition inv (p p1 p2 : list (entry * list Z)) (run : list logrecord) : Prop :=
  p = p1 ++ p2 /\ (exists e0 s0 q, p2 = (EEpoch e0, s0) :: q /\ (mn = 0 \/ e0 < mn)) /\
  filter (from mn) (tagged 0 (entries p1)) = [] /\
  map view run = map (fun x => Some (snd x)) (filter has_key (filter (from mn) (tagged 0 (entries p)))) /\
  epochs_from 0 (entries p) /\ epochs_small (entries p) /\ 0 < epoch_after 0 (entries p) < mx.

Definition result (p1 seg : list (entry * list Z)) (run : list logrecord) (r : replayed) : Prop :=
  rp_run r = run /\ rp_begin r = len (log_file p1) /\ rp_end r = len (log_file (p1 ++ seg)).

Lemma entries_app a b : entries (a ++ b) = entries a ++ entries b. Proof. apply map_app. Qed.
Lemma tagged_p2 e0 s0 q c : tagged c (entries ((EEpoch e0, s0) :: q)) = tagged 0 (entries ((EEpoch e0, s0) :: q)).
Proof. reflexivity. Qed.

Lemma update_of lr e : view lr = Some e -> is_update (lr_command lr) = match update_key e with Some _ => true | None => false end /\ (lr_command lr =? logcmd_epoch) = match e with EEpoch _ => true | _ => false end.
Proof.
  unfold view. intros H.
  repeat match type of H with (if ?b then _ else _) = _ => destruct b eqn:? end; try discriminate; injection H as <-;
  match goal with E : (lr_command lr =? _) = true |- _ => apply Z.eqb_eq in E; rewrite E; split; reflexivity end.
Qed.

Lemma filter_from_app a b : filter (from mn) (a ++ b) = filter (from mn) a ++ filter (from mn) b. Proof. apply filter_app. Qed.
Lemma tagged_kept p p1 p2 run : inv p p1 p2 run -> filter (from mn) (tagged 0 (entries p2)) = filter (from mn) (tagged 0 (entries p)).
Proof.
  intros (-> & (e0 & s0 & q & -> & _) & H & _). rewrite entries_app, tagged_app, filter_app, H. reflexivity.
Qed.

Lemma entry_cases e : (exists e0, e = EEpoch e0) \/
  (match e with EEpoch _ => true | _ => false end = false /\ (forall c, epoch_now c e = c) /\
   (forall c, tagged c [e] = match update_key e with Some _ => [(c, e)] | None => [] end) /\ (forall c, epoch_after c [e] = c) /\
   (forall c l, epochs_from c (e :: l) <-> epochs_from c l) /\ (forall l, epochs_small (e :: l) <-> epochs_small l)).
Proof. destruct e; try (left; eexists; reflexivity); right; repeat split; auto. Qed.
Lemma view_key lr e k : view lr = Some e -> update_key e = Some k -> lr_key lr = k.
Proof.
  unfold view. intros H Hk.
  repeat match type of H with (if ?b then _ else _) = _ => destruct b eqn:? end; try discriminate; injection H as <-; cbn in Hk; congruence.
Qed.

Lemma replay_main l : file_ok l -> forall f lr t p p1 p2 run, torn t -> inv p p1 p2 run -> lr_epoch lr = epoch_after 0 (entries p) ->
  epochs_from (lr_epoch lr) (entries l) -> epochs_small (entries l) -> (length (log_file l ++ t) <= f)%nat ->
  exists r p' p1' p2' l' run', replay_loop f lr (log_file l ++ t) (len (log_file p)) mn mx (Some (len (log_file p1))) (Some (len (log_file p))) run = Some r /\
    inv p' p1' p2' run' /\ p' ++ l' = p ++ l /\
    ((l' = [] /\ result p1' p2' run' r) \/ exists e s l'', l' = (EEpoch e, s) :: l'' /\ mx <= e /\ 
       ((mn <= e \/ mn = 0) /\ result p1' (p2' ++ [(EEpoch e, s)]) run' r \/ (e < mn /\ mn <> 0) /\ result p' [(EEpoch e, s)] run' r)).
Proof.
  induction 1 as [|[e stale] l [He Hs] Hl IH]; intros f lr t p p1 p2 run Ht Hi Hlr Ho Hsm Hf.
  - cbn [log_file map concat app] in *. exists (MkRp run (len (log_file p1)) (len (log_file p))), p, p1, p2, [], run.
    assert (R : replay_loop f lr t (len (log_file p)) mn mx (Some (len (log_file p1))) (Some (len (log_file p))) run = Some (MkRp run (len (log_file p1)) (len (log_file p)))).
    { destruct t as [|b t]; [destruct f; reflexivity|]. destruct f; [cbn in Hf; lia|]. cbn [replay_loop].
      destruct (torn_extract lr (b :: t) Ht ltac:(discriminate)) as (lr' & -> & ->). reflexivity. }
    split; [exact R|]. split; auto. split; auto. left. split; auto. unfold result. destruct Hi as (-> & _). auto.
  - rewrite file_cons in *. cbn [fst snd entries map] in *. fold (entries l) in *. rewrite <- app_assoc in *. pose proof (store_length e stale Hs). rewrite app_length in Hf. destruct f; [lia|].
    destruct (extract_entry lr e stale (log_file l ++ t) He Hs) as (lr' & E & V & Ep & C & K).
    pose proof (store_nonnil e stale (log_file l ++ t) Hs) as N. cbn [replay_loop]. destruct (store_entry e stale ++ log_file l ++ t) as [|b s] eqn:Es; [easy|].
    rewrite E. replace (lr_command lr' =? logcmd_none) with false by lia.
    assert (Pos : len (log_file p) + (len (b :: s) - len (log_file l ++ t)) = len (log_file (p ++ [(e, stale)]))).
    { rewrite <- Es, file_app, !len_app, file_cons. cbn [fst snd log_file map concat]. rewrite app_nil_r. lia. }
    rewrite Pos. destruct (update_of lr' e V) as [U1 U2]. rewrite U2, U1.
    destruct Hi as (Hp & Hq & Hz & Hr & Hof & Hsp & Hcur). rewrite Hlr in *.
    assert (Cnt : (p ++ [(e, stale)]) ++ l = p ++ (e, stale) :: l) by now rewrite <- app_assoc.
    destruct (entry_cases e) as [[e0 ->]|NE].
    + (* an epoch *)
      cbn [epochs_from epochs_small epoch_now] in *. destruct Ho as [Ho1 Ho2]. destruct Hsm as [Hs1 Hs2]. rewrite Ep. cbn [andb].
      unfold ci_ge. change (ci_less 64 e0 mx) with (ci_lt 64 e0 mx). rewrite !ci_lt_small by lia.
      replace (match Some (len (log_file p1)) with Some _ => false | None => true end) with false by reflexivity. rewrite andb_false_r, orb_false_r.
      destruct (Z_lt_le_dec e0 mx) as [Lx|Lx].
      -- replace (negb (e0 <? mx)) with false by lia. replace (e0 =? 0) with false by lia. cbn [orb].
        destruct (negb (mn =? 0) && (e0 <? mn)) eqn:Ec.
        * (* below the minimum: the kept part starts here *)
          destruct (IH f lr' t (p ++ [(EEpoch e0, stale)]) p [(EEpoch e0, stale)] run Ht) as (r & p' & p1' & p2' & l' & run' & E1 & E2 & E3 & E4); auto; try lia.
          { split; auto. split; [exists e0, stale, []; split; [reflexivity|lia]|]. rewrite entries_app, tagged_app, filter_app. cbn [entries map fst tagged filter]. rewrite app_nil_r.
            split. { apply filter_none. destruct (tagged_le 0 (entries p) Hof) as [L _]. apply Forall_impl with (2 := L). intros [a u]. unfold from. cbn [fst]. intros. lia. }
            split; auto. split. { apply epochs_from_app. split; auto. cbn. lia. } split. { apply epochs_small_app. split; auto. cbn. lia. }
            rewrite epoch_after_app. cbn [epoch_after]. lia. }
          { rewrite entries_app, epoch_after_app. cbn. lia. } { now rewrite Ep. }
          rewrite Cnt in E3. exists r, p', p1', p2', l', run'. split; [exact E1|]. auto.
        * destruct (IH f lr' t (p ++ [(EEpoch e0, stale)]) p1 (p2 ++ [(EEpoch e0, stale)]) run Ht) as (r & p' & p1' & p2' & l' & run' & E1 & E2 & E3 & E4); auto; try lia.
          { split; [rewrite Hp; now rewrite app_assoc|]. split; [destruct Hq as (a & b0 & q & -> & Hm); cbn; eauto|]. split; auto.
            rewrite entries_app, tagged_app, filter_app. cbn [entries map fst tagged filter]. rewrite app_nil_r.
            split; auto. split. { apply epochs_from_app. split; auto. cbn. lia. } split. { apply epochs_small_app. split; auto. cbn. lia. }
            rewrite epoch_after_app. cbn [epoch_after]. lia. }
          { rewrite entries_app, epoch_after_app. cbn. lia. } { now rewrite Ep. }
          rewrite Cnt in E3. exists r, p', p1', p2', l', run'. split; [|auto].
          change (negb (len (lr_key lr') =? 0) && false) with (negb (len (lr_key lr') =? 0) && false) in *. rewrite andb_false_r. exact E1.
      -- replace (negb (e0 <? mx)) with true by lia.
        exists (rp_done run (if negb (mn =? 0) && (e0 <? mn) then Some (len (log_file p)) else Some (len (log_file p1))) (Some (len (log_file (p ++ [(EEpoch e0, stale)])))) (len (log_file p))), p, p1, p2, ((EEpoch e0, stale) :: l), run.
        split; [destruct (negb (mn =? 0) && (e0 <? mn)); reflexivity|]. split; [repeat split; auto; lia|]. split; auto. right. exists e0, stale, l. split; auto. split; auto.
        destruct (negb (mn =? 0) && (e0 <? mn)) eqn:Ec; [right|left].
        * split; [lia|]. split; [reflexivity|]. split; reflexivity.
        * split; [lia|]. split; [reflexivity|]. split; [reflexivity|]. cbn [rp_done rp_end]. now rewrite app_assoc, <- Hp. 
    + destruct NE as (NE1 & NE2 & NE3 & NE4 & NE5 & NE6). rewrite NE1. cbn [andb]. rewrite Ep, NE2. replace (epoch_after 0 (entries p) =? 0) with false by lia. cbn [orb]. rewrite ci_lt_small by lia.
      pose (run' := if negb (mn =? 0) && (epoch_after 0 (entries p) <? mn) then run else
             if negb (len (lr_key lr') =? 0) && match update_key e with Some _ => true | None => false end then run ++ [lr'] else run).
      assert (T : tagged 0 (entries (p ++ [(e, stale)])) = tagged 0 (entries p) ++ match update_key e with Some _ => [(epoch_after 0 (entries p), e)] | None => [] end).
      { rewrite entries_app, tagged_app. f_equal. apply NE3. }
      assert (EA : epoch_after 0 (entries (p ++ [(e, stale)])) = epoch_after 0 (entries p)).
      { rewrite entries_app, epoch_after_app. apply NE4. }
      assert (Inv' : inv (p ++ [(e, stale)]) p1 (p2 ++ [(e, stale)]) run').
      { split; [rewrite Hp; now rewrite app_assoc|]. split; [destruct Hq as (a & b0 & q & -> & Hm); cbn; eauto|]. split; auto.
        split; [|rewrite EA; repeat split; try lia; [rewrite entries_app; apply epochs_from_app; split; auto; apply (proj2 (NE5 _ [])); exact I|rewrite entries_app; apply epochs_small_app; split; auto; apply (proj2 (NE6 [])); exact I]].
        rewrite T, !filter_app, map_app. unfold run'. destruct (update_key e) as [k|] eqn:Uk; [|rewrite andb_false_r; cbn [filter map]; rewrite app_nil_r; destruct (_ && _); exact Hr].
        unfold from at 2. cbn [filter fst]. destruct (negb (mn =? 0) && (epoch_after 0 (entries p) <? mn)) eqn:Eb.
        - replace (mn <=? epoch_after 0 (entries p)) with false by lia. cbn. now rewrite app_nil_r.
        - replace (mn <=? epoch_after 0 (entries p)) with true by lia. cbn [filter]. unfold has_key at 2. cbn [snd]. rewrite Uk.
          rewrite (view_key lr' e k V Uk). destruct k as [|x k]; cbn [map].
          + cbn. now rewrite app_nil_r.
          + replace (len (x :: k) =? 0) with false by (unfold len; cbn [length]; lia). cbn [negb andb]. rewrite map_app, Hr. cbn [map]. rewrite V. reflexivity. }
      destruct (IH f lr' t (p ++ [(e, stale)]) p1 (p2 ++ [(e, stale)]) run' Ht Inv') as (r & p' & p1' & p2' & l' & run'' & E1 & E2 & E3 & E4); auto; try lia.
      { now rewrite EA, Ep, NE2. } { rewrite Ep, NE2. now apply NE5. } { now apply NE6. }
      rewrite Cnt in E3. exists r, p', p1', p2', l', run''. split; [|auto].
      unfold run' in E1. destruct (negb (mn =? 0) && (epoch_after 0 (entries p) <? mn)); exact E1.
Qed.

Lemma file_split l1 seg l2 t r : rp_begin r = len (log_file l1) -> rp_end r = len (log_file (l1 ++ seg)) ->
  kept_log (log_file (l1 ++ seg ++ l2) ++ t) r = log_file seg.
Proof.
  intros H1 H2. unfold kept_log. rewrite H1, H2. rewrite !file_app, len_app.
  replace (Z.to_nat (len (log_file l1))) with (length (log_file l1)) by (unfold len; lia).
  replace (Z.to_nat (len (log_file l1) + len (log_file seg) - len (log_file l1))) with (length (log_file seg)) by (unfold len; lia).
  rewrite <- !app_assoc, skipn_app, Nat.sub_diag, skipn_all, skipn_O. cbn [app]. rewrite firstn_app, Nat.sub_diag, firstn_all, firstn_O. apply app_nil_r.
Qed.

Lemma wanted_from l : wanted mn mx l = filter (fun x => fst x <? mx) (filter (from mn) (tagged 0 l)).
Proof.
  unfold wanted. induction (tagged 0 l) as [|x q IH]; cbn; auto. unfold from at 1. destruct (mn <=? fst x); cbn; [|auto].
  destruct (fst x <? mx); cbn; now rewrite IH.
Qed.
Lemma filter_all {A} (f : A -> bool) l : Forall (fun x => f x = true) l -> filter f l = l.
Proof. induction 1 as [|x l Hx Hl IH]; cbn; auto. now rewrite Hx, IH. Qed.
Lemma below_mx l : epochs_from 0 l -> epoch_after 0 l < mx -> wanted mn mx l = filter (from mn) (tagged 0 l).
Proof.
  intros H1 H2. rewrite wanted_from. apply filter_all. apply Forall_forall. intros x Hx. apply filter_In in Hx. destruct Hx as [Hx _].
  destruct (tagged_le 0 l H1) as [L _]. rewrite Forall_forall in L. apply L in Hx. lia.
Qed.
Lemma wanted_cut a e b : mx <= e -> epochs_from 0 (a ++ EEpoch e :: b) -> wanted mn mx (a ++ EEpoch e :: b) = wanted mn mx a.
Proof.
  intros H1 H2. rewrite !wanted_from, tagged_app, !filter_app. cbn [tagged update_key app].
  apply epochs_from_app in H2. destruct H2 as [_ H2]. cbn [epochs_from] in H2. destruct H2 as [_ H2].
  rewrite (filter_none _ (filter (from mn) (tagged e b))); [now rewrite app_nil_r|].
  apply Forall_forall. intros x Hx. apply filter_In in Hx. destruct Hx as [Hx _]. pose proof (tagged_ge e b H2) as L. rewrite Forall_forall in L. apply L in Hx. lia.
Qed.

(* A log as loginfo writes it, that the replay bounds suit. *)
Definition starts (l : list (entry * list Z)) : Prop := exists e0 s0 q, l = (EEpoch e0, s0) :: q /\ 0 < e0 /\ (mn = 0 \/ e0 < mn).

Lemma starts_ext p q : p <> [] -> starts (p ++ q) -> starts p.
Proof. intros Hp (e0 & s0 & x & H & Hr). destruct p as [|y p]; [easy|]. injection H as -> H. exists e0, s0, p. auto. Qed.

Theorem replay_spec L t : file_ok L -> torn t -> epochs_from 0 (entries L) -> epochs_small (entries L) -> starts L ->
  exists r l1 seg l2, replay_log (log_file L ++ t) mn mx = Some r /\
    map view (rp_run r) = map (fun x => Some (snd x)) (filter has_key (wanted mn mx (entries L))) /\
    L = l1 ++ seg ++ l2 /\ kept_log (log_file L ++ t) r = log_file seg /\
    wanted mn mx (entries seg) = wanted mn mx (entries L) /\ (exists e0 s0 q, seg = (EEpoch e0, s0) :: q /\ (mn = 0 \/ e0 < mn)) /\
    Forall (fun x => fst x < mx) (tagged 0 (entries seg)).
Proof.
  intros Hok Ht Ho Hsm (e0 & s0 & q & -> & He0 & Hm).
  assert (Hok' := Hok). inversion Hok' as [|x l' [He Hs] Hl]; subst. cbn [fst snd] in *.
  cbn [entries map fst epochs_from epochs_small] in Ho, Hsm. fold (entries q) in *. destruct Ho as [_ Ho]. destruct Hsm as [Hs0 Hsm].
  destruct (extract_entry lr_init (EEpoch e0) s0 (log_file q ++ t) He Hs) as (lr' & E & V & Ep & C & K).
  destruct (update_of lr' _ V) as [U1 U2].
  assert (RL : exists f, (length (log_file q ++ t) <= f)%nat /\ replay_log (log_file ((EEpoch e0, s0) :: q) ++ t) mn mx =
    if e0 <? mx then replay_loop f lr' (log_file q ++ t) (len (log_file [(EEpoch e0, s0)])) mn mx (Some 0) (Some (len (log_file [(EEpoch e0, s0)]))) []
    else Some (MkRp [] 0 (len (log_file [(EEpoch e0, s0)])))).
  { unfold replay_log. rewrite file_cons. cbn [fst snd]. rewrite <- app_assoc. pose proof (store_length (EEpoch e0) s0 Hs) as SL.
  pose proof (store_nonnil (EEpoch e0) s0 (log_file q ++ t) Hs) as N. 
  remember (length (store_entry (EEpoch e0) s0 ++ log_file q ++ t)) as f eqn:Hf. rewrite app_length in Hf. destruct f; [lia|]. cbn [replay_loop].
  remember (store_entry (EEpoch e0) s0 ++ log_file q ++ t) as full eqn:Es. destruct full as [|b s]; [easy|].
  rewrite E. replace (lr_command lr' =? logcmd_none) with false by lia.
  assert (Pos : 0 + (len (b :: s) - len (log_file q ++ t)) = len (log_file [(EEpoch e0, s0)])).
  { rewrite Es, !len_app, file_cons. cbn [fst snd log_file map concat]. rewrite app_nil_r. lia. }
  rewrite Pos, U2, U1. cbn [epoch_now] in Ep. rewrite Ep. cbn [andb update_key]. unfold ci_ge. change (ci_less 64 e0 mx) with (ci_lt 64 e0 mx). rewrite !ci_lt_small by lia.
  replace (negb (mn =? 0) && (e0 <? mn) || (mn =? 0) && true) with true by lia.
  replace (e0 =? 0) with false by lia. cbn [orb]. rewrite andb_false_r. exists f. split; [lia|].
    destruct (e0 <? mx); cbn [negb]; [destruct (negb (mn =? 0) && (e0 <? mn)); reflexivity|reflexivity]. }
  destruct RL as (f & Hf & RL). rewrite RL.
  assert (OH : epochs_from 0 (EEpoch e0 :: entries q)) by (cbn; split; [lia|auto]).
  destruct (Z_lt_le_dec e0 mx) as [Lx|Lx].
  - replace (e0 <? mx) with true by lia.
    assert (I0 : inv [(EEpoch e0, s0)] [] [(EEpoch e0, s0)] []).
    { split; auto. split; [exists e0, s0, []; auto|]. split; auto. split; auto. cbn. repeat split; lia. }
    destruct (replay_main q Hl f lr' t _ _ _ _ Ht I0) as (r & p' & p1' & p2' & l' & run' & E1 & E2 & E3 & E4); auto; try lia.
    { now rewrite Ep. }
    assert (Bm : forall p', inv p' p1' p2' run' -> p2' <> []) by (intros ? (_ & (? & ? & ? & -> & _) & _); easy).
    assert (G : replay_loop f lr' (log_file q ++ t) (len (log_file [(EEpoch e0, s0)])) mn mx (Some 0) (Some (len (log_file [(EEpoch e0, s0)]))) [] = Some r) by exact E1.
    exists r.
    cbn [app] in E3. rewrite <- E3.
    pose proof (tagged_kept _ _ _ _ E2) as TK. destruct E2 as (Hp & Hq & Hz & Hr & Hof & Hsp & Hcur).
    assert (O3 : epochs_from 0 (entries (p' ++ l'))) by (rewrite E3; exact OH).
    assert (W1 : wanted mn mx (entries p') = filter (from mn) (tagged 0 (entries p'))) by (apply below_mx; [auto|lia]).
    assert (O2 : epochs_from 0 (entries p2')).
    { destruct Hq as (a & b0 & q0 & -> & _). rewrite Hp, entries_app in Hof. apply epochs_from_app in Hof. destruct Hof as [Hof1 [? Hof2]]. destruct (tagged_le 0 _ Hof1). cbn. split; [lia|auto]. }
    assert (A2 : epoch_after 0 (entries p2') = epoch_after 0 (entries p')).
    { destruct Hq as (a & b0 & q0 & -> & _). rewrite Hp, entries_app, epoch_after_app. reflexivity. }
    assert (W2 : wanted mn mx (entries p2') = wanted mn mx (entries p')) by (rewrite W1, <- TK; apply below_mx; [auto|lia]).
    assert (F2 : Forall (fun x => fst x < mx) (tagged 0 (entries p2'))).
    { destruct (tagged_le 0 _ O2) as [T2 _]. apply Forall_impl with (2 := T2). intros x Hx. lia. }
    destruct E4 as [[-> Hres]|(e & s' & l'' & -> & Hge & [[Hc Hres]|[Hc Hres]])]; destruct Hres as (R1 & R2 & R3).
    + exists p1', p2', []. rewrite !app_nil_r. split; [exact G|]. rewrite W1, R1. split; auto. split; auto. split.
      { rewrite Hp at 1. pose proof (file_split p1' p2' [] t r R2 R3) as FS. rewrite app_nil_r in FS. exact FS. }
      rewrite W2, W1. auto.
    + assert (W3 : wanted mn mx (entries (p' ++ (EEpoch e, s') :: l'')) = wanted mn mx (entries p')).
      { rewrite entries_app. cbn [entries map fst]. apply wanted_cut; auto. rewrite entries_app in O3. exact O3. }
      rewrite W3. exists p1', (p2' ++ [(EEpoch e, s')]), l''. split; [exact G|]. rewrite R1, W1. split; auto.
      assert (S3 : p' ++ (EEpoch e, s') :: l'' = p1' ++ (p2' ++ [(EEpoch e, s')]) ++ l'') by (rewrite Hp; now rewrite <- !app_assoc).
      split; auto. split; [rewrite S3; now apply file_split|]. rewrite entries_app. cbn [entries map fst].
      assert (T4 : tagged 0 (map fst p2' ++ [EEpoch e]) = tagged 0 (map fst p2')) by (rewrite tagged_app; cbn; apply app_nil_r).
      split. { rewrite <- W1, <- W2. unfold wanted, entries. now rewrite T4. }
      split. { destruct Hq as (a & b0 & q0 & -> & Hq). exists a, b0, (q0 ++ [(EEpoch e, s')]). auto. } rewrite W1 in *. unfold entries in F2. first [now rewrite T4|eapply Forall_impl; [|rewrite <- T4 in F2; exact F2]; auto].
    + exfalso. lia.
  - replace (e0 <? mx) with false by lia.
    exists (MkRp [] 0 (len (log_file [(EEpoch e0, s0)]))), [], [(EEpoch e0, s0)], q.
    assert (W : wanted mn mx (EEpoch e0 :: entries q) = []) by apply (wanted_cut [] e0 (entries q) Lx OH).
    split; auto. cbn [entries map fst]. fold (entries q). rewrite W. split; auto. split; auto. split; [apply (file_split [] [(EEpoch e0, s0)] q t); reflexivity|].
    split; [reflexivity|]. split; [exists e0, s0, []; auto|]. constructor.
Qed.
End Replay.

Lemma mpqw_ok l : file_ok l -> forall f c qe t, torn t -> (length (log_file l ++ t) <= f)%nat -> 0 <= c < 2 ^ 63 -> 0 <= qe < 2 ^ 63 -> epochs_small (entries l) ->
  mpqw_loop f c qe (log_file l ++ t) = Some (first_wake c qe (entries l)).
Proof.
  induction 1 as [|[e stale] l [He Hs] Hl IH]; intros f c qe t Ht Hf Hc Hq Hsm.
  - cbn [log_file map concat app entries first_wake] in *. destruct (torn_size t Ht) as [H|(H & size & E & H1 & H2)].
    + destruct f; cbn [mpqw_loop]; replace (len t <? 8) with true by lia; reflexivity.
    + destruct f; [unfold len in *; lia|]. cbn [mpqw_loop]. replace (len t <? 8) with false by lia. rewrite E. replace (size <? 8) with false by lia. now replace (len t <? size) with true by lia.
  - rewrite file_cons in *. cbn [fst snd entries map] in *. fold (entries l) in *. rewrite <- app_assoc in *. pose proof (store_length e stale Hs). rewrite app_length in Hf. destruct f; [lia|].
    destruct (entry_frame e stale (log_file l ++ t) He Hs) as (F1 & F2 & F3 & F4). cbn [mpqw_loop]. rewrite F1, (size_field e stale _ He Hs), F3, F2, (cmd_field e stale _ He Hs), F4.
    destruct e as [k v ts|k v ts|k v ts|k v ts pv|e0| |]; cbn [epochs_small first_wake] in *.
    5:{ change (logcmd_epoch =? logcmd_epoch) with true. cbv iota. change (size_of_entry (EEpoch e0) <? 16) with false. cbv iota.
        rewrite epoch_field by (cbn in He; lia). apply IH; auto; try lia; tauto. }
    6:{ change (logcmd_wake =? logcmd_epoch) with false. change (logcmd_wake =? logcmd_wake) with true. cbn [andb]. cbv iota.
        unfold ci_ge. change (ci_less 64 c qe) with (ci_lt 64 c qe). rewrite ci_lt_small by lia. replace (negb (c <? qe)) with (qe <=? c) by lia.
        destruct (negb (c =? 0) && (qe <=? c)); [reflexivity|]. apply IH; auto; lia. }
    all: cbn [Z.eqb Pos.eqb andb logcmd_put logcmd_replace logcmd_remove logcmd_modify logcmd_epoch logcmd_quiesce logcmd_wake]; apply IH; auto; lia.
Qed.

(* Statements over torn files. *)
Lemma torn_of x k : entry_ok (fst x) -> len (snd x) = 4 -> (k < length (store_entry (fst x) (snd x)))%nat -> torn (firstn k (store_entry (fst x) (snd x))).
Proof. intros H1 H2 H3. exists (fst x), (snd x), k. auto. Qed.
Lemma starts_conv mn l : starts_before mn (entries l) -> starts mn l.
Proof. destruct l as [|[e s] l]; cbn; [easy|]. destruct e; try easy. intros [H1 H2]. exists e, s, l. auto. Qed.
Lemma replay_torn mn mx l x k : 0 <= mn -> mn < mx < 2 ^ 63 -> file_ok l -> entry_ok (fst x) -> len (snd x) = 4 -> (k < length (store_entry (fst x) (snd x)))%nat ->
  epochs_from 0 (entries l) -> epochs_small (entries l) -> starts_before mn (entries l) ->
  exists r, replay_log (torn_file l x k) mn mx = Some r /\
    map view (rp_run r) = map (fun x => Some (snd x)) (filter has_key (wanted mn mx (entries l))) /\
    exists l1 seg l2, l = l1 ++ seg ++ l2 /\ kept_log (torn_file l x k) r = log_file seg /\
      wanted mn mx (entries seg) = wanted mn mx (entries l) /\ starts_before mn (entries seg) /\
      (forall y, In y (tagged 0 (entries seg)) -> fst y < mx).
Proof.
  intros H1 H2 Hl He Hs Hk Ho Hsm Hst. unfold torn_file.
  destruct (replay_spec mn mx ltac:(lia) ltac:(lia) ltac:(lia) l _ Hl (torn_of x k He Hs Hk) Ho Hsm (starts_conv mn l Hst)) as (r & l1 & seg & l2 & E & V & S1 & S2 & S3 & (e0 & s0 & q & S4 & S4') & S5).
  exists r. split; auto. split; auto. exists l1, seg, l2. split; auto. split; auto. split; auto. split; [|now apply Forall_forall].
  subst seg. cbn. split; auto. rewrite S1, !entries_app in Hsm. apply epochs_small_app in Hsm. destruct Hsm as [_ Hsm]. cbn in Hsm. lia.
Qed.
Lemma kept_ok l1 seg l2 : file_ok (l1 ++ seg ++ l2) -> epochs_from 0 (entries (l1 ++ seg ++ l2)) -> epochs_small (entries (l1 ++ seg ++ l2)) -> 
  (exists e0 s0 q, seg = (EEpoch e0, s0) :: q) -> file_ok seg /\ epochs_from 0 (entries seg) /\ epochs_small (entries seg).
Proof.
  intros H1 H2 H3 (e0 & s0 & q & ->). rewrite !entries_app in *. unfold file_ok in *. apply Forall_app in H1. destruct H1 as [_ H1]. apply Forall_app in H1.
  apply epochs_from_app in H2. destruct H2 as [_ H2]. apply epochs_from_app in H2. destruct H2 as [H2 _]. apply epochs_small_app in H3. destruct H3 as [_ H3]. apply epochs_small_app in H3.
  destruct H3 as [H3 _]. split; [tauto|]. split; [|auto]. cbn in *. split; [lia|tauto].
Qed.
Lemma torn_file_0 l x : torn_file l x 0 = log_file l. Proof. apply app_nil_r. Qed.
Lemma starts_head mn l : starts_before mn (entries l) -> exists e0 s0 q, l = (EEpoch e0, s0) :: q.
Proof. destruct l as [|[e s] l]; cbn; [easy|]. destruct e; try easy. eauto. Qed.
Lemma replay_again n mn mx : 0 <= mn -> mn < mx < 2 ^ 63 -> forall l x k, file_ok l -> entry_ok (fst x) -> len (snd x) = 4 -> (k < length (store_entry (fst x) (snd x)))%nat ->
  epochs_from 0 (entries l) -> epochs_small (entries l) -> starts_before mn (entries l) ->
  exists r, replay_times n (torn_file l x k) mn mx = Some r /\ map view (rp_run r) = map (fun x => Some (snd x)) (filter has_key (wanted mn mx (entries l))).
Proof.
  intros H1 H2. induction n as [|n IH]; intros l x k Hl He Hs Hk Ho Hsm Hst;
  destruct (replay_torn mn mx l x k H1 H2 Hl He Hs Hk Ho Hsm Hst) as (r & E & V & l1 & seg & l2 & S1 & S2 & S3 & S4 & S5); cbn [replay_times].
  - exists r. auto.
  - rewrite E, S2. rewrite <- (torn_file_0 seg x). rewrite S1 in Hl, Ho, Hsm. destruct (kept_ok l1 seg l2 Hl Ho Hsm (starts_head _ _ S4)) as (K1 & K2 & K3).
    destruct (IH seg x 0%nat K1 He Hs ltac:(lia) K2 K3 S4) as (r' & E' & V'). exists r'. split; auto. now rewrite V', S3.
Qed.

(* A file cut at any byte. *)
Lemma cut_split l : file_ok l -> forall n, (n <= length (log_file l))%nat -> exists m t, firstn n (log_file l) = log_file (firstn m l) ++ t /\ torn t /\
  (length (log_file (firstn m l)) <= n)%nat /\ (m <= length l)%nat /\ ((m < length l)%nat -> (n < length (log_file (firstn (S m) l)))%nat).
Proof.
  induction 1 as [|[e stale] l [He Hs] Hl IH]; intros n Hn.
  - exists 0%nat, []. cbn. rewrite firstn_nil. repeat split; auto using torn_nil; lia.
  - rewrite file_cons in *. cbn [fst snd] in *. rewrite app_length in Hn. pose proof (store_length e stale Hs).
    destruct (le_lt_dec (length (store_entry e stale)) n) as [L|L].
    + destruct (IH (n - length (store_entry e stale))%nat ltac:(lia)) as (m & t & E & Ht & E1 & E2 & E3). exists (S m), t.
      rewrite firstn_app, firstn_all2 by lia. rewrite E. cbn [firstn]. rewrite !file_cons. cbn [fst snd]. rewrite <- !app_assoc, !app_length. repeat split; auto; [lia|cbn; lia|].
      cbn [length firstn]. intros Hm. specialize (E3 ltac:(lia)). cbn [firstn] in E3. lia.
    + exists 0%nat, (firstn n (store_entry e stale)). rewrite firstn_app. replace (n - length (store_entry e stale))%nat with 0%nat by lia. rewrite firstn_O, app_nil_r. cbn [firstn log_file map concat app length].
      repeat split; auto; try lia; [apply (torn_of (e, stale)); auto|]. intros _. cbn [fst snd]. rewrite app_nil_r. lia.
Qed.
Lemma file_ok_firstn m l : file_ok l -> file_ok (firstn m l).
Proof. intros H. rewrite <- (firstn_skipn m l) in H. unfold file_ok in H. apply Forall_app in H. tauto. Qed.
Lemma cut_reads l n : file_ok l -> (n <= length (log_file l))%nat -> exists m rs, read_log (firstn n (log_file l)) = Some rs /\ map view rs = map Some (firstn m (entries l)) /\
  (length (log_file (firstn m l)) <= n)%nat /\ (m <= length l)%nat /\ ((m < length l)%nat -> (n < length (log_file (firstn (S m) l)))%nat).
Proof.
  intros Hl Hn. destruct (cut_split l Hl n Hn) as (m & t & E & Ht & E1 & E2 & E3). rewrite E.
  destruct (extract_all_ok (firstn m l) (file_ok_firstn m l Hl) (length (log_file (firstn m l) ++ t)) lr_init t Ht ltac:(lia)) as (rs & R1 & R2).
  exists m, rs. split; [exact R1|]. split; [|auto]. rewrite R2. unfold entries. now rewrite firstn_map.
Qed.
Lemma epochs_firstn m l : epochs_from 0 l -> epochs_from 0 (firstn m l).
Proof. intros H. rewrite <- (firstn_skipn m l) in H. apply epochs_from_app in H. tauto. Qed.
Lemma small_firstn m l : epochs_small l -> epochs_small (firstn m l).
Proof. intros H. rewrite <- (firstn_skipn m l) in H. apply epochs_small_app in H. tauto. Qed.
Lemma cut_info l n qe : file_ok l -> (n <= length (log_file l))%nat -> epochs_from 0 (entries l) -> epochs_small (entries l) -> 0 <= qe < 2 ^ 63 -> exists m, let seen := firstn m (entries l) in
  log_info (firstn n (log_file l)) = Some (MkInf (first_epoch seen) (epoch_after 0 seen) (wake_after 0 0 seen) (ends_quiescent seen)) /\
  log_mpqw qe (firstn n (log_file l)) = Some (first_wake 0 qe seen) /\
  (length (log_file (firstn m l)) <= n)%nat /\ (m <= length l)%nat /\ ((m < length l)%nat -> (n < length (log_file (firstn (S m) l)))%nat).
Proof.
  intros Hl Hn Ho Hsm Hq. destruct (cut_split l Hl n Hn) as (m & t & E & Ht & E1 & E2 & E3). exists m. cbn zeta. rewrite E.
  assert (F : entries (firstn m l) = firstn m (entries l)) by (unfold entries; now rewrite firstn_map).
  rewrite <- F. pose proof (file_ok_firstn m l Hl). assert (epochs_from 0 (entries (firstn m l))) by (rewrite F; now apply epochs_firstn). assert (epochs_small (entries (firstn m l))) by (rewrite F; now apply small_firstn).
  split; [|split; [|auto]].
  - unfold log_info. rewrite (info_ok (firstn m l)); auto; cbn [inf_init in_first in_last in_wake in_quiescent]; try lia. do 2 f_equal. destruct (entries (firstn m l)); reflexivity.
  - unfold log_mpqw. apply mpqw_ok; auto; lia.
Qed.
Lemma cut_replay mn mx l n : 0 <= mn -> mn < mx < 2 ^ 63 -> file_ok l -> (n <= length (log_file l))%nat -> epochs_from 0 (entries l) -> epochs_small (entries l) -> starts_before mn (entries l) ->
  exists m r, replay_log (firstn n (log_file l)) mn mx = Some r /\
    map view (rp_run r) = map (fun x => Some (snd x)) (filter has_key (wanted mn mx (firstn m (entries l)))) /\
  (length (log_file (firstn m l)) <= n)%nat /\ (m <= length l)%nat /\ ((m < length l)%nat -> (n < length (log_file (firstn (S m) l)))%nat) /\
  forall k, exists r', replay_times k (firstn n (log_file l)) mn mx = Some r' /\ map view (rp_run r') = map view (rp_run r).
Proof.
  intros H1 H2 Hl Hn Ho Hsm Hst. destruct (cut_split l Hl n Hn) as (m & t & E & Ht & E1 & E2 & E3). exists m. rewrite E.
  assert (F : entries (firstn m l) = firstn m (entries l)) by (unfold entries; now rewrite firstn_map).
  destruct Ht as (e & s & k & He & Hs & Hk & ->). change (log_file (firstn m l) ++ firstn k (store_entry e s)) with (torn_file (firstn m l) (e, s) k).
  destruct m as [|m].
  { assert (Ht : torn (firstn k (store_entry e s))) by (exists e, s, k; auto). exists (MkRp [] 0 0). cbn [torn_file firstn log_file map concat app fst snd] in *.
    assert (R : forall j, replay_times j (firstn k (store_entry e s)) mn mx = Some (MkRp [] 0 0)).
    { assert (R0 : forall t, torn t -> replay_log t mn mx = Some (MkRp [] 0 0)).
      { intros [|b t] Hbt; [reflexivity|]. unfold replay_log. cbn [length replay_loop]. destruct (torn_extract lr_init (b :: t) Hbt ltac:(discriminate)) as (lr' & -> & ->). reflexivity. }
      revert Ht. generalize (firstn k (store_entry e s)) as t. intros t Ht j. revert t Ht. induction j; intros t Ht; cbn [replay_times]; [auto|]. rewrite R0 by auto. apply IHj. apply torn_nil. }
    split; [apply (R 0%nat)|]. split; auto. split; auto. split; auto. split; auto. intros j. exists (MkRp [] 0 0). auto. }
  assert (Hst' : starts_before mn (entries (firstn (S m) l))) by (destruct l as [|x l]; [easy|exact Hst]).
  set (m' := S m) in *. clearbody m'. rename m into m0. rename m' into m.
  pose proof (file_ok_firstn m l Hl). assert (epochs_from 0 (entries (firstn m l))) by (rewrite F; now apply epochs_firstn). assert (epochs_small (entries (firstn m l))) by (rewrite F; now apply small_firstn).
  destruct (replay_again 0 mn mx H1 H2 (firstn m l) (e, s) k) as (r & R1 & R2); auto.
  exists r. split; [exact R1|]. rewrite <- F. split; [exact R2|]. split; auto. split; auto. split; auto. intros j.
  destruct (replay_again j mn mx H1 H2 (firstn m l) (e, s) k) as (r' & R1' & R2'); auto. exists r'. split; auto. now rewrite R2', R2.
Qed.
