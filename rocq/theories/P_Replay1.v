(* Replaying the records of one key in any order. *)
From Verif Require Import Lib M_Key P_Key M_Msgpack M_Bag M_Log Spec_Log Spec_Row M_Array M_Rowrun P_Row P_Bag1 P_Bag2 P_Bag3 M_Replay.

Definition even_ts (b : bag) : Prop := Z.odd (bag_timestamp b) = false.
Fixpoint evs (c : chain) : Prop := match c with CNil => True | CRow b => even_ts b | CDelta _ _ c' => evs c' end.
Lemma is_delta_ev c : evs c -> is_delta c = Some (match c with CDelta _ _ _ => true | _ => false end).
Proof. destruct c; auto. cbn [evs is_delta]. unfold even_ts. now intros ->. Qed.

(* The effect of a record on a chain of older ones. *)
Definition step (r : rrec) (c : chain) : option chain :=
  match r_cmd r with
  | KPut => ch <- parse_changeset (r_val r); b <- bag_create ch (r_ts r); Some (CRow b)
  | KReplace => b <- bag_create1 (r_val r) (r_ts r); Some (CRow b)
  | KModify p => match c with
                 | CRow b => if bag_timestamp b =? p then ch <- parse_changeset (r_val r); b' <- bag_update b ch (r_ts r); Some (CRow b') else make_delta (r_val r) (r_ts r) p c
                 | _ => make_delta (r_val r) (r_ts r) p c
                 end
  end.
(* The records in P, applied in order; newest first. *)
Fixpoint canon (P : Z -> bool) (h : list rrec) (c0 : chain) : option chain :=
  match h with
  | [] => Some c0
  | r :: h' => if P (r_ts r) then c <- canon P h' c0; step r c else canon P h' c0
  end.

Definition rfits (r : rrec) : Prop := match r_cmd r with KModify p => 30 + len (r_val r) < 2 ^ 16 /\ Z.odd p = false | _ => True end.
(* Valid histories on top of base timestamp b0. *)
Fixpoint valid (b0 : Z) (h : list rrec) : Prop :=
  match h with
  | [] => True
  | r :: h' => Z.odd (r_ts r) = false /\ b0 < r_ts r /\ 0 <= r_ts r < 2 ^ 64 /\ Forall (fun r' => r_ts r' < r_ts r) h' /\ rfits r /\
               (match r_cmd r with KModify p => b0 <= p /\ Forall (fun r' => r_ts r' <= p) h' | _ => True end) /\ valid b0 h'
  end.
Fixpoint defd (h : list rrec) (c0 : chain) : Prop :=
  match h with [] => True | r :: h' => (forall P, canon P (r :: h') c0 <> None) /\ defd h' c0 end.

Lemma odd_lor ts : Z.odd ts = false -> Z.lor ts 1 = ts + 1.
Proof.
  intros Ho. assert (E : Z.land ts 1 = 0). { change 1 with (Z.ones 1). rewrite Z.land_ones by lia. change (2 ^ 1) with 2. rewrite Zmod_odd, Ho. reflexivity. }
  rewrite Z.add_nocarry_lxor, Z.lxor_lor by auto. reflexivity.
Qed.
Lemma update_ts b0 ch ts b : bag_update b0 ch ts = Some b -> bag_timestamp b = ts.
Proof.
  unfold bag_update. destruct (ld_ncol b0) as [n0|]; [|discriminate]. destruct (bag_size b0) as [size|]; [|discriminate]. destruct (upd_sizes _ _ _ _ _) as [[sz nc]|]; [|discriminate].
  intros H. set (slow := match wr16 _ _ _ with Some _ => _ | None => _ end) in H.
  assert (S : forall b', slow = Some b' -> bag_timestamp b' = ts).
  { unfold slow. intros b'. destruct (wr16 _ _ _); [|discriminate]. destruct (upd_loop _ _ _ _ _ _ _) as [[m2 s]|]; [|discriminate]. destruct (wr16 m2 _ s); [|discriminate]. now intros [= <-]. }
  clearbody slow. destruct ch as [|[i v] [|]]; try now apply S. destruct ((nc =? n0) && _ && _); [|now apply S].
  destruct (rd _ _ _); [|discriminate]. destruct (wr _ _ _); [|discriminate]. destruct (ld_pos _ _); [|discriminate]. destruct (wr _ _ _); [|discriminate]. now injection H as <-.
Qed.
Lemma create1_ts v ts b : bag_create1 v ts = Some b -> bag_timestamp b = ts.
Proof.
  unfold bag_create1. destruct (wr16 _ _ 1); [|discriminate]. destruct (wr16 _ _ _); [|discriminate]. destruct (wr16 _ _ _); [|discriminate]. destruct (ld_pos _ _); [|discriminate]. destruct (wr _ _ _); [|discriminate]. now intros [= <-].
Qed.

(* Delta markers. *)
Lemma delta_row v ts : 30 + len v < 2 ^ 16 -> exists b, bag_create1 (repeat 0 sz_delta ++ v) ts = Some b /\ bag_timestamp b = ts /\ bag_col b 0 = Some (repeat 0 sz_delta ++ v).
Proof.
  intros H. destruct (bag_history [(RReplace (repeat 0 sz_delta ++ v), ts)]) as (b & E1 & E2 & _ & E3).
  - repeat constructor.
  - cbn [map fst throughout]. split.
    + unfold fits_bag. cbn [columns]. unfold row_after. cbn [columns]. change (Z.to_nat 1) with 1%nat. cbn [seq map last_written concat Z.of_nat Z.eqb]. rewrite app_nil_r, len_app. change (len (repeat 0 sz_delta)) with 24. lia.
    + vm_compute. reflexivity.
  - exists b. split; [exact E1|]. split; [exact E2|]. exact (E3 0 ltac:(lia)).
Qed.
(* A delta marker as replay makes it. *)
Definition delta_ok (b : bag) : Prop :=
  exists v ts, bag_col b 0 = Some (repeat 0 sz_delta ++ v) /\ bag_timestamp b = ts + 1 /\ Z.odd ts = false /\ 0 <= ts < 2 ^ 64.
Fixpoint chain_ok (c : chain) : Prop := match c with CNil => True | CRow b => even_ts b | CDelta b _ c' => delta_ok b /\ chain_ok c' end.
Lemma chain_evs c : chain_ok c -> evs c.
Proof. induction c; cbn; tauto. Qed.

(* The clean-up from below. *)
Definition join (b : bag) (p : Z) (c : chain) : option chain :=
  match c with
  | CRow old => if p =? bag_timestamp old then
                  v <- bag_col b 0; ch <- parse_changeset (skipn sz_delta v); b' <- bag_update old ch (bag_timestamp b - 1); Some (CRow b')
                else Some (CDelta b p c)
  | _ => Some (CDelta b p c)
  end.
Lemma round_join b p c : delta_ok b -> evs c -> (match c with CDelta _ _ _ => False | _ => True end) ->
  clean_round (CDelta b p c) = match c with
                               | CRow old => if p =? bag_timestamp old then x <- join b p c; Some (Some x) else Some None
                               | _ => Some None
                               end.
Proof.
  intros (v & ts & D1 & D2 & D3 & D4) He Hc. cbn [clean_round]. rewrite is_delta_ev by auto. destruct c as [|old|]; try easy.
  cbn [join]. destruct (p =? bag_timestamp old) eqn:E; auto. rewrite D1, D2. rewrite app_length, repeat_length. replace (_ <? _)%nat with false by lia.
  replace (ts + 1 - 1) with ts by lia. rewrite Z.mod_small by lia. destruct (parse_changeset _); auto. destruct (bag_update _ _ _); auto.
Qed.
Lemma clean_row n b : even_ts b -> clean n (CRow b) = Some (CRow b).
Proof. intros H. destruct n; cbn [clean is_delta]; unfold even_ts in H; now rewrite H. Qed.
Lemma join_ok b p c z : delta_ok b -> chain_ok c -> join b p c = Some z -> chain_ok z.
Proof.
  intros Db Hc. pose proof Db as (v & ts & D1 & D2 & D3 & D4). destruct c as [|old|b' p' c']; cbn [join]; try (intros [= <-]; now split).
  destruct (p =? bag_timestamp old); [|intros [= <-]; now split]. destruct (bag_col b 0); [|discriminate]. destruct (parse_changeset _); [|discriminate].
  destruct (bag_update _ _ _) as [b'|] eqn:E; [|discriminate]. intros [= <-]. cbn [chain_ok]. unfold even_ts. rewrite (update_ts _ _ _ _ E), D2. now replace (ts + 1 - 1) with ts by lia.
Qed.
Lemma round_ok c c' : chain_ok c -> clean_round c = Some (Some c') -> chain_ok c'.
Proof.
  revert c'. induction c as [|b|b p c IH]; intros c' Hc H; try discriminate. destruct Hc as [Db Hc]. destruct c as [|old|b2 p2 c2].
  - discriminate.
  - rewrite round_join in H by (auto using chain_evs). destruct (p =? bag_timestamp old) eqn:E; [|discriminate]. destruct (join b p (CRow old)) eqn:J; [|discriminate]. injection H as <-. exact (join_ok _ _ _ _ Db Hc J).
  - change (clean_round (CDelta b p (CDelta b2 p2 c2))) with (match clean_round (CDelta b2 p2 c2) with Some (Some below') => Some (Some (CDelta b p below')) | Some None => Some None | None => None end) in H.
    destruct (clean_round (CDelta b2 p2 c2)) as [[x|]|]; try discriminate. injection H as <-. split; auto.
Qed.
Lemma clean_join b p : delta_ok b -> forall n x y, chain_ok x -> clean n x = Some y -> clean (S n) (CDelta b p x) = join b p y.
Proof.
  intros Db. assert (Hj : forall y z, chain_ok y -> join b p y = Some z -> evs z). { intros y z Hy J. apply chain_evs. exact (join_ok _ _ _ _ Db Hy J). }
  induction n as [|n IH]; intros x y Hx' Hc; pose proof (chain_evs _ Hx') as Hx.
  - cbn [clean] in Hc. rewrite is_delta_ev in Hc by auto. cbn [clean is_delta]. destruct x as [|old|b' p' x].
    + injection Hc as <-. rewrite round_join by easy. reflexivity.
    + injection Hc as <-. rewrite round_join by easy. cbn [join]. destruct (p =? bag_timestamp old) eqn:E; auto.
      destruct (bag_col b 0) eqn:E0; auto. destruct (parse_changeset _) eqn:E1; auto. destruct (bag_update _ _ _) as [b'|] eqn:E2; auto. rewrite is_delta_ev by (apply (Hj (CRow old)); [exact Hx'|cbn [join]; rewrite E, E0, E1, E2; reflexivity]). reflexivity.
    + destruct (clean_round (CDelta b' p' x)) as [[c'|]|] eqn:E; try discriminate. injection Hc as <-.
      change (clean_round (CDelta b p (CDelta b' p' x))) with (match clean_round (CDelta b' p' x) with Some (Some below') => Some (Some (CDelta b p below')) | Some None => Some None | None => None end).
      rewrite E. reflexivity.
  - cbn [clean] in Hc. rewrite is_delta_ev in Hc by auto. change (clean (S (S n)) (CDelta b p x)) with (match clean_round (CDelta b p x) with Some None => Some (CDelta b p x) | Some (Some c') => clean (S n) c' | None => None end). destruct x as [|old|b' p' x].
    + injection Hc as <-. rewrite round_join by easy. reflexivity.
    + injection Hc as <-. rewrite round_join by easy. cbn [join]. destruct (p =? bag_timestamp old) eqn:E; auto.
      destruct (bag_col b 0) eqn:E0; auto. destruct (parse_changeset _) eqn:E1; auto. destruct (bag_update _ _ _) as [b'|] eqn:E2; auto. apply clean_row. apply (Hj (CRow old) (CRow b')); [exact Hx'|cbn [join]; rewrite E, E0, E1, E2; reflexivity].
    + change (clean_round (CDelta b p (CDelta b' p' x))) with (match clean_round (CDelta b' p' x) with Some (Some below') => Some (Some (CDelta b p below')) | Some None => Some None | None => None end).
      destruct (clean_round (CDelta b' p' x)) as [[c'|]|] eqn:E; try discriminate.
      * apply IH; auto. exact (round_ok _ _ Hx' E).
      * injection Hc as <-. reflexivity.
Qed.

Fixpoint stable (c : chain) : Prop := match c with CDelta b p c' => join b p c' = Some (CDelta b p c') /\ stable c' | _ => True end.
Lemma stable_round c : chain_ok c -> stable c -> clean_round c = Some None.
Proof.
  induction c as [|b|b p c IH]; intros Hc Hs; auto. destruct Hc as [Db Hc]. destruct Hs as [J Hs]. destruct c as [|old|b2 p2 c2].
  - reflexivity.
  - rewrite round_join by (auto using chain_evs). destruct (p =? bag_timestamp old) eqn:E; auto. rewrite J. cbn [join] in J. rewrite E in J.
    destruct (bag_col b 0); [|discriminate]. destruct (parse_changeset _); [|discriminate]. destruct (bag_update _ _ _); discriminate.
  - change (clean_round (CDelta b p (CDelta b2 p2 c2))) with (match clean_round (CDelta b2 p2 c2) with Some (Some below') => Some (Some (CDelta b p below')) | Some None => Some None | None => None end).
    now rewrite (IH Hc Hs).
Qed.
Lemma stable_clean n c : chain_ok c -> stable c -> clean n c = Some c.
Proof.
  intros Hc Hs. pose proof (stable_round _ Hc Hs) as E. destruct n; cbn [clean]; rewrite is_delta_ev by (now apply chain_evs); destruct c; auto; now rewrite E.
Qed.

(* A record on top. *)
Definition rec_ok (r : rrec) : Prop := Z.odd (r_ts r) = false /\ 0 <= r_ts r < 2 ^ 64 /\ rfits r.
Lemma step_modify r p : rec_ok r -> r_cmd r = KModify p -> exists b, delta_ok b /\ bag_timestamp b = r_ts r + 1 /\
  (forall c, make_delta (r_val r) (r_ts r) p c = Some (CDelta b p c)) /\ forall c, step r c = join b p c.
Proof.
  intros (Ho & Hr & Hf) Hc. unfold rfits in Hf. rewrite Hc in Hf. destruct Hf as [Hf Hp]. destruct (delta_row (r_val r) (r_ts r + 1) Hf) as (b & E1 & E2 & E3).
  exists b. split; [exists (r_val r), (r_ts r); auto|]. split; auto.
  assert (M : forall c, make_delta (r_val r) (r_ts r) p c = Some (CDelta b p c)). { intros c. unfold make_delta. rewrite odd_lor by auto. now rewrite E1. }
  split; auto. intros c. unfold step. rewrite Hc. destruct c as [|old|b2 p2 c2]; cbn [join]; rewrite ?M; auto. rewrite (Z.eqb_sym p). destruct (bag_timestamp old =? p); auto.
  rewrite E3, E2. replace (skipn sz_delta (repeat 0 sz_delta ++ r_val r)) with (r_val r) by reflexivity. now replace (r_ts r + 1 - 1) with (r_ts r) by lia.
Qed.
Lemma step_ok r c c' : rec_ok r -> chain_ok c -> stable c -> step r c = Some c' ->
  chain_ok c' /\ stable c' /\ (exists t, chain_ts c' = Some t /\ r_ts r <= t <= r_ts r + 1).
Proof.
  intros Hr Hc Hs H. pose proof Hr as (Ho & Hr1 & Hf). destruct (r_cmd r) as [| |p] eqn:E.
  - unfold step in H. rewrite E in H. destruct (parse_changeset _); [|discriminate]. destruct (bag_create _ _) as [b|] eqn:B; [|discriminate]. injection H as <-.
    apply update_ts in B. cbn [chain_ok stable chain_ts]. unfold even_ts. rewrite B. split; auto. split; auto. exists (r_ts r). split; auto. lia.
  - unfold step in H. rewrite E in H. destruct (bag_create1 _ _) as [b|] eqn:B; [|discriminate]. injection H as <-.
    apply create1_ts in B. cbn [chain_ok stable chain_ts]. unfold even_ts. rewrite B. split; auto. split; auto. exists (r_ts r). split; auto. lia.
  - destruct (step_modify r p Hr E) as (b & Db & Eb & M & J). rewrite J in H. split; [exact (join_ok _ _ _ _ Db Hc H)|].
    destruct c as [|old|b2 p2 c2]; cbn [join] in H.
    + injection H as <-. cbn [stable join chain_ts]. split; auto. exists (r_ts r + 1). split; [now rewrite Eb|lia].
    + destruct (p =? bag_timestamp old) eqn:E2.
      * destruct (bag_col b 0); [|discriminate]. destruct (parse_changeset _); [|discriminate]. destruct (bag_update _ _ _) as [b'|] eqn:B; [|discriminate]. injection H as <-.
        split; [exact I|]. cbn [chain_ts]. apply update_ts in B. exists (r_ts r). split; [f_equal; lia|lia].
      * injection H as <-. cbn [stable join chain_ts]. rewrite E2. split; auto. exists (r_ts r + 1). split; [now rewrite Eb|lia].
    + injection H as <-. split; [split; auto|]. cbn [chain_ts]. exists (r_ts r + 1). split; [now rewrite Eb|lia].
Qed.
Definition top_lt (c : chain) (t : Z) : Prop := match chain_ts c with Some x => x < t | None => True end.
Lemma apply_top r c c' : rec_ok r -> chain_ok c -> stable c -> top_lt c (r_ts r) -> step r c = Some c' -> apply r c = Some c'.
Proof.
  intros Hr Hc Hs Ht H. pose proof Hr as (Ho & Hr1 & Hf).
  assert (A : place r c = Some (c', true)).
  { assert (A : act_here r c = Some (c', true)).
    { unfold act_here. unfold step in H. unfold top_lt in Ht. destruct c as [|old|b2 p2 c2]; cbn [chain_ts] in *.
      - destruct (r_cmd r); [destruct (parse_changeset _); [|discriminate]; destruct (bag_create _ _)|destruct (bag_create1 _ _)|destruct (make_delta _ _ _ _)]; try discriminate; now injection H as <-.
      - replace (r_ts r <=? bag_timestamp old) with false by lia.
        destruct (r_cmd r) as [| |p]; [destruct (parse_changeset _); [|discriminate]; destruct (bag_create _ _)|destruct (bag_create1 _ _)|]; try discriminate; try now injection H as <-.
        destruct (bag_timestamp old =? p). { destruct (parse_changeset _); [|discriminate]. destruct (bag_update _ _ _); [|discriminate]. now injection H as <-. }
        destruct (make_delta _ _ _ _); [|discriminate]. now injection H as <-.
      - replace (r_ts r <=? bag_timestamp b2) with false by lia.
        destruct (r_cmd r) as [| |p] eqn:E; [destruct (parse_changeset _); [|discriminate]; destruct (bag_create _ _)|destruct (bag_create1 _ _)|]; try discriminate; try now injection H as <-.
        destruct Hc as [(v & ts & D1 & D2 & D3 & D4) _]. unfold rfits in Hf. rewrite E in Hf. destruct Hf as [_ Hp].
        replace (bag_timestamp b2 =? p) with false. 2:{ symmetry. apply Z.eqb_neq. intros X. rewrite D2 in X. rewrite <- X, Z.odd_add, D3 in Hp. discriminate. }
        destruct (make_delta _ _ _ _); [|discriminate]. now injection H as <-. }
    destruct c as [|old|b2 p2 c2]; unfold place; fold place; rewrite (is_delta_ev _ (chain_evs _ Hc)); auto. unfold top_lt in Ht. cbn [chain_ts] in Ht. now replace (r_ts r <? bag_timestamp b2) with false by lia. }
  unfold apply. rewrite A. cbn [fst snd]. destruct (step_ok _ _ _ Hr Hc Hs H) as (C & S & _). now apply stable_clean.
Qed.
