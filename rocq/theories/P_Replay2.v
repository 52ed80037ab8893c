(* Replaying the records of one key in any order: the order does not matter. *)
From Verif Require Import Lib M_Key P_Key M_Msgpack M_Bag M_Log Spec_Log Spec_Row M_Array M_Rowrun P_Row P_Bag1 P_Bag2 P_Bag3 M_Replay P_Replay1.

Lemma act_same r c x : act_here r c = Some (x, false) -> x = c.
Proof.
  unfold act_here. destruct (chain_ts c) as [t|].
  - destruct (r_ts r <=? t); [now intros [= <-]|]. destruct (r_cmd r) as [| |p].
    + destruct (parse_changeset _); [|discriminate]. destruct (bag_create _ _); discriminate.
    + destruct (bag_create1 _ _); discriminate.
    + destruct (t =? p). { destruct (parse_changeset _); [|discriminate]. destruct c; try discriminate. destruct (bag_update _ _ _); discriminate. }
      destruct (make_delta _ _ _ _); discriminate.
  - destruct (r_cmd r) as [| |p].
    + destruct (parse_changeset _); [|discriminate]. destruct (bag_create _ _); discriminate.
    + destruct (bag_create1 _ _); discriminate.
    + destruct (make_delta _ _ _ _); discriminate.
Qed.
Lemma place_same r c x : chain_ok c -> place r c = Some (x, false) -> x = c.
Proof.
  revert x. induction c as [|b|b p c IH]; intros x Hc; unfold place; fold place; rewrite (is_delta_ev _ (chain_evs _ Hc)); try apply act_same.
  destruct (r_ts r <? bag_timestamp b); [|apply act_same]. destruct Hc as [_ Hc]. destruct (place r c) as [[y fl]|]; [|discriminate]. cbn [fst snd]. intros [= <- ->]. f_equal. now apply IH.
Qed.
Lemma act_ok r c x fl : rec_ok r -> chain_ok c -> act_here r c = Some (x, fl) -> chain_ok x.
Proof.
  intros Hr Hc. pose proof Hr as (Ho & Hr1 & Hf). unfold act_here.
  assert (A : forall ch b, bag_create ch (r_ts r) = Some b -> chain_ok (CRow b)). { intros ch b B. cbn. unfold even_ts. now rewrite (update_ts _ _ _ _ B). }
  assert (A1 : forall v b, bag_create1 v (r_ts r) = Some b -> chain_ok (CRow b)). { intros v b B. cbn. unfold even_ts. now rewrite (create1_ts _ _ _ B). }
  assert (D : forall p d, r_cmd r = KModify p -> make_delta (r_val r) (r_ts r) p c = Some d -> chain_ok d).
  { intros p d E. destruct (step_modify r p Hr E) as (b & Db & _ & M & _). rewrite M. intros [= <-]. split; auto. }
  destruct (chain_ts c) as [t|].
  - destruct (r_ts r <=? t); [now intros [= <- _]|]. destruct (r_cmd r) as [| |p] eqn:E.
    + destruct (parse_changeset _); [|discriminate]. destruct (bag_create _ _) eqn:B; [|discriminate]. intros [= <- _]. eauto.
    + destruct (bag_create1 _ _) eqn:B; [|discriminate]. intros [= <- _]. eauto.
    + destruct (t =? p). { destruct (parse_changeset _); [|discriminate]. destruct c; try discriminate. destruct (bag_update _ _ _) eqn:B; [|discriminate]. intros [= <- _]. cbn. unfold even_ts. now rewrite (update_ts _ _ _ _ B). }
      destruct (make_delta _ _ _ _) eqn:B; [|discriminate]. intros [= <- _]. eauto.
  - destruct (r_cmd r) as [| |p] eqn:E.
    + destruct (parse_changeset _); [|discriminate]. destruct (bag_create _ _) eqn:B; [|discriminate]. intros [= <- _]. eauto.
    + destruct (bag_create1 _ _) eqn:B; [|discriminate]. intros [= <- _]. eauto.
    + destruct (make_delta _ _ _ _) eqn:B; [|discriminate]. intros [= <- _]. eauto.
Qed.
Lemma place_ok r c x fl : rec_ok r -> chain_ok c -> place r c = Some (x, fl) -> chain_ok x.
Proof.
  intros Hr. revert x fl. induction c as [|b|b p c IH]; intros x fl Hc; unfold place; fold place; rewrite (is_delta_ev _ (chain_evs _ Hc)); try (now apply act_ok).
  destruct (r_ts r <? bag_timestamp b); [|now apply act_ok]. destruct Hc as [Db Hc]. destruct (place r c) as [[y fl']|]; [|discriminate]. cbn [fst snd]. intros [= <- <-]. split; eauto.
Qed.

(* Records that are too old have no effect. *)
Fixpoint above (t : Z) (c : chain) : Prop := match c with CNil => False | CRow b => t <= bag_timestamp b | CDelta b _ c' => t < bag_timestamp b /\ above t c' end.
Lemma apply_stale r c : chain_ok c -> above (r_ts r) c -> apply r c = Some c.
Proof.
  intros Hc Ha. assert (P : place r c = Some (c, false)).
  { induction c as [|b|b p c IH]; [destruct Ha| |]; unfold place; fold place; rewrite (is_delta_ev _ (chain_evs _ Hc)).
    - cbn [above] in Ha. unfold act_here. cbn [chain_ts]. now replace (r_ts r <=? bag_timestamp b) with true by lia.
    - destruct Hc as [_ Hc]. destruct Ha as [Ha1 Ha]. replace (r_ts r <? bag_timestamp b) with true by lia. now rewrite (IH Hc Ha). }
  unfold apply. now rewrite P.
Qed.

(* A record below a marker. *)
Lemma apply_below r b p c c' : rec_ok r -> delta_ok b -> chain_ok c -> r_ts r < bag_timestamp b -> join b p c = Some (CDelta b p c) ->
  apply r c = Some c' -> apply r (CDelta b p c) = join b p c'.
Proof.
  intros Hr Db Hc Ht Hj H. unfold apply in *. unfold place; fold place. cbn [is_delta]. replace (r_ts r <? bag_timestamp b) with true by lia.
  destruct (place r c) as [[x fl]|] eqn:P; [|discriminate]. cbn [fst snd] in *. destruct fl.
  - cbn [depth]. apply clean_join; auto. exact (place_ok _ _ _ _ Hr Hc P).
  - injection H as <-. pose proof (place_same _ _ _ Hc P) as ->. now rewrite Hj.
Qed.

Definition add (t : Z) (P : Z -> bool) : Z -> bool := fun x => (x =? t) || P x.
Lemma canon_ext P Q h c0 : (forall r, In r h -> P (r_ts r) = Q (r_ts r)) -> canon P h c0 = canon Q h c0.
Proof.
  induction h as [|r h IH]; cbn [canon]; intros H; auto. rewrite (H r) by now left. rewrite IH; auto. intros r' Hr'. apply H. now right.
Qed.
Definition base_ok (b0 : Z) (c0 : chain) : Prop := match c0 with CNil => True | CRow b => even_ts b /\ bag_timestamp b <= b0 | CDelta _ _ _ => False end.
Lemma valid_rec b0 r h : valid b0 (r :: h) -> rec_ok r.
Proof. cbn [valid]. unfold rec_ok. tauto. Qed.
Lemma canon_inv b0 c0 P h c : valid b0 h -> base_ok b0 c0 -> canon P h c0 = Some c ->
  chain_ok c /\ stable c /\ forall t, b0 < t -> Z.odd t = false -> Forall (fun r => r_ts r < t) h -> top_lt c t.
Proof.
  intros V B. revert c. induction h as [|r h IH]; intros c; cbn [canon].
  - intros [= <-]. destruct c0; cbn in *; try tauto; unfold top_lt; cbn; repeat split; try tauto; intros; lia.
  - pose proof (valid_rec _ _ _ V) as Hr. cbn [valid] in V. destruct V as (Ho & Hb & Hr1 & Hl & Hf & Hp & V). destruct (P (r_ts r)).
    + destruct (canon P h c0) as [c1|]; [|discriminate]. intros H. destruct (IH V c1 eq_refl) as (I1 & I2 & _). destruct (step_ok _ _ _ Hr I1 I2 H) as (S1 & S2 & t' & S3 & S4).
      split; auto. split; auto. intros t Ht Hto HF. inversion HF; subst. unfold top_lt. rewrite S3.
      assert (t <> r_ts r + 1). { intros ->. rewrite Z.odd_add, Ho in Hto. discriminate. } lia.
    + intros H. destruct (IH V c H) as (I1 & I2 & I3). split; auto. split; auto. intros t Ht Hto HF. inversion HF; subst. apply I3; auto.
Qed.

Lemma full_step r c c' : (forall p, r_cmd r <> KModify p) -> step r c = step r c'.
Proof. intros H. unfold step. destruct (r_cmd r) as [| |p]; auto. now destruct (H p). Qed.
Lemma merge b0 c0 h : valid b0 h -> base_ok b0 c0 -> defd h c0 -> forall P r c, In r h -> P (r_ts r) = false -> canon P h c0 = Some c ->
  apply r c = canon (add (r_ts r) P) h c0.
Proof.
  intros V B. revert V. induction h as [|s h IH]; intros V D P r c Hin HP Hc; [destruct Hin|].
  pose proof (valid_rec _ _ _ V) as Hs. pose proof V as V0. cbn [valid] in V. destruct V as (Ho & Hb & Hr1 & Hl & Hf & Hp & V). cbn [defd] in D. destruct D as [D1 D].
  destruct Hin as [->|Hin].
  - cbn [canon] in Hc. rewrite HP in Hc. pose proof (D1 (add (r_ts r) P)) as Hd. cbn [canon] in *. unfold add in Hd at 1 |- * at 1. rewrite Z.eqb_refl in Hd |- *. cbn [orb] in Hd |- *.
    rewrite (canon_ext (add (r_ts r) P) P) in *.
    2,3: intros r' Hr'; unfold add; rewrite Forall_forall in Hl; specialize (Hl r' Hr'); now replace (r_ts r' =? r_ts r) with false by lia.
    rewrite Hc in *. destruct (step r c) as [c'|] eqn:E; [|now destruct Hd]. destruct (canon_inv _ _ _ _ _ V B Hc) as (I1 & I2 & I3).
    apply apply_top; auto.
  - assert (Hlt : r_ts r < r_ts s) by (rewrite Forall_forall in Hl; now apply Hl).
    pose proof (D1 (add (r_ts r) P)) as Hd. cbn [canon] in Hc, Hd |- *. unfold add in Hd at 1 |- * at 1. replace (r_ts s =? r_ts r) with false in * by lia. cbn [orb] in Hd |- *.
    destruct (P (r_ts s)) eqn:Ps; [|now apply IH].
    destruct (canon P h c0) as [c1|] eqn:E1; [|discriminate]. pose proof (IH V D P r c1 Hin HP E1) as M.
    destruct (canon (add (r_ts r) P) h c0) as [c2|] eqn:E2; [|now destruct Hd].
    destruct (canon_inv _ _ _ _ _ V B E1) as (I1 & I2 & I3).
    assert (Hr : rec_ok r). { clear - V Hin. induction h as [|x h IH]; [destruct Hin|]. destruct Hin as [->|Hin]; [exact (valid_rec _ _ _ V)|]. apply IH; auto. now cbn [valid] in V. }
    assert (Out : forall t0 x, t0 = r_ts r -> forall b, r_ts r <= bag_timestamp b -> even_ts b -> x = CRow b -> apply r x = Some x).
    { intros t0 x _ b Hb1 Hev ->. apply apply_stale; auto. }
    destruct (r_cmd s) as [| |p] eqn:Cs.
    1, 2: assert (Hn : forall p, r_cmd s <> KModify p) by (intros p; rewrite Cs; discriminate); rewrite <- (full_step s c1 c2 Hn), Hc;
      destruct (step_ok _ _ _ Hs I1 I2 Hc) as (S1 & _ & t & S3 & S4); unfold step in Hc; rewrite Cs in Hc.
    + destruct (parse_changeset _); [|discriminate]. destruct (bag_create _ _) as [b|]; [|discriminate]. injection Hc as <-. cbn [chain_ts] in S3. injection S3 as S3. apply (Out (r_ts r) _ eq_refl b); auto. lia.
    + destruct (bag_create1 _ _) as [b|]; [|discriminate]. injection Hc as <-. cbn [chain_ts] in S3. injection S3 as S3. apply (Out (r_ts r) _ eq_refl b); auto. lia.
    + destruct (step_modify s p Hs Cs) as (b & Db & Eb & Mk & J). rewrite J in *. destruct Hp as [Hp0 Hp].
      destruct (match c1 with CRow old => p =? bag_timestamp old | _ => false end) eqn:Hit.
      * destruct c1 as [|old|]; try discriminate. assert (A : apply r (CRow old) = Some (CRow old)). { apply (Out (r_ts r) _ eq_refl old); auto. rewrite Forall_forall in Hp. specialize (Hp r Hin). lia. }
        rewrite A in M. injection M as <-. rewrite Hc. cbn [join] in Hc. rewrite Hit in Hc. destruct (bag_col b 0); [|discriminate]. destruct (parse_changeset _); [|discriminate]. destruct (bag_update _ _ _) as [b'|] eqn:U; [|discriminate]. injection Hc as <-.
        apply update_ts in U. apply (Out (r_ts r) _ eq_refl b'); auto. { lia. } unfold even_ts. rewrite U, Eb. now replace (r_ts s + 1 - 1) with (r_ts s) by lia.
      * assert (J1 : join b p c1 = Some (CDelta b p c1)). { destruct c1; cbn [join]; auto. now rewrite Hit. }
        rewrite J1 in Hc. injection Hc as <-. apply apply_below; auto. lia.
Qed.

(* Any order. *)
Fixpoint run_recs (l : list rrec) (c : chain) : option chain := match l with [] => Some c | r :: l' => c' <- apply r c; run_recs l' c' end.
Definition fresh (b0 : Z) (r : rrec) : bool := b0 <? r_ts r.
Lemma above_mono t t' c : t <= t' -> above t' c -> above t c.
Proof. intros Ht. induction c; cbn; intros; try tauto; try lia. destruct H. split; [lia|auto]. Qed.
Lemma canon_above b0 b P h c : valid b0 h -> even_ts b -> bag_timestamp b = b0 -> canon P h (CRow b) = Some c -> above b0 c.
Proof.
  intros V Hev Hb0. revert c. induction h as [|r h IH]; intros c; cbn [canon].
  - intros [= <-]. cbn. lia.
  - pose proof (valid_rec _ _ _ V) as Hr. cbn [valid] in V. destruct V as (Ho & Hb & Hr1 & Hl & Hf & Hp & V). destruct (P (r_ts r)); [|now apply IH].
    destruct (canon P h (CRow b)) as [c1|] eqn:E1; [|discriminate]. intros H. assert (B : base_ok b0 (CRow b)) by (split; auto; lia).
    destruct (canon_inv _ _ _ _ _ V B E1) as (I1 & I2 & I3). destruct (step_ok _ _ _ Hr I1 I2 H) as (S1 & S2 & t' & S3 & S4).
    destruct c as [|b1|b1 p1 c']; cbn [chain_ts above] in *; [discriminate|injection S3 as S3; lia|]. injection S3 as S3. split; [lia|].
    (* the rest is c1 *)
    destruct (r_cmd r) as [| |p] eqn:Cr.
    + unfold step in H. rewrite Cr in H. destruct (parse_changeset _); [|discriminate]. destruct (bag_create _ _); discriminate.
    + unfold step in H. rewrite Cr in H. destruct (bag_create1 _ _); discriminate.
    + destruct (step_modify r p Hr Cr) as (bb & _ & _ & _ & J). rewrite J in H. destruct c1 as [|old|]; cbn [join] in H.
      * injection H as <- <- <-. now apply (IH V).
      * destruct (p =? bag_timestamp old). { destruct (bag_col bb 0); [|discriminate]. destruct (parse_changeset _); [|discriminate]. destruct (bag_update _ _ _); discriminate. }
        injection H as <- <- <-. now apply (IH V).
      * injection H as <- <- <-. now apply (IH V).
Qed.
Lemma run_any b0 c0 h : valid b0 h -> base_ok b0 c0 -> defd h c0 -> forall l P c,
  (forall r, In r l -> if fresh b0 r then In r h /\ P (r_ts r) = false else exists b, c0 = CRow b /\ bag_timestamp b = b0) ->
  NoDup (map r_ts (filter (fresh b0) l)) -> canon P h c0 = Some c ->
  exists c', run_recs l c = Some c' /\ canon (fun x => existsb (fun r => r_ts r =? x) (filter (fresh b0) l) || P x) h c0 = Some c'.
Proof.
  intros V B D. induction l as [|r l IH]; intros P c Hl Hn Hc.
  - exists c. split; auto.
  - cbn [run_recs filter] in *. pose proof (Hl r (or_introl eq_refl)) as H0. destruct (fresh b0 r) eqn:Fr.
    + destruct H0 as [Hin HP]. rewrite (merge _ _ _ V B D P r c Hin HP Hc).
      assert (Hd : forall Q, canon Q h c0 <> None) by (intros Q; destruct h; [destruct Hin|apply D]).
      destruct (canon (add (r_ts r) P) h c0) as [c1|] eqn:E1; [|now destruct (Hd (add (r_ts r) P))].
      cbn [map] in Hn. inversion Hn as [|? ? N1 N2]; subst.
      destruct (IH (add (r_ts r) P) c1) as (c' & R & C); auto.
      { intros r' Hr'. specialize (Hl r' (or_intror Hr')). destruct (fresh b0 r') eqn:Fr'; auto. destruct Hl as [L1 L2]. split; auto. unfold add. rewrite L2.
        destruct (r_ts r' =? r_ts r) eqn:E; auto. exfalso. apply N1. apply in_map_iff. exists r'. split; [lia|]. apply filter_In. auto. }
      exists c'. split; auto. rewrite <- C. apply canon_ext. intros r' _. unfold add. cbn [existsb]. rewrite (Z.eqb_sym (r_ts r)). destruct (r_ts r' =? r_ts r), (existsb _ _), (P (r_ts r')); reflexivity.
    + destruct H0 as (b & -> & Hb). destruct (canon_inv _ _ _ _ _ V B Hc) as (I1 & _). rewrite apply_stale; auto.
      2:{ apply (above_mono _ b0); [unfold fresh in Fr; lia|]. apply (canon_above _ _ _ _ _ V (proj1 B) Hb Hc). }
      apply (IH P c); auto. intros r' Hr'. exact (Hl r' (or_intror Hr')).
Qed.
