(* Replaying logged histories. *)
From Coq Require Import Permutation.
From Verif Require Import Lib M_Key P_Key M_Msgpack Spec_Msgpack P_Msgpack5 M_Bag M_Log Spec_Log Spec_Row M_Array M_Rowrun P_Row P_Bag1 P_Bag2 P_Bag3 Spec_Replay M_Replay P_Replay1 P_Replay2.

(* Change sets. *)
Lemma read_column c i u : c = JInt i \/ c = JUns i -> 0 <= i < 2 ^ 32 -> read_int c_unsigned (unparse c ++ u) = Some (i, u).
Proof.
  intros H Hi. assert (E : c_conv c_unsigned i = i) by (unfold c_conv; cbn [ct_signed ct_bits c_unsigned]; apply Z.mod_small; lia).
  destruct H as [-> | ->]; cbn [unparse].
  - rewrite read_signed8 by lia. now rewrite E.
  - rewrite read_unsigned8 by lia. now rewrite E.
Qed.
Lemma unparse_nonempty c i : c = JInt i \/ c = JUns i -> unparse c <> [].
Proof.
  intros [-> | ->]; cbn [unparse]; unfold write_signed8, write_unsigned8, write_signed4, write_unsigned4; repeat match goal with |- context [if ?b then _ else _] => destruct b end; discriminate.
Qed.
Lemma parse_sent_loop cs ch : sent cs ch -> forall n, (length (flat_map unparse cs) <= n)%nat -> parse_loop n (flat_map unparse cs) = Some ch.
Proof.
  induction 1 as [|c i v cs ch Hc Hi Hv Hs IH]; intros n Hn; [destruct n; reflexivity|].
  cbn [flat_map] in *. pose proof (unparse_nonempty c i Hc) as Hne. destruct n as [|n]. { rewrite app_length in Hn. destruct (unparse c); [easy|cbn in Hn; lia]. }
  destruct (unparse c ++ unparse (JStr v) ++ flat_map unparse cs) as [|z0 l0] eqn:E; [destruct (unparse c); [easy|discriminate]|].
  change (parse_loop (S n) (z0 :: l0)) with (x <- read_int c_unsigned (z0 :: l0); y <- read_str (snd x); r <- parse_loop n (snd y); Some ((fst x, fst y) :: r)).
  rewrite <- E, (read_column c i) by auto. cbn [fst snd unparse]. rewrite str_roundtrip by auto. cbn [fst snd]. rewrite IH; auto.
  rewrite <- E in Hn. rewrite !app_length in Hn. destruct (unparse c); [easy|]. cbn [length] in Hn. lia.
Qed.
Lemma parse_sent cs ch : sent cs ch -> parse_changeset (flat_map unparse cs) = Some ch.
Proof. intros H. unfold parse_changeset. now apply parse_sent_loop. Qed.

(* Records of entries. *)
Definition rc (e : entry) : rrec := match rec_of e with Some r => r | None => MkRr KPut [] 0 end.
Lemma hist_tail o h : hist_ok (o :: h) -> hist_ok h.
Proof. intros (A & B & C). inversion A; subst. destruct o as [o ts]. cbn [map throughout stamped] in *. unfold hist_ok. tauto. Qed.
Lemma hist_run h : hist_ok h -> exists b, bag_run h = Some b /\ bag_timestamp b = last_stamp h.
Proof. intros (A & B & _). destruct (bag_history h A B) as (b & E1 & E2 & _). exists b. split; auto. Qed.
Lemma last_range h : stamped h -> 0 <= last_stamp h < 2 ^ 64 /\ Z.odd (last_stamp h) = false.
Proof.
  induction h as [|[o ts] h IH]; cbn [stamped last_stamp]; [split; [lia|reflexivity]|]. intros (A & B & C). specialize (IH C). rewrite <- Z.negb_even, A. split; [lia|reflexivity].
Qed.
Lemma start_base c0 older : hist_ok older -> start c0 older -> base_ok (last_stamp older) c0.
Proof.
  intros H. unfold start. destruct older as [|o older]; [now intros ->|]. intros (b & E & ->). destruct (hist_run _ H) as (b' & E1 & E2). rewrite E in E1. injection E1 as <-.
  cbn [base_ok]. unfold even_ts. rewrite E2. split; [|lia]. apply last_range. apply H.
Qed.

(* A logged entry as a record. *)
Lemma logged_cons k o ts h es : logged k ((o, ts) :: h) es -> exists e es', es = e :: es' /\ logged k h es' /\ update_key e = Some k /\ rec_of e = Some (rc e) /\ r_ts (rc e) = ts /\
  match o with
  | RReplace v => rc e = MkRr KReplace v ts
  | RPut ch => exists v, parse_changeset v = Some ch /\ rc e = MkRr (match h with [] => KPut | _ => KModify (last_stamp h) end) v ts
  end.
Proof.
  destruct es as [|e es]; [destruct o; intros []|]. destruct o as [ch|v]; cbn [logged].
  - intros [(cs & Hs & ->) L]. destruct h as [|o' h]; eexists; exists es; split; [reflexivity| |reflexivity|]; repeat split; auto; eexists; (split; [exact (parse_sent _ _ Hs)|reflexivity]).
  - intros [-> L]. exists (EReplace k v ts), es. repeat split; auto.
Qed.

Lemma stamps_desc k older : stamped older -> forall newer es eso, stamped (newer ++ older) -> logged k (newer ++ older) (es ++ eso) -> length es = length newer ->
  Forall (fun e => last_stamp older < r_ts (rc e) <= last_stamp (newer ++ older)) es.
Proof.
  intros So. induction newer as [|[o ts] newer IH]; intros es eso S L Hl; [destruct es; [constructor|discriminate]|].
  destruct es as [|e es]; [discriminate|]. cbn [app] in *. destruct (logged_cons _ _ _ _ _ L) as (e' & es' & E & L' & _ & _ & Ht & _). injection E as <- <-.
  cbn [stamped last_stamp] in *. destruct S as (Se & Sb & S). specialize (IH es eso S L' ltac:(now injection Hl)).
  assert (last_stamp older <= last_stamp (newer ++ older)). { clear - S. induction newer as [|[o t] n IH]; cbn [app last_stamp stamped] in *; [lia|]. destruct S as (? & ? & S). specialize (IH S). lia. }
  constructor; [lia|]. eapply Forall_impl; [|exact IH]. cbn. intros; lia.
Qed.

(* The state a set of records leads to exists, and is the row if the newest one is among them. *)
Lemma recs_canon k older c0 : start c0 older -> forall newer es eso, hist_ok (newer ++ older) -> logged k (newer ++ older) (es ++ eso) -> length es = length newer ->
  Forall marker_fits es ->
  valid (last_stamp older) (map rc es) /\ defd (map rc es) c0 /\
  (forall P c, canon P (map rc es) c0 = Some c -> forall b, c = CRow b -> bag_timestamp b <= last_stamp (newer ++ older) /\ (bag_timestamp b = last_stamp (newer ++ older) -> bag_run (newer ++ older) = Some b)) /\
  (forall P, canon P (map rc es) c0 <> None) /\
  exists c, canon (fun _ => true) (map rc es) c0 = Some c /\ start c (newer ++ older).
Proof.
  intros St. induction newer as [|[o ts] newer IH]; intros es eso H L Hl Hm.
  - destruct es; [|discriminate]. cbn [map valid defd canon app] in *. split; auto. split; auto. split; [|split; [discriminate|exists c0; auto]].
    intros P c [= <-] b ->. unfold start in St. destruct older as [|o older]; [discriminate|]. destruct St as (b' & E & [= <-]). destruct (hist_run _ H) as (b1 & E1 & E2). rewrite E in E1. injection E1 as <-. split; [lia|auto].
  - destruct es as [|e es]; [discriminate|]. cbn [app] in *. destruct (logged_cons _ _ _ _ _ L) as (e' & es' & E & L' & K & Rc & Ht & Ho). injection E as <- <-. inversion Hm as [|? ? M1 M2]; subst x l. 
    pose proof (hist_tail _ _ H) as H'. destruct (IH es eso H' L' ltac:(now injection Hl) M2) as (V & D & C1 & C2 & (c & C3 & C4)). clear IH.
    assert (So : hist_ok older). { clear - H'. induction newer as [|x n IH]; auto. apply IH. exact (hist_tail _ _ H'). }
    pose proof (stamps_desc k older (proj2 (proj2 So)) newer es eso (proj2 (proj2 H')) L' ltac:(now injection Hl)) as Sd.
    pose proof (start_base _ _ So St) as Hb.
    pose proof H as (_ & _ & S). cbn [stamped] in S. destruct S as (Se & Sb & S). cbn [last_stamp].
    destruct (last_range _ S) as [Lr Lo]. destruct (last_range _ (proj2 (proj2 So))) as [Lr0 Lo0].
    assert (Le : last_stamp older <= last_stamp (newer ++ older)). { clear - S. induction newer as [|[o t] n IH]; cbn [app last_stamp stamped] in *; [lia|]. destruct S as (? & ? & S). specialize (IH S). lia. }
    assert (Ts : r_ts (rc e) = ts /\ Z.odd ts = false) by (split; auto; now rewrite <- Z.negb_even, Se). destruct Ts as [Ts To].
    assert (Fits : rfits (rc e)).
    { unfold rfits. destruct (r_cmd (rc e)) as [| |p] eqn:Ec; auto. destruct e; cbn in Ec; try discriminate; unfold rc, rec_of in Ec; try discriminate. cbn [rc rec_of r_cmd] in *. cbn [marker_fits] in M1. split; [exact M1|].
      injection Ec as ->. destruct o as [ch|v]; [|discriminate]. destruct Ho as (v & _ & Hr). destruct (newer ++ older) eqn:En; [discriminate|]. rewrite <- En in *. injection Hr as -> ->. exact Lo. }
    assert (V' : valid (last_stamp older) (map rc (e :: es))).
    { cbn [map valid]. rewrite Ts. split; auto. split; [lia|]. split; [lia|]. split. { apply Forall_map. eapply Forall_impl; [|exact Sd]. cbn; intros; lia. } split; auto. split; auto.
      destruct (r_cmd (rc e)) as [| |p] eqn:Ec; auto. destruct o as [ch|v]; [|rewrite Ho in Ec; discriminate]. destruct Ho as (v & _ & Hr). rewrite Hr in Ec. cbn [r_cmd] in Ec. destruct (newer ++ older) eqn:En; [discriminate|]. rewrite <- En in *. injection Ec as <-.
      split; [lia|]. apply Forall_map. eapply Forall_impl; [|exact Sd]. cbn; intros; lia. }
    (* one more record *)
    assert (Step : forall c1, chain_ok c1 -> (forall b, c1 = CRow b -> bag_timestamp b <= last_stamp (newer ++ older) /\ (bag_timestamp b = last_stamp (newer ++ older) -> bag_run (newer ++ older) = Some b)) ->
              exists c2, step (rc e) c1 = Some c2 /\ (forall b, c2 = CRow b -> bag_run ((o, ts) :: newer ++ older) = Some b /\ bag_timestamp b = ts) /\ (start c1 (newer ++ older) -> exists b, c2 = CRow b)).
    { intros c1 Hc1 Hrow. destruct (hist_run _ H) as (bn & N1 & N2). cbn [last_stamp] in N2. destruct o as [ch|v].
      - destruct Ho as (v & Hp & Hr). destruct (newer ++ older) as [|o' h'] eqn:En.
        + unfold step. rewrite Hr. cbn [r_cmd r_val r_ts]. rewrite Hp. cbn [bag_run] in N1. unfold bag_create. rewrite N1. exists (CRow bn). split; auto. split; [|eauto]. intros b [= <-]. cbn [bag_run]. auto.
        + rewrite <- En in *. assert (Hrk : rec_ok (rc e)) by (split; [now rewrite Ts|split; [rewrite Ts; lia|exact Fits]]).
          destruct (step_modify (rc e) (last_stamp (newer ++ older)) Hrk) as (bd & Db & Ebd & Mk & _); [now rewrite Hr|]. rewrite Hr in Mk. cbn [r_val r_ts] in Mk.
          unfold step. rewrite Hr. cbn [r_cmd r_val r_ts]. destruct c1 as [|old|b2 p2 c2].
          * rewrite Mk. eexists. split; [reflexivity|]. split; [discriminate|]. unfold start. rewrite En. intros (b & _ & X). discriminate.
          * destruct (Hrow old eq_refl) as [R1 R2]. destruct (bag_timestamp old =? last_stamp (newer ++ older)) eqn:Eq.
            -- rewrite Hp. cbn [bag_run] in N1. rewrite (R2 ltac:(lia)) in N1. rewrite N1. exists (CRow bn). split; auto. split; [|eauto]. intros b [= <-]. cbn [bag_run]. rewrite (R2 ltac:(lia)). auto.
            -- rewrite Mk. eexists. split; [reflexivity|]. split; [discriminate|]. unfold start. rewrite En. intros (b & Bb & [= <-]). exfalso.
               destruct (hist_run _ H') as (b1 & B1 & B2). rewrite <- En, B1 in Bb. injection Bb as ->. lia.
          * rewrite Mk. eexists. split; [reflexivity|]. split; [discriminate|]. unfold start. rewrite En. intros (b & _ & X). discriminate.
      - unfold step. rewrite Ho. cbn [r_cmd r_val r_ts]. cbn [bag_run] in N1. rewrite N1. exists (CRow bn). split; auto. split; [|eauto]. intros b [= <-]. cbn [bag_run]. auto. }
    assert (C2' : forall P, canon P (map rc (e :: es)) c0 <> None).
    { intros P. cbn [map canon]. destruct (P (r_ts (rc e))); [|apply C2]. pose proof (C2 P) as X. destruct (canon P (map rc es) c0) as [c1|] eqn:E1; [|now destruct X].
      destruct (canon_inv _ _ _ _ _ V Hb E1) as (I1 & _). destruct (Step c1 I1 (C1 P c1 E1)) as (c2 & -> & _). discriminate. }
    split; [exact V'|]. split; [split; [exact C2'|exact D]|]. split; [|split; [exact C2'|]].
    + intros P c' Hc' b ->. cbn [map canon] in Hc'. destruct (P (r_ts (rc e))).
      * destruct (canon P (map rc es) c0) as [c1|] eqn:E1; [|discriminate]. destruct (canon_inv _ _ _ _ _ V Hb E1) as (I1 & _). destruct (Step c1 I1 (C1 P c1 E1)) as (c2 & E2 & E3 & _).
        rewrite E2 in Hc'. injection Hc' as ->. destruct (E3 b eq_refl) as [E4 E5]. split; [lia|auto].
      * destruct (C1 P _ Hc' b eq_refl) as [X1 X2]. split; [lia|]. intros; lia.
    + cbn [map canon]. rewrite C3. destruct (canon_inv _ _ _ _ _ V Hb C3) as (I1 & _). destruct (Step c I1 (C1 _ c C3)) as (c2 & E2 & E3 & E4). destruct (E4 C4) as (b & ->).
      exists (CRow b). split; auto. cbn [start]. exists b. split; auto. now apply E3.
Qed.
