(* Loading checkpoint files. *)
From Coq Require Import Sorting.Sorted Sorting.Permutation.
From Verif Require Import Lib M_Key M_Tree M_Msgpack Spec_Msgpack P_Msgpack4 P_Msgpack5 P_Msgpack7 M_Bag Spec_Map P_Tree1 P_Tree2 P_Tree3 P_Tree9 P_Tree9b M_Ckpt Spec_Ckpt P_Ckpt1.

(* ---- the header ---- *)
Lemma open_ok gen n start u : 0 <= gen < 2 ^ 64 -> 0 <= n < 2 ^ 64 -> bytes_ok start -> len start < 2 ^ 31 ->
  ck_open (unparse (ck_header gen n start) ++ u) = Some (gen, n, u).
Proof.
  intros G N B LS. unfold ck_open. rewrite windows_read.
  assert (J : json_ok (ck_header gen n start)).
  { unfold ck_header. constructor; [cbn; lia| |].
    - cbn [map fst]. repeat constructor; cbn; intuition discriminate.
    - repeat constructor; cbn; try lia; auto; unfold byte_ok; lia. }
  destruct (roundtrip _ sp_init u J) as (p & A & _ & C). change (sp_reset sp_init) with sp_init in A. rewrite A.
  unfold ck_header in C. inversion C as [| | | | | | | | |l1 l2 F E1 E2]; subst.
  inversion F as [|a1 b1 r1 s1 [K1 V1] F1]; subst. inversion F1 as [|a2 b2 r2 s2 [K2 V2] F2]; subst. inversion F2 as [|a3 b3 r3 s3 [K3 V3] F3]; subst. inversion F3; subst.
  destruct b1 as [q1 w1], b2 as [q2 w2], b3 as [q3 w3]. cbn [fst snd] in *. subst q1 q2 q3.
  inversion V1; subst; inversion V2; subst; reflexivity.
Qed.

(* ---- one record ---- *)
Definition small_rec (r : rec) : Prop := let '(k, ts, s) := r in bytes_ok k /\ len k < 2 ^ 31 /\ 0 <= ts < 2 ^ 64 /\ len s < 2 ^ 31.
Lemma insert_ok st g m r u : trep (ld_table st) g m -> small_rec r -> exists t g',
  ck_insert st (enc r ++ u) = Some (MkLd t (fun a => if a =? ld_next st then bag_checkpoint_read (snd r) (snd (fst r)) else ld_rows st a) (ld_next st + 1)
     (match m (r_key r) with Some _ => r_key r :: ld_again st | None => ld_again st end), u) /\ trep t g' (map_set m (r_key r) (Some (ld_next st))).
Proof.
  intros R H. destruct r as [[k ts] s]. destruct H as (B & LK & T & LS). cbn [r_key fst snd enc]. unfold ck_insert.
  rewrite <- !app_assoc, str_roundtrip by auto.
  destruct (wide_roundtrip c_ulong ts (write_string s ++ u)) as [_ W]; [cbn; auto|unfold fits; cbn; lia|]. rewrite W by auto. rewrite str_roundtrip by auto.
  destruct (tstep_ok _ _ _ (OPut k (ld_next st)) R B) as (t & g' & E & R' & _). rewrite E. eauto.
Qed.

(* ---- all threads ---- *)
Section Load.
Context (Src : rec -> Prop) (A : Prop).
Hypothesis Hsmall : forall r, Src r -> small_rec r.

Definition rest_of (R : list rec) : Z * list Z := (len R, encs R).
Record LI (st : ldst) (Rl : list (list rec)) (m : kmap) : Prop := {
  li_rep : exists g, trep (ld_table st) g m;
  li_rows : forall k v, m k = Some v -> v < ld_next st /\ exists r, Src r /\ r_key r = k /\ ld_rows st v = bag_checkpoint_read (snd r) (snd (fst r));
  li_cover : forall r, Src r -> m (r_key r) <> None \/ In r (concat Rl);
  li_src : Forall Src (concat Rl);
  li_apart : A -> NoDup (map r_key (concat Rl)) /\ (forall r, In r (concat Rl) -> m (r_key r) = None) /\ ld_again st = [] }.

Lemma perm_at (Rl : list (list rec)) i r R : nth_error Rl i = Some (r :: R) -> Permutation (concat Rl) (r :: concat (firstn i Rl ++ R :: skipn (S i) Rl)).
Proof.
  intros E. destruct (nth_error_split Rl i E) as (l1 & l2 & -> & Li).
  rewrite firstn_app, <- Li, Nat.sub_diag, firstn_all, app_nil_r. rewrite skipn_app, skipn_all2 by lia. replace (S (length l1) - length l1)%nat with 1%nat by lia. cbn [skipn app].
  rewrite !concat_app. cbn [concat app]. apply Permutation_sym, Permutation_middle.
Qed.
Lemma step_ok st Rl m i : LI st Rl m ->
  exists st' Rl' m', ld_step i (st, map rest_of Rl) = Some (st', map rest_of Rl') /\ LI st' Rl' m' /\ length Rl' = length Rl /\
    (forall j, length (nth j Rl' []) = (length (nth j Rl []) - if (j =? i)%nat then 1 else 0)%nat).
Proof.
  intros I. unfold ld_step. rewrite nth_error_map. destruct (nth_error Rl i) as [R|] eqn:E; cbn [option_map].
  2:{ exists st, Rl, m. split; [reflexivity|]. split; [exact I|]. split; [reflexivity|]. intros j. destruct (Nat.eqb_spec j i) as [->|]; [|lia]. apply nth_error_None in E. rewrite nth_overflow by auto. cbn. lia. }
  unfold rest_of at 1. destruct R as [|r R].
  - exists st, Rl, m. split; [reflexivity|]. split; [exact I|]. split; [reflexivity|]. intros j. destruct (Nat.eqb_spec j i) as [->|]; [|lia]. apply (nth_error_nth _ _ []) in E. rewrite E. reflexivity.
  - rewrite len_cons. pose proof (len_nonneg R). replace (1 + len R =? 0) with false by lia.
    destruct I as [(g & I1) I2 I3 I4 I5]. pose proof (perm_at Rl i r R E) as P. set (Rl' := firstn i Rl ++ R :: skipn (S i) Rl) in *.
    assert (SR : Forall Src (r :: concat Rl')). { rewrite Forall_forall in *. intros x X. apply I4. eapply Permutation_in; [apply Permutation_sym, P|exact X]. }
    inversion SR as [|? ? SR1 SR2]; subst.
    destruct (insert_ok st g m r (encs R) I1 (Hsmall _ SR1)) as (t & g' & E1 & R1). rewrite encs_cons, E1.
    eexists. exists Rl', (map_set m (r_key r) (Some (ld_next st))). split; [|split; [|split]].
    + f_equal. f_equal. unfold Rl'. rewrite map_app. cbn [map]. rewrite firstn_map, skipn_map. f_equal. f_equal. unfold rest_of. f_equal. lia.
    + split; cbn [ld_table ld_rows ld_next ld_again].
      * eauto.
      * intros k v. unfold map_set. destruct (key_eqb k (r_key r)) eqn:K.
        -- unfold key_eqb in K. destruct (list_eq_dec Z.eq_dec k (r_key r)); [subst k|discriminate]. intros [= <-]. split; [lia|]. exists r. rewrite Z.eqb_refl. auto.
        -- intros Q. destruct (I2 k v Q) as (L & r' & Q1 & Q2 & Q3). split; [lia|]. replace (v =? ld_next st) with false by lia. eauto.
      * intros r' S'. unfold map_set. destruct (key_eqb (r_key r') (r_key r)) eqn:K; [left; discriminate|].
        destruct (I3 r' S') as [Q|Q]; auto. right. apply (Permutation_in _ P) in Q. destruct Q as [->|Q]; auto.
        unfold key_eqb in K. destruct (list_eq_dec Z.eq_dec (r_key r') (r_key r')); congruence.
      * auto.
      * intros a. destruct (I5 a) as (D1 & D2 & D3). assert (ND : NoDup (map r_key (r :: concat Rl'))). { eapply Permutation_NoDup; [apply Permutation_map, P|auto]. }
        cbn [map] in ND. apply NoDup_cons_iff in ND. destruct ND as [N1 N2]. split; [auto|]. split.
        -- intros r' Q. unfold map_set. destruct (key_eqb (r_key r') (r_key r)) eqn:K.
           ++ unfold key_eqb in K. destruct (list_eq_dec Z.eq_dec (r_key r') (r_key r)) as [K'|]; [|discriminate]. destruct N1. rewrite <- K'. now apply in_map.
           ++ apply D2. eapply Permutation_in; [apply Permutation_sym, P|now right].
        -- rewrite D2, D3; auto. eapply Permutation_in; [apply Permutation_sym, P|now left].
    + unfold Rl'. rewrite app_length. cbn [length]. rewrite firstn_length, skipn_length. assert (i < length Rl)%nat by (apply nth_error_Some; congruence). lia.
    + intros j. assert (Li : (i < length Rl)%nat) by (apply nth_error_Some; congruence). unfold Rl'. destruct (nth_error_split Rl i E) as (l1 & l2 & EQ & L1).
      assert (F1 : firstn i Rl = l1). { rewrite EQ, firstn_app, <- L1, Nat.sub_diag, firstn_all. cbn. apply app_nil_r. }
      assert (F2 : skipn (S i) Rl = l2). { rewrite EQ, skipn_app, skipn_all2 by lia. replace (S i - length l1)%nat with 1%nat by lia. reflexivity. }
      rewrite F1, F2, EQ. destruct (Nat.eqb_spec j i) as [->|NE].
      * rewrite !app_nth2 by lia. rewrite <- L1, Nat.sub_diag. cbn [nth length]. lia.
      * destruct (Nat.lt_ge_cases j i). { rewrite !app_nth1 by lia. lia. }
        rewrite !app_nth2 by lia. destruct (j - length l1)%nat eqn:Q; [lia|]. cbn [nth]. lia.
Qed.
Lemma run_ok sched : forall st Rl m, LI st Rl m ->
  exists st' Rl' m', ld_run sched (st, map rest_of Rl) = Some (st', map rest_of Rl') /\ LI st' Rl' m' /\ length Rl' = length Rl /\
    (forall j, length (nth j Rl' []) = (length (nth j Rl []) - count_occ Nat.eq_dec sched j)%nat).
Proof.
  induction sched as [|i sched IH]; intros st Rl m I; cbn [ld_run count_occ].
  - exists st, Rl, m. split; [reflexivity|]. split; [exact I|]. split; [reflexivity|]. intros. lia.
  - destruct (step_ok st Rl m i I) as (st1 & Rl1 & m1 & E & I1 & L1 & C1). rewrite E.
    destruct (IH st1 Rl1 m1 I1) as (st2 & Rl2 & m2 & E2 & I2 & L2 & C2). exists st2, Rl2, m2. split; [exact E2|]. split; [exact I2|]. split; [congruence|].
    intros j. rewrite C2, C1. destruct (Nat.eqb_spec j i) as [->|]; destruct (Nat.eq_dec i _); try congruence; lia.
Qed.
Lemma init_ok Rl : (forall r, Src r -> In r (concat Rl)) -> Forall Src (concat Rl) -> (A -> NoDup (map r_key (concat Rl))) -> LI ld_init Rl map_empty.
Proof.
  intros C S N. split; cbn [ld_init ld_table ld_rows ld_next ld_again]; auto.
  - exists g_init. apply P_Tree9.init_ok.
  - intros k v. discriminate.
Qed.
End Load.
Lemma finished_iff Rl : finished (map rest_of Rl) <-> concat Rl = [].
Proof.
  unfold finished. induction Rl as [|R Rl IH]; cbn [map concat]; [split; auto|]. split.
  - intros F. inversion F as [|? ? F1 F2]; subst. cbn [rest_of fst] in F1. destruct R; [cbn; now apply IH|]. rewrite len_cons in F1. pose proof (len_nonneg R). lia.
  - intros Q. apply app_eq_nil in Q. destruct Q as [-> Q]. constructor; [reflexivity|]. now apply IH.
Qed.
Lemma finishes (Rl : list (list rec)) : (forall j, length (nth j Rl []) = 0%nat) -> concat Rl = [].
Proof.
  induction Rl as [|R Rl IH]; intros H; cbn [concat]; auto. pose proof (H 0%nat) as Q. cbn [nth] in Q. destruct R; [|discriminate].
  apply IH. intros j. apply (H (S j)).
Qed.
