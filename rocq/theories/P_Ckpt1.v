(* Writing a checkpoint: the bytes of one part. *)
From Coq Require Import Sorting.Sorted.
From Verif Require Import Lib M_Key P_Key M_Tree M_Scan M_Msgpack M_Kvio Spec_Kvio P_Kvio M_Bag M_Rowrun P_Bag3 Spec_String Spec_Map Spec_Row Spec_Scan M_Ckpt Spec_Ckpt.

Lemma space_nonneg rows L : 0 <= ck_space rows L.
Proof. induction L as [|x L IH]; cbn [ck_space fold_right]; [lia|]. fold (ck_space rows L). pose proof (len_nonneg (fst x)). pose proof (len_nonneg (bg_s (rows (snd x)))). lia. Qed.
Definition rec : Type := list Z * Z * list Z.
Definition r_key (r : rec) : list Z := fst (fst r).
Definition enc (r : rec) : list Z := let '(k, ts, s) := r in write_string k ++ write_wide_u ts ++ write_string s.
Definition encs (l : list rec) : list Z := flat_map enc l.

Lemma net_len n x : len (net n x) = Z.of_nat n.
Proof. unfold net, len. now rewrite be_bytes_length. Qed.
Lemma write_string_len s : len (write_string s) <= 5 + len s.
Proof.
  unfold write_string. rewrite len_app. pose proof (len_nonneg s).
  destruct (len s <? 32); [rewrite len_cons, len_nil; lia|]. destruct (len s <? 256); [rewrite !len_cons, len_nil; lia|]. destruct (len s <? 65536); rewrite len_cons, net_len; lia.
Qed.

Lemma reserves_ok junk : forall l os kv acc, no_failure os -> KInv kv acc -> kv_fd kv = false -> kv_sent kv = [] ->
  Forall (fun o => match o with KReserve m s => len s <= m | _ => False end) l -> acc + fold_right (fun o n => op_space o + n) 0 l <= 2 ^ 31 ->
  exists kv' os', krun junk os l kv = KOk (kv', os') /\ KInv kv' (acc + fold_right (fun o n => op_space o + n) 0 l) /\ kv_fd kv' = false /\ kv_sent kv' = [] /\
    kv_held kv' = kv_held kv ++ flat_map op_bytes l.
Proof.
  induction l as [|o l IH]; intros os kv acc NF I FD SE F SP; cbn [krun fold_right flat_map] in *.
  - exists kv, os. rewrite Z.add_0_r, app_nil_r. auto.
  - inversion F as [|? ? F1 F2]; subst. destruct o as [|m s| | |]; try tauto.
    assert (P : 0 <= fold_right (fun o n => op_space o + n) 0 l).
    { clear - F2. induction F2 as [|o l H _ IH]; cbn; [lia|]. destruct o; try tauto. pose proof (len_nonneg s). cbn [op_space]. lia. }
    pose proof (step_ok junk os (KReserve m s) kv acc NF I F1) as ST. cbn [acc_after op_space] in ST. cbn [op_space] in SP.
    specialize (ST ltac:(lia)). rewrite FD in ST. specialize (ST ltac:(discriminate)). pose proof (len_nonneg s).
    destruct (kstep junk os (KReserve m s) kv) as [[kv1 os1]|e] eqn:E.
    + destruct ST as (A1 & A2 & A3 & A4 & A5 & A6 & A7 & A8). specialize (A4 ltac:(discriminate)). rewrite A7, SE in A4 by auto. cbn [app op_bytes] in A4.
      destruct (IH os1 kv1 (acc + m) A3 A1) as (kv' & os' & B1 & B2 & B3 & B4 & B5); auto; try congruence; try lia.
      { rewrite A7; auto. }
      exists kv', os'. cbn [op_space op_bytes]. rewrite Z.add_assoc, app_assoc. rewrite A4 in B5. rewrite B5. auto.
    + destruct e; try tauto. destruct ST as [Q _]. congruence.
Qed.

(* ---- rows ---- *)
Lemma row_written b : row_good b -> exists s, bag_checkpoint_write b = Some s /\ map Some s = bg_s b.
Proof.
  intros (_ & h & A & B & C). destruct (bag_checkpoint h 0 A B) as (b' & s & D1 & D2 & D3 & _). rewrite C in D1. injection D1 as <-. eauto.
Qed.

(* ---- the records a visit of a list of bindings writes ---- *)
Section Visit.
Context (rows : Z -> bag).
Definition rec_of (kv : list Z * Z) : list rec :=
  let b := rows (snd kv) in
  if Z.odd (bag_timestamp b) then [] else match bag_checkpoint_write b with Some s => [(fst kv, bag_timestamp b, s)] | None => [] end.
Definition within (e : list Z) (k : list Z) : bool := (len e =? 0) || negb (0 <=? str_compare k e).
Fixpoint upto (e : list Z) (L : list (list Z * Z)) : list (list Z * Z) :=
  match L with [] => [] | kv :: L' => if within e (fst kv) then kv :: upto e L' else [] end.
Definition recs (L : list (list Z * Z)) : list rec := flat_map rec_of L.

Lemma recs_cons x L : recs (x :: L) = rec_of x ++ recs L. Proof. reflexivity. Qed.
Lemma encs_cons r l : encs (r :: l) = enc r ++ encs l. Proof. reflexivity. Qed.
Lemma visit_ok junk e : forall L kv acc n, Forall (fun x => row_good (rows (snd x))) L -> KInv kv acc -> kv_fd kv = false -> kv_sent kv = [] ->
  acc + ck_space rows L <= 2 ^ 31 ->
  exists kv' c, visit_list (ck_visit junk rows e) (Some (kv, n)) L = (Some (kv', n + len (recs (upto e L))), c) /\
    kv_held kv' = kv_held kv ++ encs (recs (upto e L)).
Proof.
  induction L as [|[k v] L IH]; intros kv acc n F I FD SE SP; cbn [visit_list upto fst] in *.
  - exists kv, 0. change (len (recs [])) with 0. change (encs (recs [])) with (@nil Z). now rewrite Z.add_0_r, app_nil_r.
  - inversion F as [|? ? F1 F2]; subst. cbn [snd] in F1. cbn [ck_space fold_right fst snd] in SP. fold (ck_space rows L) in SP.
    assert (P : 0 <= ck_space rows L).
    { apply space_nonneg. }
    pose proof (len_nonneg k). pose proof (len_nonneg (bg_s (rows v))). pose proof I as (_ & I2 & I3).
    unfold within. unfold ck_visit at 1. destruct (len e =? 0) eqn:E0; cbn [negb andb orb].
    + destruct (Z.odd (bag_timestamp (rows v))) eqn:Od.
      * destruct (IH kv acc n F2 I FD SE ltac:(lia)) as (kv' & c & A & B). rewrite A. exists kv', (c + 1).
        rewrite recs_cons. unfold rec_of. cbn [snd]. rewrite Od. cbn [app]. auto.
      * destruct (row_written _ F1) as (s & S1 & S2). rewrite S1.
        assert (LS : len s = len (bg_s (rows v))) by (rewrite <- S2; now rewrite len_map).
        pose proof (write_string_len k). pose proof (write_string_len s).
        destruct (reserves_ok junk (ck_ops k (bag_timestamp (rows v)) s) [] kv acc) as (kv1 & os1 & R1 & R2 & R3 & R4 & R5); auto.
        { unfold no_failure. auto. }
        { unfold ck_ops. repeat constructor; auto. unfold write_wide_u. rewrite len_cons, net_len. lia. }
        { cbn [ck_ops fold_right op_space]. lia. }
        rewrite R1. cbn [fold_right ck_ops op_space] in R2.
        destruct (IH kv1 _ (n + 1) F2 R2 R3 R4 ltac:(lia)) as (kv' & c & A & B). rewrite A. exists kv', (c + 1).
        rewrite recs_cons. unfold rec_of. cbn [snd fst]. rewrite Od, S1. cbn [app]. rewrite len_cons. split; [f_equal; f_equal; f_equal; lia|].
        rewrite B, R5, encs_cons. cbn [ck_ops flat_map op_bytes enc]. rewrite app_nil_r, <- !app_assoc. reflexivity.
    + destruct (0 <=? str_compare k e) eqn:E1; cbn [negb].
      * exists kv, 1. change (len (recs [])) with 0. change (encs (recs [])) with (@nil Z). now rewrite Z.add_0_r, app_nil_r.
      * destruct (Z.odd (bag_timestamp (rows v))) eqn:Od.
        -- destruct (IH kv acc n F2 I FD SE ltac:(lia)) as (kv' & c & A & B). rewrite A. exists kv', (c + 1).
           rewrite recs_cons. unfold rec_of. cbn [snd]. rewrite Od. cbn [app]. auto.
        -- destruct (row_written _ F1) as (s & S1 & S2). rewrite S1.
           assert (LS : len s = len (bg_s (rows v))) by (rewrite <- S2; now rewrite len_map).
           pose proof (write_string_len k). pose proof (write_string_len s).
           destruct (reserves_ok junk (ck_ops k (bag_timestamp (rows v)) s) [] kv acc) as (kv1 & os1 & R1 & R2 & R3 & R4 & R5); auto.
           { unfold no_failure. auto. }
           { unfold ck_ops. repeat constructor; auto. unfold write_wide_u. rewrite len_cons, net_len. lia. }
           { cbn [ck_ops fold_right op_space]. lia. }
           rewrite R1. cbn [fold_right ck_ops op_space] in R2.
           destruct (IH kv1 _ (n + 1) F2 R2 R3 R4 ltac:(lia)) as (kv' & c & A & B). rewrite A. exists kv', (c + 1).
           rewrite recs_cons. unfold rec_of. cbn [snd fst]. rewrite Od, S1. cbn [app]. rewrite len_cons. split; [f_equal; f_equal; f_equal; lia|].
           rewrite B, R5, encs_cons. cbn [ck_ops flat_map op_bytes enc]. rewrite app_nil_r, <- !app_assoc. reflexivity.
Qed.

Lemma within_lex e k : within e k = true <-> e = [] \/ lex_lt k e.
Proof.
  unfold within, lex_lt. rewrite <- str_compare_lex. pose proof (len_nonneg e). destruct e as [|x e]; [cbn; tauto|]. cbn [orb]. rewrite len_cons.
  pose proof (len_nonneg e). replace (1 + len e =? 0) with false by lia. cbn [orb]. destruct (Z.leb_spec 0 (str_compare k (x :: e))); cbn [negb].
  - split; [discriminate|]. intros [Q|Q]; [discriminate|]. rewrite Z.compare_lt_iff in Q. lia.
  - split; auto.
Qed.
Lemma upto_in e : forall L, StronglySorted (fun a b => lex_lt (fst a) (fst b)) L -> forall x, In x (upto e L) <-> In x L /\ (e = [] \/ lex_lt (fst x) e).
Proof.
  induction 1 as [|a L S IH F]; intros x; cbn [upto]; [cbn; tauto|]. destruct (within e (fst a)) eqn:E.
  - cbn [In]. rewrite IH. split; [|tauto]. intros [->|?]; [|tauto]. apply within_lex in E. auto.
  - cbn [In]. split; [tauto|]. intros [[->|X] Q]; [apply within_lex in Q; congruence|]. rewrite Forall_forall in F. specialize (F x X).
    assert (W : within e (fst a) = true). { apply within_lex. destruct Q as [Q|Q]; [auto|]. right. eapply lex_lt_trans; eauto. }
    congruence.
Qed.
End Visit.
