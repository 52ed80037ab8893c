(* Get and range queries. *)
From Verif Require Import Lib M_Tree M_Scan M_Msgpack M_Query Spec_Map Spec_Scan Spec_Query P_Scan5 P_Tree9b.

Lemma signed32_id x : - 2 ^ 31 <= x < 2 ^ 31 -> to_signed 32 x = x.
Proof. intros. unfold to_signed. destruct (x mod 2 ^ 32 <? 2 ^ (32 - 1)) eqn:E; lia. Qed.
Lemma signed16_id x : - 2 ^ 15 <= x < 2 ^ 15 -> to_signed 16 x = x.
Proof. intros. unfold to_signed. destruct (x mod 2 ^ 16 <? 2 ^ (16 - 1)) eqn:E; lia. Qed.
Lemma get_fields_columns fs f : columns fs f -> get_fields fs = Some f.
Proof. induction 1 as [|j c fs f [-> C] F IH]; cbn [get_fields as_i]; auto. rewrite IH, signed16_id by auto. auto. Qed.
Lemma push_all l : forall m, fold_left j_push (map JStr l) (JArr m) = JArr (m ++ map JStr l).
Proof. induction l as [|x l IH]; intros m; cbn; [now rewrite app_nil_r|]. rewrite IH, <- app_assoc. auto. Qed.
Lemma emit_selected r f : emit_fields r f = map JStr (selected f r).
Proof.
  unfold emit_fields, selected. destruct f as [|c f].
  - apply nth_ext with (d := JStr []) (d' := JStr []); [now rewrite !map_length, seq_length|]. intros i H. rewrite map_length, seq_length in H.
    rewrite (map_nth JStr). rewrite nth_indep with (d' := (fun i => JStr (q_col r (Z.of_nat i))) O) by (now rewrite map_length, seq_length).
    rewrite (map_nth (fun i => JStr (q_col r (Z.of_nat i)))), seq_nth by auto. cbn [Nat.add]. unfold q_col, len. replace ((0 <=? Z.of_nat i) && (Z.of_nat i <? Z.of_nat (length (q_cols r)))) with true by lia. now rewrite Nat2Z.id.
  - now rewrite map_map.
Qed.
Lemma emit1_selected r f : emit_fields1 r f = fields_json (selected f r).
Proof.
  unfold emit_fields1. rewrite emit_selected. unfold selected. destruct f as [|c f].
  - cbn [length Nat.eqb andb orb]. rewrite orb_false_r. unfold len. destruct (q_cols r) as [|x [|y l]] eqn:E.
    + reflexivity.
    + cbn. unfold q_col. rewrite E. reflexivity.
    + replace (Z.of_nat (length (x :: y :: l)) =? 1) with false by (cbn [length]; lia). cbn [map fold_left j_push]. rewrite push_all. reflexivity.
  - destruct f as [|c2 f]; [reflexivity|]. cbn [length Nat.eqb andb orb map fold_left j_push].
    rewrite push_all. reflexivity.
Qed.

(* The keys of the reply stay as they were when they were copied. *)
Definition EntOk (heap : list (list Z)) (pos : Z) (e : nat * Z * Z * json) : Prop :=
  match e with (b, p, n, _) => 0 <= p /\ 0 <= n /\ (b < length heap)%nat /\ (S b = length heap -> p + n <= pos) end.
Definition SkInv (s : skst) : Prop := sk_heap s <> [] /\ sk_bad s = false /\ 0 <= sk_pos s <= len (sk_cur s) /\ Forall (EntOk (sk_heap s) (sk_pos s)) (sk_out s).
Definition read_ent (heap : list (list Z)) (e : nat * Z * Z * json) : list json := match e with (b, pos, n, j) => [JStr (sk_read heap b pos n); j] end.
Lemma last_nth {A} (l : list A) d : last l d = nth (length l - 1) l d.
Proof. induction l as [|x [|y l] IH]; auto. change (last (x :: y :: l) d) with (last (y :: l) d). rewrite IH. cbn [length]. rewrite !Nat.sub_succ, !Nat.sub_0_r. cbn [nth]. reflexivity. Qed.
Lemma reserve_more junk n : 0 <= n -> forall fuel s, sk_heap s <> [] -> sk_bad s = false -> sk_pos s = 0 -> 1 <= len (sk_cur s) -> n <= len (sk_cur s) + Z.of_nat fuel ->
  exists ext, let s1 := sk_reserve fuel junk n s in sk_heap s1 = sk_heap s ++ ext /\ sk_pos s1 = 0 /\ n <= len (sk_cur s1) /\ sk_bad s1 = false /\ sk_left s1 = sk_left s /\ sk_out s1 = sk_out s.
Proof.
  intros Hn. induction fuel as [|fuel IH]; intros s H1 H2 H3 H4 H5; cbn [sk_reserve]; destruct (sk_pos s + n <=? len (sk_cur s)) eqn:E.
  1,3: exists []; cbv zeta; rewrite app_nil_r; repeat split; auto; lia.
  - lia.
  - cbv zeta. replace (len (sk_cur s) =? 0) with false by lia.
    match goal with |- context [sk_reserve fuel junk n ?x] => destruct (IH x) as (ext & A) end; cbn [sk_heap sk_bad sk_pos sk_left sk_out]; auto.
    + intros Q. apply app_eq_nil in Q as [_ Q]. discriminate.
    + unfold sk_cur at 1. cbn [sk_heap]. rewrite last_last, len_map. unfold len at 1. rewrite seq_length. lia.
    + unfold sk_cur at 1. cbn [sk_heap]. rewrite last_last, len_map. unfold len at 1. rewrite seq_length. lia.
    + cbv zeta in A. cbn [sk_heap sk_bad sk_pos sk_left sk_out] in A. eexists. rewrite <- app_assoc in A. exact A.
Qed.
Lemma reserve_ok junk n s : 0 <= n -> SkInv s ->
  exists ext, let s1 := sk_reserve (S (Z.to_nat n)) junk n s in sk_heap s1 = sk_heap s ++ ext /\ 0 <= sk_pos s1 /\ sk_pos s1 + n <= len (sk_cur s1) /\ sk_bad s1 = false /\ sk_left s1 = sk_left s /\ sk_out s1 = sk_out s /\
    (ext = [] -> sk_pos s1 = sk_pos s).
Proof.
  intros Hn (H1 & H2 & H3 & H4). remember (Z.to_nat n) as fuel eqn:EF. cbn [sk_reserve]. destruct (sk_pos s + n <=? len (sk_cur s)) eqn:E.
  - exists []. cbv zeta. rewrite app_nil_r. repeat split; auto; lia.
  - cbv zeta. set (m := if len (sk_cur s) =? 0 then 1024 else len (sk_cur s) * 2). assert (M : 1 <= m) by (unfold m; pose proof (len_nonneg (sk_cur s)); destruct (len (sk_cur s) =? 0) eqn:?; lia). clearbody m.
    match goal with |- context [sk_reserve fuel junk n ?x] => destruct (reserve_more junk n Hn fuel x) as (ext & A) end; cbn [sk_heap sk_bad sk_pos sk_left sk_out]; auto.
    + intros Q. apply app_eq_nil in Q as [_ Q]. discriminate.
    + unfold sk_cur at 1. cbn [sk_heap]. rewrite last_last, len_map. unfold len at 1. rewrite seq_length. lia.
    + unfold sk_cur at 1. cbn [sk_heap]. rewrite last_last, len_map. unfold len at 1. rewrite seq_length. lia.
    + cbv zeta in A. cbn [sk_heap sk_bad sk_pos sk_left sk_out] in A. destruct A as (A1 & A2 & A3 & A4 & A5 & A6). rewrite <- app_assoc in A1.
      eexists. rewrite A2. repeat split; [exact A1|lia|lia|auto|auto|auto|]. intros Q. apply app_eq_nil in Q as [Q _]. discriminate.
Qed.
Lemma set_last_nth {A} (l : list A) x b d : l <> [] -> nth b (set_last l x) d = if Nat.eqb (S b) (length l) then x else nth b l d.
Proof.
  intros H. unfold set_last. destruct (exists_last H) as (r & y & ->). rewrite removelast_last, app_length. cbn [length].
  destruct (Nat.eqb (S b) (length r + 1)) eqn:E.
  - apply Nat.eqb_eq in E. rewrite app_nth2 by lia. replace (b - length r)%nat with O by lia. auto.
  - apply Nat.eqb_neq in E. destruct (Nat.lt_ge_cases b (length r)); [now rewrite !app_nth1 by auto|]. rewrite !nth_overflow; auto; rewrite app_length; cbn; lia.
Qed.
Lemma set_last_length {A} (l : list A) x : l <> [] -> length (set_last l x) = length l.
Proof. intros H. unfold set_last. destruct (exists_last H) as (l' & y & ->). rewrite removelast_last, !app_length. auto. Qed.
Lemma read_within {A} (p n q : nat) (c k : list A) z : (p + n <= q)%nat -> (q <= length c)%nat -> firstn n (skipn p (firstn q c ++ z)) = firstn n (skipn p c).
Proof.
  intros H1 H2. rewrite skipn_app, firstn_app, skipn_length, firstn_length. replace (n - _)%nat with O by lia. cbn [firstn]. rewrite app_nil_r.
  rewrite skipn_firstn_comm, firstn_firstn. f_equal. lia.
Qed.
Lemma visit_ok rows junk f s k v : SkInv s -> q_marker (rows v) = false -> 0 < sk_left s < 2 ^ 31 ->
  let '(s', go) := visit_value rows junk f s k v in
  SkInv s' /\ sk_left s' = sk_left s - 1 /\ go = negb (sk_left s =? 1) /\ sk_reply s' = sk_reply s ++ [JStr k; fields_json (selected f (rows v))].
Proof.
  intros I M L. unfold visit_value. rewrite M. cbv zeta. pose proof (len_nonneg k) as K.
  destruct (reserve_ok junk (len k) s K I) as (ext & A). replace (Z.to_nat (len k)) with (length k) in A by (unfold len; lia). cbv zeta in A.
  set (s1 := sk_reserve (S (length k)) junk (len k) s) in *. clearbody s1. destruct A as (A1 & A2 & A3 & A4 & A5 & A6 & A7). destruct I as (I1 & I2 & I3 & I4).
  rewrite A5, A6, signed32_id by lia. set (b := firstn _ _ ++ k ++ _).
  assert (H0 : sk_heap s1 <> []) by (rewrite A1; intros Q; apply app_eq_nil in Q as [Q _]; auto).
  assert (HL : (1 <= length (sk_heap s1))%nat) by (destruct (sk_heap s1); [congruence|cbn; lia]).
  assert (LB : len b = len (sk_cur s1)). { unfold b. rewrite !len_app. unfold len in *. rewrite firstn_length, skipn_length. lia. }
  assert (E1 : Forall (EntOk (sk_heap s1) (sk_pos s1)) (sk_out s)).
  { eapply Forall_impl; [|exact I4]. intros [[[b0 p0] n0] j0] (B1 & B2 & B3 & B4). unfold EntOk. rewrite A1, app_length. repeat split; auto; [lia|]. intros Q.
    destruct ext as [|e ext]; [rewrite A7 by auto; cbn in Q; apply B4; lia|cbn in Q; lia]. }
  assert (RD : forall e, In e (sk_out s) -> read_ent (set_last (sk_heap s1) b) e = read_ent (sk_heap s) e).
  { intros [[[b0 p0] n0] j0] H. rewrite Forall_forall in E1, I4. specialize (E1 _ H). specialize (I4 _ H). destruct E1 as (B1 & B2 & B3 & B4). destruct I4 as (_ & _ & B5 & _).
    unfold read_ent. f_equal. f_equal. unfold sk_read. rewrite set_last_nth by auto.
    assert (N : nth b0 (sk_heap s1) [] = nth b0 (sk_heap s) []) by (rewrite A1; now apply app_nth1).
    destruct (Nat.eqb (S b0) (length (sk_heap s1))) eqn:E; [|now rewrite N].
    apply Nat.eqb_eq in E. unfold b. rewrite read_within; auto; unfold len in *; try lia. rewrite <- N. unfold sk_cur. rewrite last_nth. replace (length (sk_heap s1) - 1)%nat with b0 by lia. auto. }
  split; [|split; [|split]].
  - unfold SkInv. cbn [sk_heap sk_bad sk_pos sk_out]. split; [|split; [|split]]; auto.
    + unfold set_last. intros Q. apply app_eq_nil in Q as [_ Q]. discriminate.
    + unfold sk_cur. cbn [sk_heap]. unfold set_last at 1. rewrite last_last, LB. lia.
    + apply Forall_app. split.
      * eapply Forall_impl; [|exact E1]. intros [[[b0 p0] n0] j0] (B1 & B2 & B3 & B4). unfold EntOk. rewrite set_last_length by auto. repeat split; auto. intros Q. specialize (B4 Q). lia.
      * constructor; [|constructor]. unfold EntOk. rewrite set_last_length by auto. repeat split; auto; lia.
  - reflexivity.
  - f_equal. lia.
  - unfold sk_reply. cbn [sk_heap sk_out]. fold (read_ent (sk_heap s)). change (fun e : nat * Z * Z * json => let '(b0, pos, n, j) := e in _) with (read_ent (set_last (sk_heap s1) b)).
    rewrite flat_map_app. f_equal.
    + rewrite !flat_map_concat_map. f_equal. now apply map_ext_in.
    + cbn [flat_map app read_ent]. rewrite emit1_selected. f_equal. f_equal. unfold sk_read. rewrite set_last_nth by auto. replace (Nat.eqb (S (length (sk_heap s1) - 1)) (length (sk_heap s1))) with true by (symmetry; apply Nat.eqb_eq; lia).
      unfold b. rewrite skipn_app, skipn_all2 by (rewrite firstn_length; lia). rewrite firstn_length. unfold len in *. replace (Z.to_nat (sk_pos s1) - _)%nat with O by lia. cbn [app skipn].
      rewrite Nat2Z.id, firstn_app, Nat.sub_diag, firstn_all. cbn. now rewrite app_nil_r.
Qed.
Lemma visits_ok rows junk f : forall L s, SkInv s -> 0 < sk_left s < 2 ^ 31 ->
  let s' := fst (visit_list (visit_value rows junk f) s L) in
  SkInv s' /\ sk_reply s' = sk_reply s ++ scan_reply f (firstn (Z.to_nat (sk_left s)) (rows_of rows L)).
Proof.
  induction L as [|[k v] L IH]; intros s I B; cbn [visit_list fst].
  - split; auto. unfold rows_of. cbn. rewrite firstn_nil. cbn. now rewrite app_nil_r.
  - destruct (q_marker (rows v)) eqn:M.
    + assert (E : visit_value rows junk f s k v = (s, true)) by (unfold visit_value; now rewrite M). rewrite E. specialize (IH s I B).
      assert (R : rows_of rows ((k, v) :: L) = rows_of rows L) by (unfold rows_of; cbn; now rewrite M). rewrite R.
      destruct (visit_list _ s L). exact IH.
    + pose proof (visit_ok rows junk f s k v I M B) as X. destruct (visit_value rows junk f s k v) as [s1 go]. destruct X as (X1 & X2 & X3 & X4).
      assert (R : rows_of rows ((k, v) :: L) = (k, rows v) :: rows_of rows L) by (unfold rows_of; cbn; now rewrite M). rewrite R.
      assert (N : Z.to_nat (sk_left s) = S (Z.to_nat (sk_left s - 1))) by lia. rewrite N. cbn [firstn]. unfold scan_reply. cbn [flat_map]. fold (scan_reply f). cbn [fst snd].
      destruct go.
      * assert (0 < sk_left s1) by lia. specialize (IH s1 X1 ltac:(lia)). destruct (visit_list _ s1 L). cbn [fst] in *. destruct IH as [IH1 IH2]. split; auto. rewrite IH2, X4, X2, <- app_assoc. auto.
      * cbn [fst]. split; auto. rewrite X4. replace (Z.to_nat (sk_left s - 1)) with O by lia. cbn. auto.
Qed.
Lemma scan_ok d rows junk buf f n seqno jcmd start fs (t : table) mem L fuel :
  columns fs f -> 0 < n < 2 ^ 31 ->
  (forall a, tree_scan fuel (t_heap t) (t_root t) d start true mem (visit_value rows junk f) a = Ok (visit_list (visit_value rows junk f) a L)) ->
  run_scan fuel d rows junk buf mem t (seqno :: jcmd :: JStr start :: JInt n :: fs) = Some (seqno :: JInt (Cmd_Scan + 1) :: scan_reply f (firstn (Z.to_nat n) (rows_of rows L))).
Proof.
  intros C N H. unfold run_scan. cbn [as_s as_i]. rewrite (get_fields_columns _ _ C). replace (n <=? 0) with false by lia. rewrite signed32_id by lia. rewrite H.
  pose proof (visits_ok rows junk f L (MkSk [buf] 0 n [] false)) as X. cbn [sk_left] in X.
  destruct (visit_list _ (MkSk [buf] 0 n [] false) L) as [s z]. cbn [fst] in X. destruct X as [X1 X2]; [|lia|].
  - unfold SkInv, sk_cur. cbn. pose proof (len_nonneg buf). repeat split; auto; try lia. discriminate.
  - destruct X1 as (_ & -> & _). rewrite X2. reflexivity.
Qed.
Lemma c35_up ops start mem : Forall op_ok ops -> Forall (op_short maxkeylen) ops -> bytes_ok start -> (length start <= keybuf_size)%nat -> length mem = keybuf_size ->
  exists t rs L, truns table_init ops = Ok (t, rs) /\ enum_up (present ops) start true L /\
  forall rows junk buf fs f n seqno jcmd, columns fs f -> 0 < n < 2 ^ 31 -> exists N, forall fuel, (N <= fuel)%nat ->
    run_scan fuel Fwd rows junk buf mem t (seqno :: jcmd :: JStr start :: JInt n :: fs) = Some (seqno :: JInt (Cmd_Scan + 1) :: scan_reply f (firstn (Z.to_nat n) (rows_of rows L))).
Proof.
  intros A B C D E. destruct (c04_scan ops start true mem A B C D E) as (t & rs & L & F & G & H). exists t, rs, L. split; auto. split; auto. intros.
  destruct (H _ (visit_value rows junk f)) as (N & X). exists N. intros fuel Hf. apply scan_ok; auto.
Qed.
Lemma c35_down ops start mem : Forall op_ok ops -> Forall (op_short maxkeylen) ops -> bytes_ok start -> (length start <= keybuf_size)%nat -> length mem = keybuf_size ->
  exists t rs L, truns table_init ops = Ok (t, rs) /\ enum_down (present ops) start true L /\
  forall rows junk buf fs f n seqno jcmd, columns fs f -> 0 < n < 2 ^ 31 -> exists N, forall fuel, (N <= fuel)%nat ->
    run_scan fuel Rev rows junk buf mem t (seqno :: jcmd :: JStr start :: JInt n :: fs) = Some (seqno :: JInt (Cmd_Scan + 1) :: scan_reply f (firstn (Z.to_nat n) (rows_of rows L))).
Proof.
  intros A B C D E. destruct (c05_rscan ops start true mem A B C D E) as (t & rs & L & F & G & H). exists t, rs, L. split; auto. split; auto. intros.
  destruct (H _ (visit_value rows junk f)) as (N & X). exists N. intros fuel Hf. apply scan_ok; auto.
Qed.
Lemma c42_get ops k fs f seqno jcmd : Forall op_ok ops -> bytes_ok k -> columns fs f ->
  exists t rs, truns table_init ops = Ok (t, rs) /\ forall rows,
    run_get rows t (seqno :: jcmd :: JStr k :: fs) =
    Some (seqno :: JInt (Cmd_Get + 1) :: match present ops k with Some v => if q_marker (rows v) then JStr k :: fs else map JStr (selected f (rows v)) | None => JStr k :: fs end).
Proof.
  intros A B C. destruct (c01_lookup ops k A B) as (t & rs & D & E). exists t, rs. split; auto. intros rows.
  cbn [tstep] in E. destruct (tree_get (t_heap t) (t_root t) k) as [o|e] eqn:G; [|discriminate]. injection E as <-.
  unfold run_get. cbn [as_s]. rewrite G. destruct o as [v|]; auto. destruct (q_marker (rows v)); auto. rewrite (get_fields_columns _ _ C), emit_selected. auto.
Qed.
Lemma c42_present ops k v fs f seqno jcmd : Forall op_ok ops -> bytes_ok k -> columns fs f -> present ops k = Some v ->
  exists t rs, truns table_init ops = Ok (t, rs) /\ forall rows, q_marker (rows v) = false ->
    run_get rows t (seqno :: jcmd :: JStr k :: fs) = Some (seqno :: JInt (Cmd_Get + 1) :: map JStr (selected f (rows v))).
Proof. intros A B C P. destruct (c42_get ops k fs f seqno jcmd A B C) as (t & rs & D & E). exists t, rs. split; auto. intros rows M. rewrite E, P, M. auto. Qed.
Lemma c42_absent : forall k, bytes_ok k -> exists t0 t1 rs0 rs1 rows, truns table_init [] = Ok (t0, rs0) /\ truns table_init [OPut k 1] = Ok (t1, rs1) /\
  present [] k = None /\ present [OPut k 1] k = Some 1 /\ q_marker (rows 1) = false /\
  forall seqno, run_get rows t0 (sendgetwhole k seqno) = run_get rows t1 (sendgetwhole k seqno) /\ run_get rows t0 (sendgetwhole k seqno) = Some [JInt seqno; JInt (Cmd_Get + 1); JStr k].
Proof.
  intros k B. set (rows := fun v : Z => MkQRow false [k]).
  assert (F0 : Forall op_ok []) by constructor. assert (F1 : Forall op_ok [OPut k 1]) by (constructor; [exact B|constructor]). assert (FC : columns [] []) by constructor.
  destruct (c42_get [] k [] [] JNull JNull F0 B FC) as (t0 & rs0 & A0 & _).
  destruct (c42_get [OPut k 1] k [] [] JNull JNull F1 B FC) as (t1 & rs1 & A1 & _).
  assert (P1 : present [OPut k 1] k = Some 1). { unfold present, last_write, write_of, key_eqb. destruct (list_eq_dec Z.eq_dec k k); congruence. }
  exists t0, t1, rs0, rs1, rows. repeat (split; [now auto|]). intros seqno.
  destruct (c42_get [] k [] [] (JInt seqno) (JInt Cmd_Get) F0 B FC) as (t0' & rs0' & B0 & C0).
  destruct (c42_get [OPut k 1] k [] [] (JInt seqno) (JInt Cmd_Get) F1 B FC) as (t1' & rs1' & B1 & C1).
  rewrite A0 in B0. injection B0 as <- <-. rewrite A1 in B1. injection B1 as <- <-. unfold sendgetwhole. rewrite C0, C1, P1. auto.
Qed.
Lemma client_scan_fails fuel d rows junk buf mem t start f n seqno : run_scan fuel d rows junk buf mem t (sendscan start f n seqno) = None.
Proof. unfold run_scan, sendscan. cbn. auto. Qed.
Lemma client_get_fails ops k v f seqno : Forall op_ok ops -> bytes_ok k -> present ops k = Some v ->
  exists t rs, truns table_init ops = Ok (t, rs) /\ forall rows, q_marker (rows v) = false -> run_get rows t (sendget k f seqno) = None.
Proof.
  intros A B P. destruct (c01_lookup ops k A B) as (t & rs & D & E). exists t, rs. split; auto. intros rows M.
  cbn [tstep] in E. destruct (tree_get (t_heap t) (t_root t) k) as [o|e] eqn:G; [|discriminate]. injection E as ->. rewrite P in G.
  unfold run_get, sendget. cbn [as_s]. rewrite G, M. reflexivity.
Qed.
