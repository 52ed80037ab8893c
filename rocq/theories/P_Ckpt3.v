(* A checkpoint written and loaded again. *)
From Coq Require Import Sorting.Sorted Sorting.Permutation.
From Verif Require Import Lib M_Key P_Key M_Tree M_Scan M_Msgpack Spec_Msgpack M_Kvio Spec_Kvio P_Kvio M_Bag M_Rowrun P_Bag3 Spec_String Spec_Map Spec_Row Spec_Scan
  P_Tree1 P_Tree2 P_Tree3 P_Tree9 P_Tree9b P_Scan2 P_Scan5 M_Ckpt Spec_Ckpt P_Ckpt1 P_Ckpt2.

Lemma lex_le_trans a b c : lex_le a b -> lex_le b c -> lex_le a c.
Proof. rewrite !lex_le_lt_eq. intros [A| ->] [B| ->]; auto. left. eapply lex_lt_trans; eauto. Qed.
Lemma lex_nil_le k : lex_le [] k.
Proof. unfold lex_le. destruct k; discriminate. Qed.

Section Parts.
Context (m : kmap) (rows : Z -> bag) (L0 : list (list Z * Z)).
Hypothesis Hgood : forall k v, m k = Some v -> row_good (rows v).
Hypothesis Hkey : forall k v, m k = Some v -> bytes_ok k /\ (length k <= maxkeylen)%nat.
Hypothesis HL0 : enum_up m [] true L0.
Hypothesis Hspace : ck_space rows L0 <= 2 ^ 31.

Lemma rec_of_in k v r : In r (rec_of rows (k, v)) <-> Z.odd (bag_timestamp (rows v)) = false /\ exists s, bag_checkpoint_write (rows v) = Some s /\ r = (k, bag_timestamp (rows v), s).
Proof.
  unfold rec_of. cbn [fst snd]. destruct (Z.odd (bag_timestamp (rows v))); [cbn; split; [tauto|intros [? _]; discriminate]|].
  destruct (bag_checkpoint_write (rows v)) as [s|].
  - cbn [In]. split; [intros [<-|[]]; eauto|]. intros (_ & s' & [= <-] & ->). auto.
  - split; [intros []|]. intros (_ & s' & ? & _). discriminate.
Qed.
Lemma rec_key k v r : In r (rec_of rows (k, v)) -> r_key r = k.
Proof. intros H. apply rec_of_in in H. destruct H as (_ & s & _ & ->). reflexivity. Qed.
Definition src (r : rec) : Prop := exists k v, m k = Some v /\ In r (rec_of rows (k, v)).

Lemma space_in x : forall L, In x L -> 19 + len (fst x) + len (bg_s (rows (snd x))) <= ck_space rows L.
Proof.
  induction L as [|y L IH]; intros H; [destruct H|]. cbn [ck_space fold_right]. fold (ck_space rows L).
  pose proof (space_nonneg rows L). pose proof (len_nonneg (fst y)). pose proof (len_nonneg (bg_s (rows (snd y)))). destruct H as [->|H]; [lia|]. specialize (IH H). lia.
Qed.
Lemma space_len : forall L, len L <= ck_space rows L.
Proof.
  induction L as [|y L IH]; cbn [ck_space fold_right]; [rewrite len_nil; lia|]. fold (ck_space rows L). rewrite len_cons.
  pose proof (len_nonneg (fst y)). pose proof (len_nonneg (bg_s (rows (snd y)))). lia.
Qed.
Lemma space_filter f : forall L, ck_space rows (filter f L) <= ck_space rows L.
Proof.
  induction L as [|y L IH]; [cbn; lia|]. cbn [filter]. pose proof (len_nonneg (fst y)). pose proof (len_nonneg (bg_s (rows (snd y)))).
  destruct (f y); cbn [ck_space fold_right]; fold (ck_space rows L); [fold (ck_space rows (filter f L))|]; lia.
Qed.
Lemma sorted_filter f : forall L : list (list Z * Z), StronglySorted (fun a b => lex_lt (fst a) (fst b)) L -> StronglySorted (fun a b => lex_lt (fst a) (fst b)) (filter f L).
Proof.
  induction 1 as [|a L S IH F]; cbn [filter]; [constructor|]. destruct (f a); auto. constructor; auto.
  rewrite Forall_forall in *. intros x X. apply filter_In in X. apply F. tauto.
Qed.
Lemma space_part s L : enum_up m s true L -> ck_space rows L <= ck_space rows L0.
Proof.
  intros E. set (f := fun kv : list Z * Z => match lex_compare s (fst kv) with Gt => false | _ => true end).
  assert (Q : L = filter f L0).
  { apply (lists_unique Fwd (fun k v => m k = Some v /\ (lex_lt s k \/ (k = s /\ true = true)))); [exact E|]. destruct HL0 as [A B]. split; [now apply sorted_filter|].
    intros k v. rewrite filter_In, B. unfold f. cbn [fst]. unfold lex_lt. split.
    - intros [[M _] Q]. split; auto. destruct (lex_compare s k) eqn:C; try discriminate; auto. apply lex_compare_eq in C. auto.
    - intros [M Q]. split.
      + split; auto. destruct k; auto.
      + destruct Q as [Q|[-> _]]; [now rewrite Q|]. now rewrite lex_compare_refl. }
  rewrite Q. apply space_filter.
Qed.
Lemma src_small r : src r -> small_rec r.
Proof.
  intros (k & v & M & H). apply rec_of_in in H. destruct H as (_ & s & W & ->). destruct (Hkey _ _ M) as [B K]. pose proof (Hgood _ _ M) as G.
  destruct (row_written _ G) as (s' & W1 & W2). rewrite W in W1. injection W1 as <-. destruct G as [T _].
  assert (I : In (k, v) L0). { apply HL0. split; auto. destruct k; [right; auto|left; reflexivity]. }
  apply space_in in I. cbn [fst snd] in I. rewrite <- W2, len_map in I. pose proof (len_nonneg s). pose proof (len_nonneg k).
  unfold small_rec. split; [exact B|]. split; [lia|]. split; [exact T|lia].
Qed.

Definition part (s e : list Z) (R : list rec) : Prop := exists L, enum_up m s true L /\ R = recs rows (upto e L).
Lemma part_in s e R r : part s e R -> (In r R <-> exists k v, m k = Some v /\ lex_le s k /\ (e = [] \/ lex_lt k e) /\ In r (rec_of rows (k, v))).
Proof.
  intros (L & [S E] & ->). unfold recs. rewrite in_flat_map. split.
  - intros ((k & v) & A & B). apply (upto_in rows e L S) in A. destruct A as [A1 A2]. apply E in A1. exists k, v. rewrite lex_le_lt_eq. intuition.
  - intros (k & v & A & B & C & D). exists (k, v). split; auto. apply (upto_in rows e L S). split; auto. apply E. rewrite lex_le_lt_eq in B. intuition.
Qed.
Lemma part_src s e R : part s e R -> Forall src R.
Proof. intros P. rewrite Forall_forall. intros r H. apply (part_in s e R r P) in H. destruct H as (k & v & A & _ & _ & B). exists k, v. auto. Qed.
Lemma upto_incl e : forall L x, In x (upto e L) -> In x L.
Proof. induction L as [|a L IH]; intros x; cbn [upto]; auto. destruct (within e (fst a)); [|intros []]. intros [->|H]; [now left|right; auto]. Qed.
Lemma upto_sorted e : forall L, StronglySorted (fun a b => lex_lt (fst a) (fst b)) L -> StronglySorted (fun a b => lex_lt (fst a) (fst b)) (upto e L).
Proof.
  induction 1 as [|a L S IH F]; cbn [upto]; [constructor|]. destruct (within e (fst a)); constructor; auto.
  rewrite Forall_forall in *. intros x X. apply F. eapply upto_incl; eauto.
Qed.
Lemma recs_nodup : forall L, StronglySorted (fun a b => lex_lt (fst a) (fst b)) L -> NoDup (map r_key (recs rows L)).
Proof.
  induction 1 as [|[k v] L S IH F]; [constructor|]. rewrite recs_cons.
  assert (N : forall r, In r (recs rows L) -> r_key r <> k).
  { intros r H Q. unfold recs in H. apply in_flat_map in H. destruct H as ((k' & v') & A & B). apply rec_key in B. rewrite Forall_forall in F. specialize (F _ A). cbn [fst] in F.
    apply (lex_lt_irrefl k). congruence. }
  unfold rec_of at 1. cbn [fst snd]. destruct (Z.odd (bag_timestamp (rows v))); auto. destruct (bag_checkpoint_write (rows v)); auto. cbn [app map]. constructor; auto.
  cbn [r_key fst]. intros H. apply in_map_iff in H. destruct H as (r & A & B). exact (N r B A).
Qed.
Lemma part_nodup s e R : part s e R -> NoDup (map r_key R).
Proof. intros (L & [S _] & ->). apply recs_nodup. now apply upto_sorted. Qed.
Lemma recs_len : forall L, len (recs rows L) <= len L.
Proof.
  induction L as [|[k v] L IH]; [cbn; lia|]. rewrite recs_cons, len_app, len_cons. unfold rec_of. cbn [snd fst].
  destruct (Z.odd (bag_timestamp (rows v))); [rewrite len_nil; lia|]. destruct (bag_checkpoint_write (rows v)); rewrite ?len_cons, ?len_nil; lia.
Qed.
Lemma upto_len e : forall L, len (upto e L) <= len L.
Proof. induction L as [|a L IH]; cbn [upto]; [lia|]. rewrite len_cons. destruct (within e (fst a)); [rewrite len_cons; lia|]. rewrite len_nil. pose proof (len_nonneg L). lia. Qed.
Lemma part_len s e R : part s e R -> 0 <= len R < 2 ^ 64.
Proof.
  intros (L & E & ->). pose proof (space_part s L E). pose proof (space_len L). pose proof (recs_len (upto e L)). pose proof (upto_len e L). pose proof (len_nonneg (recs rows (upto e L))). lia.
Qed.

Fixpoint parts (starts : list (list Z)) (Rl : list (list rec)) : Prop :=
  match starts, Rl with
  | [], [] => True
  | s :: rest, R :: Rl' => part s (hd [] rest) R /\ parts rest Rl'
  | _, _ => False
  end.
Lemma parts_length : forall starts Rl, parts starts Rl -> length Rl = length starts.
Proof. induction starts as [|s rest IH]; intros [|R Rl]; cbn [parts length]; try tauto. intros [_ H]. f_equal. auto. Qed.
Lemma parts_src : forall starts Rl, parts starts Rl -> Forall src (concat Rl).
Proof.
  induction starts as [|s rest IH]; intros [|R Rl]; cbn [parts concat]; try tauto; [constructor|]. intros [A B]. apply Forall_app. split; [exact (part_src _ _ _ A)|auto].
Qed.
Lemma parts_cover k v r : m k = Some v -> In r (rec_of rows (k, v)) -> forall rest s Rl, parts (s :: rest) Rl -> lex_le s k -> In r (concat Rl).
Proof.
  intros M H. induction rest as [|s' rest IH]; intros s [|R Rl]; cbn [parts concat]; try tauto; intros [P Q] LE; apply in_or_app.
  - left. apply (part_in _ _ _ r P). exists k, v. auto.
  - cbn [hd] in P. destruct (lex_trichotomy k s') as [C|C].
    + left. apply (part_in _ _ _ r P). exists k, v. auto.
    + right. apply (IH s' Rl Q). rewrite lex_le_lt_eq. intuition.
Qed.
Lemma parts_from : forall starts Rl r, parts starts Rl -> In r (concat Rl) -> exists s, In s starts /\ lex_le s (r_key r).
Proof.
  induction starts as [|s rest IH]; intros [|R Rl] r; cbn [parts concat]; try tauto; [intros _ []|]. intros [P Q] H. apply in_app_or in H. destruct H as [H|H].
  - apply (part_in _ _ _ r P) in H. destruct H as (k & v & _ & A & _ & B). apply rec_key in B. rewrite B. exists s. split; [now left|auto].
  - destruct (IH Rl r Q H) as (s' & A & B). exists s'. split; [now right|auto].
Qed.
Lemma parts_nodup : forall starts Rl, parts starts Rl -> starts_apart starts -> NoDup (map r_key (concat Rl)).
Proof.
  induction starts as [|s rest IH]; intros [|R Rl]; cbn [parts concat]; try tauto; [constructor|]. intros [P Q] [S N]. cbn [tl] in N.
  apply StronglySorted_inv in S. destruct S as [S F].
  assert (A : starts_apart rest). { split; auto. intros X. apply N. destruct rest; [destruct X|now right]. }
  rewrite map_app. specialize (IH Rl Q A). pose proof (part_nodup _ _ _ P) as N1.
  assert (D : forall x, In x (map r_key R) -> ~ In x (map r_key (concat Rl))).
  { intros x X Y. apply in_map_iff in X, Y. destruct X as (r & <- & X), Y as (r' & E & Y). destruct (parts_from _ _ _ Q Y) as (s' & S1 & S2). rewrite E in S2.
    apply (part_in _ _ _ r P) in X. destruct X as (k & v & _ & _ & C & B). apply rec_key in B. rewrite B in *.
    destruct rest as [|s2 rest]; [destruct S1|]. cbn [hd] in C. destruct C as [->|C]; [apply N; now left|].
    apply StronglySorted_inv in S. destruct S as [S F2]. rewrite Forall_forall in F2.
    assert (LE : lex_le s2 k). { destruct S1 as [->|S1]; auto. eapply lex_le_trans; eauto. }
    rewrite lex_le_lt_eq in LE. destruct LE as [LE| ->]; [|exact (lex_lt_irrefl _ C)]. exact (lex_lt_irrefl _ (lex_lt_trans _ _ _ C LE)). }
  clear - N1 IH D. induction R as [|r R IHR]; cbn [map app] in *; auto. inversion N1 as [|? ? X Y]; subst. constructor.
  - rewrite in_app_iff. intros [Z|Z]; [auto|]. exact (D (r_key r) (or_introl eq_refl) Z).
  - apply IHR; auto. intros x X1. apply D. now right.
Qed.

(* ---- the files ---- *)
Context (t : table).
Definition scans : Prop := forall first mem, bytes_ok first -> (length first <= keybuf_size)%nat -> length mem = keybuf_size ->
  exists L, enum_up m first true L /\
    forall (A : Type) (vis : A -> list Z -> Z -> A * bool), exists N, forall fuel a, (N <= fuel)%nat -> tree_scan fuel (t_heap t) (t_root t) Fwd first true mem vis a = Ok (visit_list vis a L).
Hypothesis Hscan : scans.
Definition file_of (gen : Z) (s : list Z) (R : list rec) : list Z := unparse (ck_header gen (len R) s) ++ encs R.
Fixpoint files_of (gen : Z) (starts : list (list Z)) (Rl : list (list rec)) : list (list Z) :=
  match starts, Rl with s :: rest, R :: Rl' => file_of gen s R :: files_of gen rest Rl' | _, _ => [] end.

Lemma part_written e gen s en : bytes_ok s -> (length s <= keybuf_size)%nat -> length (sc_key e) = keybuf_size -> length (sc_buf e) = 256%nat ->
  exists R N, part s en R /\ forall fuel, (N <= fuel)%nat -> ck_part fuel e gen t rows s en = Some (file_of gen s R).
Proof.
  intros B LS LK LB. destruct (Hscan s (sc_key e) B LS LK) as (L & E & V). destruct (V _ (ck_visit (sc_junk e) rows en)) as (N & HN).
  pose proof (space_part s L E) as SP.
  destruct (visit_ok rows (sc_junk e) en L (new_kvout false (sc_buf e)) 0 0) as (kv & c & V1 & V2).
  - rewrite Forall_forall. intros [k v] X. apply E in X. cbn [snd]. exact (Hgood _ _ (proj1 X)).
  - unfold KInv, new_kvout, kcap. cbn [kv_buf kv_n]. unfold len. rewrite LB. lia.
  - reflexivity.
  - reflexivity.
  - lia.
  - exists (recs rows (upto en L)), N. split; [exists L; auto|]. intros fuel F. unfold ck_part. rewrite HN, V1 by auto. cbn [Z.add]. unfold ck_file, file_of. rewrite V2. reflexivity.
Qed.
Lemma files_written e gen : (forall i, length (sc_key (e i)) = keybuf_size /\ length (sc_buf (e i)) = 256%nat) ->
  forall starts i, Forall (fun s => bytes_ok s /\ (length s <= keybuf_size)%nat) starts ->
  exists Rl N, parts starts Rl /\ forall fuel, (N <= fuel)%nat -> ck_files fuel e i gen t rows starts = Some (files_of gen starts Rl).
Proof.
  intros He. induction starts as [|s rest IH]; intros i F.
  - exists [], 0%nat. split; [exact Logic.I|]. reflexivity.
  - inversion F as [|? ? [F1 F1'] F2]; subst. destruct (He i) as [K1 K2]. destruct (part_written (e i) gen s (hd [] rest) F1 F1' K1 K2) as (R & N1 & P1 & W1).
    destruct (IH (S i) F2) as (Rl & N2 & P2 & W2). exists (R :: Rl), (Nat.max N1 N2). split; [split; auto|]. intros fuel Fu. cbn [ck_files files_of]. rewrite W1, W2 by lia. reflexivity.
Qed.
Lemma files_open gen : 0 <= gen < 2 ^ 64 -> forall starts Rl, parts starts Rl -> Forall (fun s => bytes_ok s /\ (length s <= keybuf_size)%nat) starts ->
  ck_opens gen (length starts) (files_of gen starts Rl) = Some (map rest_of Rl).
Proof.
  intros G. induction starts as [|s rest IH]; intros [|R Rl]; cbn [parts length ck_opens files_of map tl]; try tauto.
  intros [P Q] F. inversion F as [|? ? [F1 F1'] F2]; subst. pose proof (part_len _ _ _ P). rewrite IH by auto.
  unfold file_of. rewrite open_ok; auto.
  - rewrite Z.eqb_refl. reflexivity.
  - unfold len, keybuf_size in *. lia.
Qed.

(* ---- what is found afterwards ---- *)
End Parts.

Lemma restores ops rows starts gen e : Forall op_ok ops -> Forall (op_short maxkeylen) ops ->
  (forall k v, present ops k = Some v -> row_good (rows v)) -> small_table rows (present ops) -> starts_ok starts -> 0 <= gen < 2 ^ 64 -> scratch_ok e ->
  exists t rs N files turns, truns table_init ops = Ok (t, rs) /\ (forall fuel, (N <= fuel)%nat -> ck_files fuel e 0 gen t rows starts = Some files) /\
  forall sched, exists st l, ck_load gen (length starts) files sched = Some (st, l) /\
    (finished l -> forall k, bytes_ok k -> exists o, tstep (ld_table st) (OGet k) = Ok (ld_table st, o) /\ seen (ld_rows st) o = seen rows (present ops k)) /\
    (starts_apart starts -> ld_again st = []) /\
    ((forall i, (i < length starts)%nat -> (turns <= count_occ Nat.eq_dec sched i)%nat) -> finished l).
Proof.
  intros F FS G SM [S1 S2] HG HE. destruct (scan_run ops Fwd F FS) as (t & A & SC). set (m := present ops) in *.
  assert (Hkey : forall k v, m k = Some v -> bytes_ok k /\ (length k <= maxkeylen)%nat).
  { intros k v. unfold m, present. destruct (last_write ops k) as [w|] eqn:E; [|discriminate]. intros ->. apply last_write_in in E. rewrite Forall_forall in F, FS. split; [exact (F _ E)|exact (FS _ E)]. }
  assert (Hsc : scans m t). { intros first mem B1 B2 B3. exact (SC first true mem B1 B2 B3). }
  destruct (Hsc [] (repeat 0 keybuf_size)) as (L0 & EN & _); [constructor|cbn; lia|apply repeat_length|].
  pose proof (SM _ EN) as SP.
  assert (S3 : Forall (fun s => bytes_ok s /\ (length s <= keybuf_size)%nat) starts).
  { rewrite Forall_forall in *. intros s I. destruct (S2 s I). split; auto. unfold keybuf_size. lia. }
  destruct (files_written m rows L0 G Hkey EN SP t Hsc e gen HE starts 0 S3) as (Rl & N & P & W).
  pose proof (files_open m rows L0 G Hkey EN SP gen HG starts Rl P S3) as O.
  destruct starts as [|s0 rest]; [discriminate|]. injection S1 as ->.
  assert (I0 : LI (src m rows) (starts_apart ([] :: rest)) ld_init Rl map_empty).
  { apply init_ok.
    - intros r (k & v & M & X). apply (parts_cover m rows k v r M X rest [] Rl P). apply lex_nil_le.
    - exact (parts_src m rows _ _ P).
    - exact (parts_nodup m rows _ _ P). }
  exists t, (snd (map_run map_empty ops)), N, (files_of gen ([] :: rest) Rl), (length (concat Rl)). split; [exact A|]. split; [exact W|].
  intros sched. unfold ck_load. rewrite O.
  destruct (run_ok (src m rows) (starts_apart ([] :: rest)) (src_small m rows L0 G Hkey EN SP) sched ld_init Rl map_empty I0) as (st & Rl' & m' & E & I & LE & C).
  exists st, (map rest_of Rl'). split; [exact E|]. split; [|split].
  - intros Fi k B. apply finished_iff in Fi. destruct I as [(g & I1) I2 I3 I4 I5].
    destruct (tstep_ok _ _ _ (OGet k) I1 B) as (t' & g' & T & _ & _).
    assert (T' : t' = ld_table st). { cbn [tstep] in T. destruct (tree_get _ _ _); [|discriminate]. cbn [bind] in T. congruence. }
    subst t'. exists (m' k). split; [exact T|]. destruct (m' k) as [v|] eqn:E'.
    + destruct (I2 k v E') as (_ & r & (k1 & v1 & M & X) & K & RW). pose proof (rec_key rows _ _ _ X) as K'. rewrite K in K'. subst k1. apply rec_of_in in X. destruct X as (Od & s & W1 & ->).
      rewrite M. cbn [seen]. rewrite RW. cbn [fst snd]. unfold bag_checkpoint_read. cbn [bag_timestamp bg_s]. destruct (row_written _ (G _ _ M)) as (s' & W2 & W3). rewrite W1 in W2. injection W2 as <-.
      change (bag_timestamp (MkBag (bag_timestamp (rows v1)) (map Some s))) with (bag_timestamp (rows v1)). rewrite Od, W3. reflexivity.
    + cbn [seen]. destruct (m k) as [v|] eqn:M; [|reflexivity]. cbn [seen]. destruct (Z.odd (bag_timestamp (rows v))) eqn:Od; [reflexivity|].
      destruct (row_written _ (G _ _ M)) as (s & W1 & _). destruct (I3 (k, bag_timestamp (rows v), s)) as [Q|Q].
      * exists k, v. split; auto. apply rec_of_in. eauto.
      * cbn [r_key fst] in Q. congruence.
      * rewrite Fi in Q. destruct Q.
  - intros Ap. apply I. exact Ap.
  - intros T. apply finished_iff, finishes. intros j. rewrite C. destruct (Nat.lt_ge_cases j (length Rl)) as [J|J].
    + rewrite (parts_length m rows _ _ P) in J. specialize (T j J).
      assert (Q : forall (l : list (list rec)) j, (length (nth j l []) <= length (concat l))%nat).
      { clear. induction l as [|R l IH]; intros [|j]; cbn [nth concat length]; rewrite ?app_length; try lia. specialize (IH j). lia. }
      specialize (Q Rl j). lia.
    + rewrite (nth_overflow Rl) by auto. reflexivity.
Qed.

(* A bound on the size, from the history. *)
Definition puts (ops : list top) : list (list Z * Z) := flat_map (fun o => match o with OPut k v => [(k, v)] | _ => [] end) ops.
Lemma space_app rows a b : ck_space rows (a ++ b) = ck_space rows a + ck_space rows b.
Proof. induction a as [|x a IH]; cbn [app ck_space fold_right]; [reflexivity|]. fold (ck_space rows (a ++ b)) (ck_space rows a). lia. Qed.
Lemma space_incl rows : forall L P, NoDup L -> incl L P -> ck_space rows L <= ck_space rows P.
Proof.
  induction L as [|x L IH]; intros P N I; [apply space_nonneg|]. inversion N as [|? ? N1 N2]; subst.
  destruct (in_split x P (I x (or_introl eq_refl))) as (a & b & ->). rewrite space_app. cbn [ck_space fold_right]. fold (ck_space rows L) (ck_space rows b).
  assert (Q : ck_space rows L <= ck_space rows (a ++ b)).
  { apply IH; auto. intros y Hy. assert (Y := I y (or_intror Hy)). apply in_app_or in Y. apply in_or_app. destruct Y as [Y|[->|Y]]; auto. contradiction. }
  rewrite space_app in Q. lia.
Qed.
Lemma small_by_ops rows ops : ck_space rows (puts ops) <= 2 ^ 31 -> small_table rows (present ops).
Proof.
  intros H L [S E]. transitivity (ck_space rows (puts ops)); auto. apply space_incl.
  - clear E. induction S as [|a L S IH F]; constructor; auto. intros X. rewrite Forall_forall in F. exact (lex_lt_irrefl _ (F a X)).
  - intros [k v] X. apply E in X. destruct X as [X _]. unfold present in X. destruct (last_write ops k) as [w|] eqn:Q; [subst w|discriminate]. apply last_write_in in Q.
    unfold puts. apply in_flat_map. exists (OPut k v). split; [auto|now left].
Qed.
