(* Scans: the key buffer, ordered event lists, and the scan loop as a step relation. *)
From Coq Require Import Sorting.Sorted.
From Verif Require Import Lib Spec_String Spec_Map Spec_Scan M_Key P_Key M_Permuter M_Search P_Search M_Tree P_Tree1 M_Scan.

(* ---- the key buffer ---- *)
Lemma skipn_plus {A} a : forall b (l : list A), skipn b (skipn a l) = skipn (a + b) l.
Proof. induction a; intros b l; auto. destruct l; cbn [skipn Nat.add]; auto. now destruct b. Qed.
Lemma buf_write_mid p m q s : length s = length m -> buf_write (p ++ m ++ q) (length p) s = Ok (p ++ s ++ q).
Proof.
  intros E. unfold buf_write. destruct (Nat.leb_spec (length p + length s) (length (p ++ m ++ q))) as [H|H].
  - f_equal. rewrite firstn_app, firstn_all, Nat.sub_diag. cbn [firstn]. rewrite app_nil_r. f_equal. f_equal.
    rewrite E, skipn_app_exact, skipn_app, skipn_all, Nat.sub_diag. reflexivity.
  - rewrite !app_length in H. lia.
Qed.
Lemma store_ikey_ok ka p rest ik : k_buf ka = p ++ rest -> k_off ka = length p -> (8 <= length rest)%nat -> 0 <= ik < 2 ^ 64 ->
  key_store_ikey ik ka = Ok (MkKey ik (k_len ka) (p ++ be_bytes 8 ik ++ skipn 8 rest) (k_off ka)).
Proof.
  intros B O H8 Hi. unfold key_store_ikey. rewrite B, O, bswap_bytes by auto.
  rewrite <- (firstn_skipn 8 rest) at 1. rewrite buf_write_mid; [reflexivity|]. rewrite be_bytes_length, firstn_length. lia.
Qed.
Lemma store_suffix_ok ka p rest s : k_buf ka = p ++ rest -> k_off ka = length p -> (8 + length s <= length rest)%nat ->
  key_store_suffix s ka = Ok (MkKey (k_ikey ka) (k_len ka) (p ++ firstn 8 rest ++ s ++ skipn (8 + length s) rest) (k_off ka)).
Proof.
  intros B O H8. unfold key_store_suffix. rewrite B, O.
  assert (E : p ++ rest = (p ++ firstn 8 rest) ++ firstn (length s) (skipn 8 rest) ++ skipn (8 + length s) rest).
  { rewrite <- app_assoc. f_equal. rewrite <- (firstn_skipn 8 rest) at 1. f_equal.
    rewrite <- (firstn_skipn (length s) (skipn 8 rest)) at 1. f_equal. apply skipn_plus. }
  rewrite E. replace (length p + 8)%nat with (length (p ++ firstn 8 rest)) by (rewrite app_length, firstn_length; lia).
  rewrite buf_write_mid; [|rewrite firstn_length, skipn_length; lia]. cbn [bind]. rewrite <- app_assoc. reflexivity.
Qed.
Lemma slice_full b s : bytes_ok s -> length s = 8%nat -> slice_make_comparable_sloppy b s = be_val s.
Proof.
  intros H E. unfold slice_make_comparable_sloppy, slice_make_sloppy, ikey_size. rewrite E. cbn [Nat.leb].
  rewrite firstn_all2 by lia. rewrite <- E. now apply bswap_le_val.
Qed.
Lemma unshift_ok ka p ik rest : k_buf ka = (p ++ be_bytes 8 ik) ++ rest -> k_off ka = (length p + 8)%nat -> 0 <= ik < 2 ^ 64 ->
  key_unshift ka = Ok (MkKey ik 9 (k_buf ka) (length p)).
Proof.
  intros B O Hi. unfold key_unshift, key_is_shifted, ensure. rewrite O.
  destruct (Nat.eqb_spec (length p + 8) 0); [lia|]. cbn [negb bind].
  replace (length p + 8 - 8)%nat with (length p) by lia. f_equal. f_equal.
  assert (E : firstn 8 (skipn (length p) (k_buf ka)) = be_bytes 8 ik).
  { rewrite B, <- app_assoc. rewrite skipn_app, skipn_all, Nat.sub_diag. cbn [skipn app].
    pose proof (be_bytes_length 8 ik) as E8. rewrite firstn_app, E8, Nat.sub_diag, firstn_O, app_nil_r. apply firstn_all2. lia. }
  rewrite E, slice_full by (auto using be_bytes_ok, be_bytes_length). now apply be_val_bytes.
Qed.
(* A key object for remainder s with further buffer space behind. *)
Definition key_repj (k : mkey) (p s : list Z) : Prop :=
  (exists j, k_buf k = p ++ s ++ j) /\ k_off k = length p /\ k_len k = len s /\ k_ikey k = slice_make_comparable s.
Lemma key_suffix_repj k p s : key_repj k p s -> key_suffix k = skipn 8 s.
Proof.
  intros ((j & B) & O & L & _). unfold key_suffix. rewrite B, O, L, skipn_app_exact, skipn_app.
  assert (E : Z.to_nat (len s - 8) = length (skipn 8 s)) by (rewrite skipn_length; unfold len; lia).
  rewrite E, firstn_app, firstn_all, Nat.sub_diag. cbn [firstn]. apply app_nil_r.
Qed.
Lemma key_shift_repj k p s : bytes_ok p -> bytes_ok s -> key_repj k p s -> 8 < len s ->
  key_repj (key_shift k) (p ++ firstn 8 s) (skipn 8 s) /\ k_buf (key_shift k) = k_buf k.
Proof.
  intros Hp Hs ((j & B) & O & L & I) Hl. unfold key_repj, key_shift. cbn [k_buf k_off k_len k_ikey].
  assert (E8 : length (firstn 8 s) = 8%nat) by (rewrite firstn_length; unfold len in Hl; lia).
  split; auto. split; [|split; [|split]].
  - exists j. rewrite B, <- app_assoc. f_equal. rewrite <- (firstn_skipn 8 s) at 1. now rewrite <- app_assoc.
  - rewrite app_length, E8, O. lia.
  - rewrite L. unfold len. rewrite skipn_length. unfold len in Hl. lia.
  - rewrite B, O, skipn_app_exact, L.
    replace (firstn (Z.to_nat (len s - 8)) (skipn 8 (s ++ j))) with (skipn 8 s).
    2: { rewrite skipn_app. assert (E : Z.to_nat (len s - 8) = length (skipn 8 s)) by (rewrite skipn_length; unfold len; lia).
         rewrite E, firstn_app, firstn_all, Nat.sub_diag. cbn [firstn]. now rewrite app_nil_r. }
    replace (firstn (length p + 8) (p ++ s ++ j)) with (p ++ firstn 8 s).
    2: { rewrite firstn_app, (firstn_all2 p) by lia. f_equal. replace (length p + 8 - length p)%nat with 8%nat by lia.
         rewrite firstn_app. replace (8 - length s)%nat with 0%nat by (unfold len in Hl; lia). cbn [firstn]. now rewrite app_nil_r. }
    unfold slice_make_comparable_sloppy, slice_make_comparable. f_equal. apply slice_sloppy_eq; auto using bytes_ok_skipn.
    + apply bytes_ok_app. auto using bytes_ok_firstn.
    + rewrite app_length, E8. lia.
Qed.

(* ---- ordered event lists ---- *)
Notation event := (list Z * Z)%type.
Definition dlex (d : sdir) (a b : list Z) : Prop := match d with Fwd => lex_lt a b | Rev => lex_lt b a end.
Definition dsorted (d : sdir) (L : list event) : Prop := StronglySorted (fun a b => dlex d (fst a) (fst b)) L.
(* L lists exactly the pairs satisfying P, in order. *)
Definition lists (d : sdir) (L : list event) (P : list Z -> Z -> Prop) : Prop := dsorted d L /\ forall k v, In (k, v) L <-> P k v.
Lemma lists_nil d P : (forall k v, ~ P k v) -> lists d [] P.
Proof. intros H. split; [constructor|]. intros k v. cbn [In]. split; [tauto|]. intros Q. exact (H k v Q). Qed.
Lemma lists_one d k0 v0 P : (forall k v, P k v <-> k = k0 /\ v = v0) -> lists d [(k0, v0)] P.
Proof.
  intros H. split; [repeat constructor|]. intros k v. rewrite H. cbn [In]. split.
  - intros [E|[]]. inversion E; auto.
  - intros [-> ->]. auto.
Qed.
Lemma StronglySorted_app {A} (R : A -> A -> Prop) a b : StronglySorted R a -> StronglySorted R b ->
  (forall x y, In x a -> In y b -> R x y) -> StronglySorted R (a ++ b).
Proof.
  induction 1 as [|x a Sa IH F]; intros Sb H; cbn [app]; auto. constructor.
  - apply IH; auto. intros u w Hu Hw. apply H; cbn; auto.
  - apply Forall_app. split; auto. apply Forall_forall. intros y Hy. apply H; cbn; auto.
Qed.
Lemma lists_app d a b P Q R : lists d a P -> lists d b Q -> (forall k v k' v', P k v -> Q k' v' -> dlex d k k') ->
  (forall k v, R k v <-> P k v \/ Q k v) -> lists d (a ++ b) R.
Proof.
  intros [Sa Ia] [Sb Ib] H HR. split.
  - apply StronglySorted_app; auto. intros [k v] [k' v'] H1 H2. cbn [fst]. apply Ia in H1. apply Ib in H2. eauto.
  - intros k v. rewrite in_app_iff, Ia, Ib, HR. tauto.
Qed.
Lemma lists_ext d a P Q : lists d a P -> (forall k v, P k v <-> Q k v) -> lists d a Q.
Proof. intros [S I] H. split; auto. intros. rewrite I. apply H. Qed.

(* ---- the loop ---- *)
Section Steps.
Context (h : heap) (d : sdir) (e : bool).
Inductive steps : smode * sst -> list event -> smode * sst -> Prop :=
| st_refl c : steps c [] c
| st_silent c c' evs c'' : (forall v, fst c <> SEmit v) -> fst c <> SDone -> s_step h d e c = Ok c' -> steps c' evs c'' -> steps c evs c''
| st_emit v st c' evs c'' : s_step h d e (SEmit v, st) = Ok c' -> steps c' evs c'' ->
    steps (SEmit v, st) ((key_full_string (s_ka st), v) :: evs) c''.
Lemma steps_trans a l1 b l2 c : steps a l1 b -> steps b l2 c -> steps a (l1 ++ l2) c.
Proof.
  induction 1 as [|c0 c' evs c'' H1 H2 H3 H4 IH|v st c' evs c'' H3 H4 IH]; intros H; auto.
  - eapply st_silent; eauto.
  - cbn [app]. eapply st_emit; eauto.
Qed.
Lemma steps_next st c : s_step h d e (SNext, st) = Ok c -> steps (SNext, st) [] c.
Proof. intros. eapply st_silent; eauto; [discriminate|discriminate|constructor]. Qed.
Lemma steps_init st c : s_step h d e (SInit, st) = Ok c -> steps (SInit, st) [] c.
Proof. intros. eapply st_silent; eauto; [discriminate|discriminate|constructor]. Qed.
Lemma steps_down st c : s_step h d e (SDown, st) = Ok c -> steps (SDown, st) [] c.
Proof. intros. eapply st_silent; eauto; [discriminate|discriminate|constructor]. Qed.
Lemma steps_up st c : s_step h d e (SUp, st) = Ok c -> steps (SUp, st) [] c.
Proof. intros. eapply st_silent; eauto; [discriminate|discriminate|constructor]. Qed.
Lemma steps_emit v st : steps (SEmit v, st) [(key_full_string (s_ka st), v)]
  (SNext, MkS (s_root st) (s_n st) (s_next d (s_ki st)) (s_stack st) (s_ka st) (s_ub st)).
Proof. eapply st_emit; [reflexivity|constructor]. Qed.

Lemma run_steps {A} (vis : A -> list Z -> Z -> A * bool) c evs c' : steps c evs c' -> fst c' = SDone ->
  exists N, forall fuel a cnt, (N <= fuel)%nat -> s_run fuel h d e vis c a cnt = Ok (fst (visit_list vis a evs), cnt + snd (visit_list vis a evs)).
Proof.
  induction 1 as [c|c c' evs c'' H1 H2 H3 H4 IH|v st c' evs c'' H3 H4 IH]; intros Hd.
  - exists 1%nat. intros [|f] a cnt Hf; [lia|]. cbn [s_run visit_list fst snd]. rewrite Hd. f_equal. f_equal. lia.
  - destruct (IH Hd) as (N & HN). exists (S N). intros [|f] a cnt Hf; [lia|]. cbn [s_run].
    specialize (HN f a cnt ltac:(lia)).
    destruct (fst c) as [|v'| | | | |] eqn:E; try (rewrite H3; cbn [bind]; exact HN); [now destruct (H1 v')|tauto].
  - destruct (IH Hd) as (N & HN). exists (S N). intros [|f] a cnt Hf; [lia|]. cbn [s_run visit_list fst snd].
    destruct (vis a (key_full_string (s_ka st)) v) as [a' go]. destruct go; [|reflexivity].
    rewrite H3. cbn [bind]. rewrite HN by lia. destruct (visit_list vis a' evs) as [a2 m]. cbn [fst snd]. f_equal. f_equal. lia.
Qed.
End Steps.
