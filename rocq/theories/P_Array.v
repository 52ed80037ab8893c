(* Histories of array rows: contents, and the strings released. *)
From Coq Require Import Permutation.
From Verif Require Import Lib M_Bag M_Array Spec_Row M_Rowrun P_Row.

Definition ptr (c : option nat) : list nat := match c with Some p => [p] | None => [] end.
Definition ptrs (cols : list (option nat)) : list nat := flat_map ptr cols.
Definition colval (strs : list (list Z)) (c : option nat) : list Z := match c with Some p => nth p strs [] | None => [] end.

(* Every string is used by the row or released, once. *)
Definition accounted (h : cheap) (cols : list (option nat)) : Prop :=
  Permutation (ptrs cols ++ ch_released h) (seq 0 (length (ch_strings h))).

Lemma cols_set_ok cols i c : (i < length cols)%nat -> exists cols', cols_set cols i c = Some cols' /\ length cols' = length cols /\
  (forall k, nth k cols' None = if (k =? i)%nat then c else nth k cols None) /\
  Permutation (ptr (nth i cols None) ++ ptrs cols') (ptr c ++ ptrs cols).
Proof.
  revert i. induction cols as [|x cols IH]; intros i Hi; cbn in Hi; [lia|]. destruct i as [|i]; cbn [cols_set].
  - exists (c :: cols). repeat split; auto. + intros [|k]; reflexivity. + cbn [nth ptrs flat_map]. rewrite !app_assoc. apply Permutation_app_tail, Permutation_app_comm.
  - destruct (IH i ltac:(lia)) as (cols' & -> & Hl & Hn & Hp). exists (x :: cols'). repeat split; cbn [length]; auto.
    + intros [|k]; cbn [nth Nat.eqb]; auto.
    + cbn [nth ptrs flat_map]. fold (ptrs cols'). fold (ptrs cols). rewrite !app_assoc, (Permutation_app_comm _ (ptr x)), <- app_assoc, Hp.
      rewrite !app_assoc. apply Permutation_app_tail, Permutation_app_comm.
Qed.

Lemma make_column_ok h v : exists news, ch_strings (fst (make_column h v)) = ch_strings h ++ news /\
  ch_released (fst (make_column h v)) = ch_released h /\ ptr (snd (make_column h v)) = seq (length (ch_strings h)) (length news) /\
  forall more, colval (ch_strings h ++ news ++ more) (snd (make_column h v)) = v.
Proof.
  destruct v as [|b v]; cbn [make_column fst snd ch_strings ch_released].
  - exists []. rewrite app_nil_r. auto.
  - exists [b :: v]. repeat split; auto. intros more. cbn [colval]. rewrite app_nth2 by lia. now rewrite Nat.sub_diag.
Qed.

Lemma colval_more strs more c : (forall p, c = Some p -> (p < length strs)%nat) -> colval (strs ++ more) c = colval strs c.
Proof. destruct c as [p|]; cbn; auto. intros H. apply app_nth1. auto. Qed.

Definition valid (h : cheap) (cols : list (option nat)) : Prop := forall p, In (Some p) cols -> (p < length (ch_strings h))%nat.
Lemma in_ptrs cols p : In (Some p) cols <-> In p (ptrs cols).
Proof.
  unfold ptrs. rewrite in_flat_map. split.
  - intros H. exists (Some p). cbn. auto.
  - intros ([q|] & H1 & H2); cbn in H2; [|easy]. destruct H2 as [->|[]]. auto.
Qed.
Lemma accounted_valid h cols : accounted h cols -> valid h cols.
Proof.
  intros H p Hp. apply in_ptrs in Hp. assert (In p (seq 0 (length (ch_strings h)))) as Hs.
  { rewrite <- H. apply in_or_app. auto. } apply in_seq in Hs. lia.
Qed.
Lemma valid_nth h cols k p : valid h cols -> nth k cols None = Some p -> (p < length (ch_strings h))%nat.
Proof.
  intros H E. apply H. rewrite <- E. apply nth_In. destruct (le_lt_dec (length cols) k) as [L|L]; auto. rewrite nth_overflow in E by auto. discriminate.
Qed.

(* ------------------------------------------------------------------ value_array *)
Definition olds (cols : list (option nat)) (ch : changes) : list nat := flat_map (fun jv => ptr (nth (Z.to_nat (fst jv)) cols None)) ch.

Lemma olds_ext cols cols' ch lo : increasing lo ch -> (forall k, lo <= Z.of_nat k -> nth k cols' None = nth k cols None) -> 0 <= lo -> olds cols' ch = olds cols ch.
Proof.
  revert lo. induction ch as [|[j v] ch IH]; intros lo Hi Hk Hlo; auto. cbn in *. destruct Hi as [Hj Hi]. rewrite Hk by lia. f_equal. apply (IH (j + 1)); auto. - intros. apply Hk. lia. - lia.
Qed.

Lemma va_store_ok ch : forall lo h cols, 0 <= lo -> increasing lo ch -> top_col ch <= len cols -> valid h cols ->
  exists news cols', va_store h cols ch = Some (MkCheap (ch_strings h ++ news) (ch_released h), cols') /\ length cols' = length cols /\
  Permutation (ptrs cols' ++ olds cols ch) (ptrs cols ++ seq (length (ch_strings h)) (length news)) /\
  forall k, colval (ch_strings h ++ news) (nth k cols' None) = match lookup (Z.of_nat k) ch with Some v => v | None => colval (ch_strings h) (nth k cols None) end.
Proof.
  induction ch as [|[j v] ch IH]; intros lo h cols Hlo Hi Ht Hv; cbn [va_store].
  - exists [], cols. rewrite app_nil_r. destruct h. repeat split; auto.
  - cbn [increasing top_col fold_right fst] in *. fold (top_col ch) in Ht. destruct Hi as [Hj Hi].
    destruct (make_column_ok h v) as (n1 & M1 & M2 & M3 & M4). destruct (make_column h v) as [h1 c1] eqn:Em. cbn [fst snd] in *.
    assert (Hjl : (Z.to_nat j < length cols)%nat) by (unfold len in Ht; lia).
    destruct (cols_set_ok cols (Z.to_nat j) c1 Hjl) as (cols1 & -> & Hl1 & Hn1 & Hp1).
    assert (V1 : valid h1 cols1).
    { intros p Hp. apply In_nth with (d := None) in Hp. destruct Hp as (k & Hk & Ek). rewrite Hn1 in Ek. rewrite M1, app_length.
      destruct (k =? Z.to_nat j)%nat.
      - subst c1. cbn in M3. destruct n1; [discriminate|]. cbn in M3. injection M3 as M3 _. cbn. lia.
      - pose proof (valid_nth _ _ _ _ Hv Ek). lia. }
    destruct (IH (j + 1) h1 cols1 ltac:(lia) Hi ltac:(unfold len in *; lia) V1) as (n2 & cols' & E & Hl & Hp & Hc).
    rewrite E, M1, M2. rewrite <- app_assoc. exists (n1 ++ n2), cols'. split; [reflexivity|]. split; [lia|]. split.
    + cbn [olds flat_map fst]. fold (olds cols ch).
      assert (Eo : olds cols1 ch = olds cols ch). { apply (olds_ext cols cols1 ch (j + 1)); auto; [|lia]. intros k Hk. rewrite Hn1. now replace (k =? Z.to_nat j)%nat with false by lia. }
      rewrite Eo, M1 in Hp. rewrite (Permutation_app_comm (ptr _)), app_assoc, Hp, (app_length n1 n2), seq_app, <- M3. rewrite app_length.
      rewrite <- app_assoc, (Permutation_app_comm (seq _ _)), app_assoc. rewrite (app_assoc (ptrs cols)). apply Permutation_app_tail.
      rewrite (Permutation_app_comm (ptrs cols1)), Hp1. apply Permutation_app_comm.
    + intros k. rewrite app_assoc, <- M1. rewrite Hc. cbn [lookup]. destruct (j =? Z.of_nat k) eqn:Ej.
      * assert (lookup (Z.of_nat k) ch = None) as ->.
        { clear - Hi Ej. assert (Z.of_nat k < j + 1) by lia. clear Ej. revert H. generalize dependent (j + 1). induction ch as [|[a w] ch IH]; intros z Hi Hz; auto.
          cbn in *. replace (a =? Z.of_nat k) with false by lia. apply (IH (a + 1)); tauto || lia. }
        rewrite Hn1. replace (k =? Z.to_nat j)%nat with true by lia. rewrite M1. rewrite <- (app_nil_r n1). apply M4.
      * destruct (lookup (Z.of_nat k) ch); auto. rewrite Hn1. replace (k =? Z.to_nat j)%nat with false by lia.
        rewrite M1. apply colval_more. intros p Ep. apply (valid_nth _ _ _ _ Hv Ep).
Qed.

Lemma release_updated_ok ch : forall lo h r, 0 <= lo -> increasing lo ch -> va_ncol r = len (va_cols r) -> va_ncol r < 2 ^ 15 ->
  va_release_updated h r ch = Some (MkCheap (ch_strings h) (ch_released h ++ olds (va_cols r) ch)).
Proof.
  induction ch as [|[j v] ch IH]; intros lo h r Hlo Hi Hn Hb; cbn [va_release_updated olds flat_map fst].
  - rewrite app_nil_r. now destruct h.
  - cbn in Hi. destruct Hi as [Hj Hi]. fold (olds (va_cols r) ch). rewrite Z.mod_small by (pose proof (len_nonneg (va_cols r)); lia). destruct (j <? va_ncol r) eqn:E.
    + unfold cols_at. replace (0 <=? j) with true by lia.
      assert (En : nth_error (va_cols r) (Z.to_nat j) = Some (nth (Z.to_nat j) (va_cols r) None)) by (apply nth_error_nth'; unfold len in Hn; lia).
      rewrite En. rewrite (IH (j + 1)) by (auto; lia). destruct (nth _ _ _); cbn [release ch_strings ch_released ptr app]; auto. now rewrite <- app_assoc.
    + rewrite nth_overflow by (unfold len in Hn; lia). cbn [ptr app].
      assert (olds (va_cols r) ch = []) as ->.
      { assert (va_ncol r <= j + 1) by lia. clear - H Hi Hn. revert H Hi. generalize (j + 1). induction ch as [|[a w] ch IH]; intros z Hz Hi; auto.
        cbn in *. rewrite nth_overflow by (unfold len in Hn; lia). cbn. apply (IH (a + 1)); tauto || lia. }
      rewrite app_nil_r. now destruct h.
Qed.

Definition va_ok (h : cheap) (r : varr) (cols : list (list Z)) (ts : Z) : Prop :=
  va_ts r = ts /\ va_ncol r = len (va_cols r) /\ length (va_cols r) = length cols /\ accounted h (va_cols r) /\
  forall k, colval (ch_strings h) (nth k (va_cols r) None) = nth k cols [].

Lemma last_index_top ch lo : 0 <= lo -> increasing lo ch -> ch <> [] -> last_index ch = Some (top_col ch - 1).
Proof.
  revert lo. induction ch as [|[j v] ch IH]; intros lo Hlo Hi Hne; [easy|]. cbn in Hi. destruct Hi as [Hj Hi].
  cbn [top_col fold_right fst]. fold (top_col ch). unfold last_index. cbn [rev]. destruct ch as [|[j2 v2] ch].
  - cbn. f_equal. lia.
  - specialize (IH (j + 1) ltac:(lia) Hi ltac:(discriminate)). unfold last_index in IH.
    destruct (rev ((j2, v2) :: ch)) as [|[a b] l] eqn:E; [discriminate|]. cbn [app]. rewrite IH. f_equal.
    cbn [top_col fold_right fst]. cbn in Hi. pose proof (top_nonneg ch). fold (top_col ch). lia.
Qed.
Lemma int16_small x : 0 <= x < 2 ^ 15 -> int16 x = x.
Proof. intros H. unfold int16. rewrite Z.mod_small by lia. destruct (_ <? _) eqn:E; lia. Qed.

Lemma ptrs_none n : ptrs (repeat None n) = [].
Proof. induction n; cbn; auto. Qed.
Lemma ptrs_app a b : ptrs (a ++ b) = ptrs a ++ ptrs b.
Proof. apply flat_map_app. Qed.
Lemma nth_none cols n k : nth k (cols ++ repeat (@None nat) n) None = nth k cols None.
Proof.
  destruct (le_lt_dec (length cols) k) as [L|L].
  - rewrite app_nth2, (nth_overflow cols) by auto. generalize (k - length cols)%nat. induction n; intros [|m]; cbn; auto.
  - now rewrite app_nth1.
Qed.

Lemma va_put_ok h r cols ts ch cols' ts' : va_ok h r cols ts -> increasing 0 ch -> ch <> [] -> updated cols ch cols' -> len cols' < 2 ^ 15 ->
  exists h' r', va_put h r ch ts' = Some (h', r') /\ va_ok h' r' cols' ts'.
Proof.
  intros (Ht & Hn & Hl & Ha & Hc) Hi Hne [Ul Uv] Hb. unfold va_put, va_update.
  rewrite (last_index_top ch 0) by (auto; lia). pose proof (top_nonneg ch) as T.
  assert (L : va_ncol r = len cols) by (rewrite Hn; unfold len; lia). pose proof (len_nonneg cols).
  replace (2 ^ 31 - 1 <=? _) with false by lia. cbv zeta. replace (va_ncol r <? 0) with false by lia.
  replace (top_col ch - 1 + 1) with (top_col ch) by lia. rewrite L, <- Ul.
  replace (firstn (Z.to_nat (len cols)) (va_cols r)) with (va_cols r) by (symmetry; apply firstn_all2; unfold len; lia).
  set (ext := va_cols r ++ repeat None (Z.to_nat (len cols' - len cols))).
  assert (Lx : len ext = len cols') by (unfold ext; rewrite len_app, len_repeat; unfold len in *; lia).
  assert (Px : ptrs ext = ptrs (va_cols r)) by (unfold ext; now rewrite ptrs_app, ptrs_none, app_nil_r).
  assert (Vx : valid h ext). { intros p Hp. apply in_ptrs in Hp. rewrite Px in Hp. apply in_ptrs in Hp. now apply (accounted_valid h (va_cols r)). }
  destruct (va_store_ok ch 0 h ext ltac:(lia) Hi ltac:(lia) Vx) as (news & cs & E & E1 & E2 & E3). rewrite E.
  rewrite (release_updated_ok ch 0) by (auto; lia). cbn [ch_strings ch_released].
  eexists. eexists. split; [reflexivity|]. unfold va_ok. cbn [va_ts va_ncol va_cols]. repeat split.
  - rewrite int16_small by lia. unfold len in *. lia.
  - unfold len in *. lia.
  - unfold accounted in *. cbn [ch_released ch_strings].
    assert (Eo : olds ext ch = olds (va_cols r) ch) by (apply (olds_ext (va_cols r) ext ch 0); auto; [|lia]; intros; unfold ext; apply nth_none).
    rewrite Eo, Px in E2. rewrite (Permutation_app_comm (ch_released h)), app_assoc, E2, <- app_assoc, (Permutation_app_comm (seq _ _)), app_assoc, Ha.
    rewrite app_length, seq_app. reflexivity.
  - intros k. rewrite E3. rewrite Uv. destruct (lookup _ ch); auto. cbn [ch_strings]. rewrite <- Hc. f_equal. apply nth_none.
Qed.

Lemma release_fold cols : forall h, fold_left release cols h = MkCheap (ch_strings h) (ch_released h ++ ptrs cols).
Proof.
  induction cols as [|c cols IH]; intros h; cbn [fold_left ptrs flat_map]; [rewrite app_nil_r; now destruct h|].
  rewrite IH. destruct c; cbn [release ch_strings ch_released ptr app]; auto. now rewrite <- app_assoc.
Qed.

Lemma create1_accounted h v : Permutation (ch_released h) (seq 0 (length (ch_strings h))) -> accounted (fst (make_column h v)) [snd (make_column h v)].
Proof.
  intros Hp. destruct (make_column_ok h v) as (n1 & M1 & M2 & M3 & M4). unfold accounted. rewrite M1, M2. cbn [ptrs flat_map]. rewrite app_nil_r, M3, app_length, seq_app, <- Hp.
  apply Permutation_app_comm.
Qed.

Lemma va_replace_ok h r cols ts v ts' : va_ok h r cols ts -> exists h' r', va_replace h r v ts' = (h', r') /\ va_ok h' r' [v] ts'.
Proof.
  intros (Ht & Hn & Hl & Ha & Hc). unfold va_replace, va_create1, va_deallocate, release_all. rewrite firstn_all2 by (rewrite Hn; unfold len; lia).
  rewrite release_fold. set (h0 := MkCheap _ _). pose proof (create1_accounted h0 v) as A.
  destruct (make_column_ok h0 v) as (n1 & M1 & M2 & M3 & M4). destruct (make_column h0 v) as [h' c]. cbn [fst snd] in *.
  eexists. eexists. split; [reflexivity|]. unfold va_ok. cbn [va_ts va_ncol va_cols length]. repeat split.
  - apply A. cbn [h0 ch_released ch_strings]. unfold accounted in Ha. rewrite Permutation_app_comm. exact Ha.
  - intros [|k]; [|now destruct k]. cbn [nth]. rewrite M1, <- (app_nil_r n1). apply M4.
Qed.

Lemma empty_ok : va_ok cheap_empty va_empty [] 0.
Proof. unfold va_ok, accounted. cbn. repeat (split; auto). intros [|k]; reflexivity. Qed.
Lemma create_put ch ts : increasing 0 ch -> va_create cheap_empty ch ts = va_put cheap_empty va_empty ch ts.
Proof.
  intros Hi. unfold va_create, va_put. destruct (va_update cheap_empty va_empty ch ts) as [[h' r']|]; auto.
  destruct ch as [|[j v] ch]; auto. cbn [va_release_updated va_ncol va_empty]. change (0 mod 2 ^ 32) with 0.
  cbn in Hi. now replace (j <? 0) with false by lia.
Qed.

Lemma va_run_ok hist : hist <> [] -> Forall (fun o => rop_ok (fst o) /\ put_nonempty (fst o)) hist -> throughout fits_short (map fst hist) ->
  exists h r, va_run hist = Some (h, r) /\ va_ok h r (row_after (map fst hist)) (snd (hd (RPut [], 0) hist)).
Proof.
  induction hist as [|[o ts] older IH]; intros Hne Ho Hf; [easy|]. inversion Ho as [|? ? [O1 O2] Ho2]; subst. cbn [map fst throughout hd snd] in *. destruct Hf as [F Ff].
  assert (Fl : len (row_after (o :: map fst older)) < 2 ^ 15) by (rewrite row_after_len; exact F).
  destruct older as [|o2 older2].
  - destruct o as [ch|v]; cbn [va_run].
    + rewrite create_put by exact O1. apply (va_put_ok cheap_empty va_empty [] 0 ch); auto using empty_ok. { cbn in O2. now destruct ch. } apply (row_after_put ch []).
    + destruct (va_replace_ok cheap_empty va_empty [] 0 v ts empty_ok) as (h' & r' & E & K). exists h', r'. split; [|exact K]. f_equal. exact E.
  - destruct (IH ltac:(discriminate) Ho2 Ff) as (h & r & E & K).
    assert (X : va_run ((o, ts) :: o2 :: older2) = (x <- va_run (o2 :: older2); let '(h, r) := x in match o with RPut ch => va_put h r ch ts | RReplace v => Some (va_replace h r v ts) end)) by (destruct o; reflexivity).
    rewrite X, E. destruct o as [ch|v].
    + eapply va_put_ok; eauto using row_after_put. cbn in O2. now destruct ch.
    + destruct (va_replace_ok h r _ _ v ts K) as (h' & r' & E' & K'). exists h', r'. split; [now f_equal|exact K'].
Qed.

Lemma in_existsb p l : existsb (Nat.eqb p) l = true <-> In p l.
Proof. rewrite existsb_exists. split; [intros (x & H & E); apply Nat.eqb_eq in E; now subst|]. intros H. exists p. split; auto. apply Nat.eqb_refl. Qed.

Lemma arr_col_ok h ncol cols (vs : list (list Z)) i : ncol = len cols -> ncol < 2 ^ 15 -> length cols = length vs -> accounted h cols ->
  (forall k, colval (ch_strings h) (nth k cols None) = nth k vs []) -> 0 <= i < 2 ^ 31 -> arr_col h ncol cols i = Some (nth (Z.to_nat i) vs []).
Proof.
  intros Hn Hb Hl Ha Hc Hi. unfold arr_col. pose proof (len_nonneg cols). rewrite !Z.mod_small by lia. destruct (i <? ncol) eqn:E.
  - unfold cols_at. replace (0 <=? i) with true by lia. rewrite (nth_error_nth' cols None) by (unfold len in Hn; lia).
    rewrite <- Hc. destruct (nth (Z.to_nat i) cols None) as [p|] eqn:Ep; auto. cbn [colval].
    pose proof (valid_nth h cols _ _ (accounted_valid _ _ Ha) Ep) as Hp. unfold load.
    assert (N : existsb (Nat.eqb p) (ch_released h) = false).
    { destruct (existsb _ _) eqn:X; auto. exfalso. apply in_existsb in X.
      assert (Hin : In p (ptrs cols)). { apply in_ptrs. rewrite <- Ep. apply nth_In. unfold len in Hn. lia. }
      assert (D : NoDup (ptrs cols ++ ch_released h)) by (eapply Permutation_NoDup; [symmetry; exact Ha|apply seq_NoDup]).
      clear - D Hin X. induction (ptrs cols) as [|q l IH]; [easy|]. cbn in D. inversion D; subst. destruct Hin as [->|Hin]; auto. apply H1. apply in_or_app. auto. }
    rewrite N. now apply nth_error_nth'.
  - rewrite nth_overflow; auto. unfold len in Hn. lia.
Qed.

Lemma accounted_exact h cols : accounted h cols -> NoDup (ch_released h) /\
  forall p, (p < length (ch_strings h))%nat -> (In p (ch_released h) <-> ~ In (Some p) cols).
Proof.
  intros Ha. assert (D : NoDup (ptrs cols ++ ch_released h)) by (eapply Permutation_NoDup; [symmetry; exact Ha|apply seq_NoDup]).
  split. { clear Ha. induction (ptrs cols); auto. inversion D; auto. }
  intros p Hp. rewrite in_ptrs. split.
  - intros H1 H2. clear Ha. induction (ptrs cols) as [|q l IH]; [easy|]. inversion D; subst. destruct H2 as [->|H2]; auto. apply H3. apply in_or_app. auto.
  - intros Hn. assert (In p (ptrs cols ++ ch_released h)) as Hin. { rewrite Ha. apply in_seq. lia. }
    apply in_app_or in Hin. tauto.
Qed.

Lemma va_history hist : hist <> [] -> Forall (fun o => rop_ok (fst o) /\ put_nonempty (fst o)) hist -> throughout fits_short (map fst hist) ->
  exists h r, va_run hist = Some (h, r) /\ va_ts r = snd (hd (RPut [], 0) hist) /\
  (forall i, 0 <= i < 2 ^ 31 -> va_col h r i = Some (last_written (map fst hist) i)) /\
  NoDup (ch_released h) /\ forall p, (p < length (ch_strings h))%nat -> (In p (ch_released h) <-> ~ In (Some p) (va_cols r)).
Proof.
  intros Hne Ho Hf. destruct (va_run_ok hist Hne Ho Hf) as (h & r & E & (Ht & Hn & Hl & Ha & Hc)). exists h, r.
  assert (Fl : len (row_after (map fst hist)) < 2 ^ 15) by (rewrite row_after_len; destruct hist; [easy|apply Hf]).
  split; auto. split; auto. split; [|now apply accounted_exact]. intros i Hi. unfold va_col.
  rewrite (arr_col_ok h (va_ncol r) (va_cols r) (row_after (map fst hist)) i) by (auto; rewrite Hn; unfold len in *; lia).
  rewrite row_after_nth. now rewrite Z2Nat.id by lia.
Qed.

(* ------------------------------------------------------------------ value_versioned_array *)
Lemma nth_skipn' {A} (l : list A) n k d : nth k (skipn n l) d = nth (n + k) l d.
Proof. revert n. induction l as [|x l IH]; intros [|n]; cbn; auto. now destruct k. Qed.
Lemma perm_swap3 (a b c : list nat) : Permutation (a ++ b ++ c) (b ++ a ++ c).
Proof. rewrite !app_assoc. apply Permutation_app_tail, Permutation_app_comm. Qed.

Lemma vv_store_ok ch : forall lo h cols, 0 <= lo -> increasing lo ch -> top_col ch <= len cols -> accounted h cols ->
  exists h' cols', vv_store h cols ch = Some (h', cols') /\ length cols' = length cols /\ accounted h' cols' /\
  forall k, colval (ch_strings h') (nth k cols' None) = match lookup (Z.of_nat k) ch with Some v => v | None => colval (ch_strings h) (nth k cols None) end.
Proof.
  induction ch as [|[j v] ch IH]; intros lo h cols Hlo Hi Ht Ha; cbn [vv_store].
  - exists h, cols. auto.
  - cbn [increasing top_col fold_right fst] in *. fold (top_col ch) in Ht. destruct Hi as [Hj Hi].
    assert (Hjl : (Z.to_nat j < length cols)%nat) by (unfold len in Ht; lia).
    unfold cols_at. replace (0 <=? j) with true by lia. rewrite (nth_error_nth' cols None) by auto. set (c := nth (Z.to_nat j) cols None).
    assert (R1 : ch_strings (release h c) = ch_strings h) by (now destruct c).
    assert (R2 : ch_released (release h c) = ch_released h ++ ptr c) by (destruct c; auto; cbn; now rewrite app_nil_r).
    destruct (make_column_ok (release h c) v) as (n1 & M1 & M2 & M3 & M4). destruct (make_column (release h c) v) as [h1 c1] eqn:Em. cbn [fst snd] in *.
    destruct (cols_set_ok cols (Z.to_nat j) c1 Hjl) as (cols1 & -> & Hl1 & Hn1 & Hp1). fold c in Hp1. rewrite R1 in *. rewrite R2 in *.
    assert (A1 : accounted h1 cols1).
    { unfold accounted in *. rewrite M1, M2. rewrite (Permutation_app_comm (ch_released h)), app_assoc, (Permutation_app_comm (ptrs cols1)), Hp1, <- app_assoc, Ha, M3, app_length, seq_app.
      apply Permutation_app_comm. }
    destruct (IH (j + 1) h1 cols1 ltac:(lia) Hi ltac:(unfold len in *; lia) A1) as (h' & cols' & E & Hl & Hp & Hc).
    exists h', cols'. split; auto. split; [lia|]. split; auto. intros k. rewrite Hc. cbn [lookup]. destruct (j =? Z.of_nat k) eqn:Ej.
    + assert (lookup (Z.of_nat k) ch = None) as ->.
      { clear - Hi Ej. assert (Z.of_nat k < j + 1) by lia. clear Ej. revert H. generalize dependent (j + 1). induction ch as [|[a w] ch IH]; intros z Hi Hz; auto.
        cbn in *. replace (a =? Z.of_nat k) with false by lia. apply (IH (a + 1)); tauto || lia. }
      rewrite Hn1. replace (k =? Z.to_nat j)%nat with true by lia. rewrite M1. rewrite <- (app_nil_r n1). apply M4.
    + destruct (lookup (Z.of_nat k) ch); auto. rewrite Hn1. replace (k =? Z.to_nat j)%nat with false by lia.
      rewrite M1. apply colval_more. intros p Ep. apply (valid_nth _ _ _ _ (accounted_valid _ _ Ha) Ep).
Qed.

Lemma vv_store_above ch : forall lo h cols h' cs m, 0 <= lo -> increasing lo ch -> top_col ch <= len cols -> (Z.to_nat (top_col ch) <= m)%nat ->
  vv_store h cols ch = Some (h', cs) -> skipn m cs = skipn m cols.
Proof.
  induction ch as [|[j v] ch IH]; intros lo h cols h' cs m Hlo Hi Ht Hm E; cbn [vv_store] in E; [now injection E as _ <-|].
  cbn [increasing top_col fold_right fst] in *. fold (top_col ch) in *. destruct Hi as [Hj Hi]. unfold cols_at in E. destruct (0 <=? j); [|discriminate].
  destruct (nth_error cols (Z.to_nat j)) as [c|] eqn:En; [|discriminate]. destruct (make_column (release h c) v) as [h1 c1].
  assert (Hjl : (Z.to_nat j < length cols)%nat) by (unfold len in Ht; lia).
  destruct (cols_set_ok cols (Z.to_nat j) c1 Hjl) as (cols1 & Es & Hl1 & Hn1 & _). rewrite Es in E.
  rewrite (IH (j + 1) h1 cols1 h' cs m) by (auto; unfold len in *; lia).
  apply nth_ext with (d := None) (d' := None); [rewrite !skipn_length; lia|]. intros k _. rewrite !nth_skipn', Hn1. now replace (m + k =? Z.to_nat j)%nat with false by lia.
Qed.
Lemma skipn_skipn' {A} (l : list A) a b : skipn a (skipn b l) = skipn (a + b) l.
Proof. revert l. induction b as [|b IH]; intros l; [now rewrite Nat.add_0_r|]. rewrite Nat.add_succ_r. destruct l; cbn [skipn]; auto. now destruct a. Qed.
Lemma skipn_repeat {A} (x : A) n m : skipn m (repeat x n) = repeat x (n - m).
Proof. revert m. induction n; intros [|m]; cbn; auto. Qed.

(* Every column pointer beyond ncol_ is null, and every pointer is within the capacity. *)
Definition vv_ok (h : cheap) (r : vver) (cols : list (list Z)) : Prop :=
  vv_ncol r = len cols /\ vv_ncol r <= vv_cap r < 2 ^ 15 /\ vv_cap r = len (vv_cols r) /\
  ptrs (skipn (length cols) (vv_cols r)) = [] /\ accounted h (vv_cols r) /\
  forall k, colval (ch_strings h) (nth k (vv_cols r) None) = nth k cols [].

Lemma ptrs_nil cols : ptrs cols = [] -> cols = repeat None (length cols).
Proof. induction cols as [|[p|] cols IH]; cbn; intros H; [easy|easy|]. f_equal. auto. Qed.

Lemma vv_put_ok h r cols ch cols' ts' : vv_ok h r cols -> increasing 0 ch -> ch <> [] -> updated cols ch cols' -> len cols' < 2 ^ 15 ->
  exists h' r', vv_put h r ch ts' = Some (h', r') /\ vv_ok h' r' cols' /\ vv_ts r' = (if vv_cap r <? top_col ch then ts' else vv_ts r).
Proof.
  intros (Hn & Hcap & Hl & Hz & Ha & Hc) Hi Hne [Ul Uv] Hb. unfold vv_put, vv_update.
  rewrite (last_index_top ch 0) by (auto; lia). pose proof (top_nonneg ch) as T. pose proof (len_nonneg cols).
  replace (2 ^ 31 - 1 <=? _) with false by lia. cbv zeta. replace (top_col ch - 1 + 1) with (top_col ch) by lia. rewrite orb_false_r.
  set (base := firstn (Z.to_nat (vv_ncol r)) (vv_cols r)).
  assert (Sp : vv_cols r = base ++ repeat None (length (vv_cols r) - length cols)).
  { rewrite <- (firstn_skipn (Z.to_nat (vv_ncol r)) (vv_cols r)) at 1. fold base. f_equal. rewrite Hn in *. replace (Z.to_nat (len cols)) with (length cols) by (unfold len; lia).
    rewrite (ptrs_nil _ Hz) at 1. now rewrite skipn_length. }
  assert (Lb : length base = length cols) by (unfold base; rewrite firstn_length; unfold len in *; lia).
  assert (Pb : ptrs (vv_cols r) = ptrs base) by (rewrite Sp at 1; now rewrite ptrs_app, ptrs_none, app_nil_r).
  assert (Nb : forall k, nth k (vv_cols r) None = nth k base None) by (intros k; rewrite Sp at 1; apply nth_none).
  destruct (vv_cap r <? top_col ch) eqn:Ecap.
  - replace (vv_ncol r <? 0) with false by lia. replace (top_col ch <? vv_ncol r) with false by lia. cbn [orb].
    set (ext := base ++ repeat None (Z.to_nat (top_col ch - vv_ncol r))).
    assert (Lx : len ext = top_col ch) by (unfold ext; rewrite len_app, len_repeat; unfold len in *; lia).
    assert (Ax : accounted h ext) by (unfold accounted, ext in *; rewrite ptrs_app, ptrs_none, app_nil_r, <- Pb; exact Ha).
    destruct (vv_store_ok ch 0 h ext ltac:(lia) Hi ltac:(lia) Ax) as (h' & cs & -> & E1 & E2 & E3).
    eexists. eexists. split; [reflexivity|]. cbn [vv_ts]. split; [|reflexivity]. unfold vv_ok. cbn [vv_ncol vv_cap vv_cols].
    assert (Lt : len cols' = top_col ch) by lia. rewrite int16_small by lia.
    split; [lia|]. split; [lia|]. split; [unfold len in *; lia|]. split; [rewrite skipn_all2; auto; unfold len in *; lia|]. split; auto.
    intros k. rewrite E3, Uv. destruct (lookup _ ch); auto. rewrite <- Hc, Nb. unfold ext. now rewrite nth_none.
  - set (ext := if vv_ncol r <? top_col ch then _ else _).
    assert (Ex : ext = vv_cols r).
    { unfold ext. destruct (vv_ncol r <? top_col ch) eqn:E; auto. rewrite Sp at 2. fold base. f_equal. rewrite Sp at 1. rewrite skipn_app, (skipn_all2 base) by (unfold len in *; lia). cbn [app].
      replace (Z.to_nat (top_col ch) - length base)%nat with (Z.to_nat (top_col ch - vv_ncol r)) by (unfold len in *; lia).
      replace (length (vv_cols r) - length cols)%nat with (Z.to_nat (top_col ch - vv_ncol r) + (length (vv_cols r) - length cols - Z.to_nat (top_col ch - vv_ncol r)))%nat by (unfold len in *; lia).
      rewrite repeat_app, skipn_app, skipn_all2 by (rewrite repeat_length; lia). rewrite repeat_length, Nat.sub_diag. reflexivity. }
    rewrite Ex. destruct (vv_store_ok ch 0 h (vv_cols r) ltac:(lia) Hi ltac:(lia) Ha) as (h' & cs & E0 & E1 & E2 & E3). rewrite E0.
    eexists. eexists. split; [reflexivity|]. cbn [vv_ts]. split; [|reflexivity]. unfold vv_ok. cbn [vv_ncol vv_cap vv_cols].
    assert (Ln : (if vv_ncol r <? top_col ch then int16 (top_col ch) else vv_ncol r) = len cols').
    { destruct (vv_ncol r <? top_col ch) eqn:E.
      - rewrite int16_small; lia.
      - lia. }
    rewrite Ln. split; [lia|]. split; [lia|]. split; [unfold len in *; lia|]. split; [|split]; auto.
    2:{ intros k. rewrite E3, Uv. destruct (lookup _ ch); auto. }
    rewrite (vv_store_above ch 0 h (vv_cols r) h' cs (length cols') ltac:(lia) Hi ltac:(lia) ltac:(unfold len in *; lia) E0).
    replace (length cols') with (length cols + (length cols' - length cols))%nat by (unfold len in *; lia).
    rewrite (Nat.add_comm (length cols)), <- skipn_skipn'. rewrite (ptrs_nil _ Hz). rewrite skipn_repeat. apply ptrs_none.
Qed.

Lemma vv_replace_ok h r cols v ts' : vv_ok h r cols -> exists h' r', vv_replace h r v ts' = (h', r') /\ vv_ok h' r' [v] /\ vv_ts r' = ts'.
Proof.
  intros (Hn & Hcap & Hl & Hz & Ha & Hc). unfold vv_replace, vv_create1, vv_deallocate, release_all.
  rewrite release_fold. set (h0 := MkCheap _ _). pose proof (create1_accounted h0 v) as A.
  destruct (make_column_ok h0 v) as (n1 & M1 & M2 & M3 & M4). destruct (make_column h0 v) as [h' c]. cbn [fst snd] in *.
  eexists. eexists. split; [reflexivity|]. split; [|reflexivity]. unfold vv_ok. cbn [vv_ncol vv_cap vv_cols length].
  split; [reflexivity|]. split; [lia|]. split; [reflexivity|]. split; [reflexivity|]. split.
  - apply A. cbn [h0 ch_released ch_strings]. unfold accounted in Ha. rewrite Permutation_app_comm.
    replace (Z.to_nat (vv_ncol r)) with (length cols) by (unfold len in Hn; lia).
    rewrite <- (firstn_skipn (length cols) (vv_cols r)), ptrs_app, Hz, app_nil_r in Ha. exact Ha.
  - intros [|k]; [|now destruct k]. cbn [nth]. rewrite M1, <- (app_nil_r n1). apply M4.
Qed.

Lemma vv_empty_ok : vv_ok cheap_empty vv_empty [].
Proof. unfold vv_ok, accounted. cbn. repeat (split; auto); try lia. intros [|k]; reflexivity. Qed.
Lemma vv_create_put ch ts : increasing 0 ch -> vv_create cheap_empty ch ts = vv_put cheap_empty vv_empty ch ts.
Proof.
  intros Hi. unfold vv_create, vv_put, vv_update. destruct ch as [|c ch]; auto. rewrite (last_index_top _ 0) by (auto; try lia; discriminate).
  destruct (_ <=? _); auto. cbn [vv_cap vv_empty]. cbn zeta. rewrite orb_true_r.
  assert (0 < top_col (c :: ch)). { destruct c as [j v]. cbn in Hi. cbn [top_col fold_right fst]. fold (top_col ch). lia. }
  now replace (0 <? top_col (c :: ch) - 1 + 1) with true by lia.
Qed.

Lemma vv_run_ok hist : hist <> [] -> Forall (fun o => rop_ok (fst o) /\ put_nonempty (fst o)) hist -> throughout fits_short (map fst hist) ->
  exists h r, vv_run hist = Some (h, r) /\ vv_ok h r (row_after (map fst hist)).
Proof.
  induction hist as [|[o ts] older IH]; intros Hne Ho Hf; [easy|]. inversion Ho as [|? ? [O1 O2] Ho2]; subst. cbn [map fst throughout hd snd] in *. destruct Hf as [F Ff].
  assert (Fl : len (row_after (o :: map fst older)) < 2 ^ 15) by (rewrite row_after_len; exact F).
  destruct older as [|o2 older2].
  - destruct o as [ch|v]; cbn [vv_run].
    + rewrite vv_create_put by exact O1. destruct (vv_put_ok cheap_empty vv_empty [] ch (row_after [RPut ch]) ts vv_empty_ok O1) as (h & r & E & K & _); auto.
      { cbn in O2. now destruct ch. } { apply (row_after_put ch []). } exists h, r. auto.
    + destruct (vv_replace_ok cheap_empty vv_empty [] v ts vv_empty_ok) as (h' & r' & E & K & _). exists h', r'. split; [|exact K]. f_equal. exact E.
  - destruct (IH ltac:(discriminate) Ho2 Ff) as (h & r & E & K).
    assert (X : vv_run ((o, ts) :: o2 :: older2) = (x <- vv_run (o2 :: older2); let '(h, r) := x in match o with RPut ch => vv_put h r ch ts | RReplace v => Some (vv_replace h r v ts) end)) by (destruct o; reflexivity).
    rewrite X, E. destruct o as [ch|v].
    + destruct (vv_put_ok h r _ ch (row_after (RPut ch :: map fst (o2 :: older2))) ts K O1) as (h' & r' & E' & K' & _); auto using row_after_put.
      { cbn in O2. now destruct ch. } exists h', r'. auto.
    + destruct (vv_replace_ok h r _ v ts K) as (h' & r' & E' & K' & _). exists h', r'. split; [now f_equal|exact K'].
Qed.

Lemma vv_history hist : hist <> [] -> Forall (fun o => rop_ok (fst o) /\ put_nonempty (fst o)) hist -> throughout fits_short (map fst hist) ->
  exists h r, vv_run hist = Some (h, r) /\
  (forall i, 0 <= i < 2 ^ 31 -> vv_col h r i = Some (last_written (map fst hist) i)) /\
  NoDup (ch_released h) /\ forall p, (p < length (ch_strings h))%nat -> (In p (ch_released h) <-> ~ In (Some p) (vv_cols r)).
Proof.
  intros Hne Ho Hf. destruct (vv_run_ok hist Hne Ho Hf) as (h & r & E & (Hn & Hcap & Hl & Hz & Ha & Hc)). exists h, r.
  split; auto. split; [|now apply accounted_exact]. intros i Hi. unfold vv_col, arr_col.
  set (vs := row_after (map fst hist)) in *. pose proof (len_nonneg vs).
  rewrite !Z.mod_small by lia. destruct (i <? vv_ncol r) eqn:E1.
  - pose proof (arr_col_ok h (len (vv_cols r)) (vv_cols r) (vs ++ repeat [] (length (vv_cols r) - length vs)) i eq_refl) as G.
    unfold arr_col in G. rewrite !Z.mod_small in G by lia. replace (i <? len (vv_cols r)) with true in G by lia. rewrite G; auto; try lia.
    + rewrite app_nth1 by (unfold len in *; lia). unfold vs. rewrite row_after_nth. now rewrite Z2Nat.id by lia.
    + rewrite app_length, repeat_length. unfold len in *. lia.
    + intros k. rewrite Hc. destruct (le_lt_dec (length vs) k) as [L|L]; [|now rewrite app_nth1].
      rewrite app_nth2, nth_overflow by auto. symmetry. apply nth_repeat.
  - rewrite written_above; auto. rewrite <- row_after_len. fold vs. lia.
Qed.

Lemma first_snapshot h r f : (f = [] \/ exists a b l, f = a :: b :: l) -> 0 <= vv_ncol r <= len (vv_cols r) -> len (vv_cols r) < 2 ^ 15 ->
  exists s, vv_snapshot h r None f = Some (h, s) /\ vv_ncol s = vv_ncol r /\ forall i, vv_col h s i = vv_col h r i.
Proof.
  intros Hf Hn Hl. unfold vv_snapshot. set (n := Z.to_nat (vv_ncol r)). rewrite (skipn_all2 (n := n) (vv_cols (MkVver _ _ _ _))) by (cbn [vv_cols]; rewrite repeat_length; lia).
  rewrite app_nil_r.
  exists (MkVver (vv_ts r) (vv_ncol r) (vv_ncol r) (firstn n (vv_cols r))). split; [destruct Hf as [->|(a & b & l & ->)]; reflexivity|].
  split; [reflexivity|]. intros i. unfold vv_col, arr_col. cbn [vv_ncol vv_cols]. rewrite (Z.mod_small (vv_ncol r)) by lia.
  pose proof (Z.mod_pos_bound i (2 ^ 32)). destruct (_ <? _) eqn:E; auto. unfold cols_at. replace (0 <=? i mod 2 ^ 32) with true by lia.
  assert (N : forall n (l : list (option nat)) k, (k < n)%nat -> nth_error (firstn n l) k = nth_error l k). { clear. induction n; intros [|x l] [|k] Hk; cbn; auto; try lia. apply IHn. lia. }
  rewrite N by (unfold n; lia). reflexivity.
Qed.

Lemma short_wraps : exists h r, va_create cheap_empty [(2 ^ 15 - 1, [1])] 2 = Some (h, r) /\ va_col h r (2 ^ 15) = None.
Proof.
  assert (E : match va_create cheap_empty [(2 ^ 15 - 1, [1])] 2 with Some (h, r) => match va_col h r (2 ^ 15) with None => true | _ => false end | None => false end = true) by (vm_compute; reflexivity).
  destruct (va_create _ _ _) as [[h r]|]; [|discriminate]. exists h, r. split; [reflexivity|]. destruct (va_col _ _ _); [discriminate|reflexivity].
Qed.
