(* update of a bag row. *)
From Verif Require Import Lib M_Key P_Key M_Bag Spec_Row P_Row P_Bag1.

Lemma nth_slice c k : forall j (l : list (list Z)), (j < k)%nat -> nth j (firstn k (skipn c l)) [] = nth (c + j) l [].
Proof.
  induction c as [|c IH]; intros j l Hj.
  - cbn [skipn Nat.add]. revert j Hj l. induction k as [|k IH]; intros j Hj l; [lia|]. destruct l, j; cbn; auto. apply IH. lia.
  - destruct l as [|x l]; [cbn [skipn]; rewrite firstn_nil; now destruct j|]. now apply IH.
Qed.
Lemma nth_ext_slice (a b : list (list Z)) c k : (c + k <= length a)%nat -> (c + k <= length b)%nat ->
  (forall i, (c <= i < c + k)%nat -> nth i a [] = nth i b []) -> firstn k (skipn c a) = firstn k (skipn c b).
Proof.
  intros Ha Hb H. apply (nth_ext _ _ [] []); rewrite !firstn_length, !skipn_length; [lia|].
  intros j Hj. rewrite !nth_slice by lia. apply H. lia.
Qed.

Lemma lookup_above ch : forall lo i, increasing lo ch -> i < lo -> lookup i ch = None.
Proof.
  induction ch as [|[j v] ch IH]; intros lo i Hi Hlt; auto. cbn in *. destruct Hi as [Hj Hi].
  replace (j =? i) with false by lia. apply (IH (j + 1)); auto. lia.
Qed.
Lemma top_lookup ch : forall lo, increasing lo ch -> forall i, 0 <= i -> top_col ch <= i -> lookup i ch = None.
Proof.
  induction ch as [|[j v] ch IH]; intros lo Hi i Hi0 Ht; auto. cbn in *. fold (top_col ch) in Ht. destruct Hi as [Hj Hi].
  replace (j =? i) with false by lia. apply (IH (j + 1)); auto. lia.
Qed.

Section Upd.
Variable ts : Z.
Variables cols new : list (list Z).
Hypothesis F : fits16 cols.
Hypothesis F' : fits16 new.
Let n0 := length cols.
Let n := length new.
Hypothesis Hn : (n0 <= n)%nat.
Let h := hd_size n.
Let h0 := hd_size n0.
Let total := len (concat new).
Let b := bag_of ts cols.

(* The row after c columns are complete. *)
Let row (c : nat) : list (option Z) := part n total (starts h new c) (concat (firstn c new)).

Lemma pos_small i : 0 <= h + st new i < 2 ^ 16.
Proof.
  pose proof (st_le new i). pose proof (st_nonneg new i). unfold fits16, image_size in F'. fold n in F'. fold h in F'.
  unfold h, hd_size in *. lia.
Qed.
Lemma st_total i : st new i <= total. Proof. apply st_le. Qed.

Lemma firstn_add (l : list (list Z)) c k : firstn (c + k) l = firstn c l ++ firstn k (skipn c l).
Proof. revert l. induction c; intros [|x l]; cbn; auto. - now rewrite firstn_nil. - now rewrite IHc. Qed.

Section Run.
Variables c k : nat.
Hypothesis Hk : (c + k <= n0)%nat.
Hypothesis Same : forall i, (c <= i < c + k)%nat -> nth i new [] = nth i cols [].

Lemma slice_eq j : (j <= k)%nat -> firstn j (skipn c new) = firstn j (skipn c cols).
Proof. intros. apply nth_ext_slice; fold n0; fold n; try lia. intros. apply Same. lia. Qed.
Lemma shift j : (j <= k)%nat -> h0 + st cols (c + j) + ((h + st new c) - (h0 + st cols c)) = h + st new (c + j).
Proof. intros. rewrite !st_add, slice_eq by auto. lia. Qed.

Lemma copy_pos_ok j : (j <= k)%nat -> forall d,
  copy_pos b (part n total (starts h new (c + (k - j))) d) (Z.of_nat (c + (k - j))) j ((h + st new c) - (h0 + st cols c)) =
  Some (part n total (starts h new (c + k)) d).
Proof.
  induction j as [|j IH]; intros Hj d.
  - cbn [copy_pos]. now rewrite Nat.sub_0_r.
  - cbn [copy_pos]. unfold b. rewrite pos_of by (fold n0; auto; lia). fold n0. fold h0. rewrite (shift (k - S j)) by lia.
    pose proof (part_pos n total (starts h new (c + (k - S j))) d (h + st new (c + (k - S j)))) as P.
    rewrite starts_len in P. rewrite P by (auto using pos_small; lia). rewrite <- starts_S.
    replace (S (c + (k - S j))) with (c + (k - j))%nat by lia. fold b.
    replace (Z.of_nat (c + (k - S j)) + 1) with (Z.of_nat (c + (k - j))) by lia. apply IH. lia.
Qed.
Lemma copy_run_ok : (0 < k)%nat -> forall this, Z.of_nat c <> this -> Z.min this (Z.of_nat n0) = Z.of_nat (c + k) ->
  copy_run b (Z.of_nat n0) (row c) (h + st new c) (Z.of_nat c) this = Some (row (c + k), h + st new (c + k), Z.of_nat (c + k)).
Proof.
  intros Hk0 this Ht Hm. unfold copy_run. replace (_ && _) with true by lia. rewrite Hm. cbv zeta.
  unfold b. rewrite pos_of by (fold n0; auto; lia). fold n0. fold h0.
  assert (E : (if h + st new c - (h0 + st cols c) =? 0
     then match rd (bg_s (bag_of ts cols)) (2 + 2 * Z.of_nat c) (2 * (Z.of_nat (c + k) - Z.of_nat c)) with
          | Some src => wr (row c) (2 + 2 * Z.of_nat c) src | None => None end
     else copy_pos (bag_of ts cols) (row c) (Z.of_nat c) (Z.to_nat (Z.of_nat (c + k) - Z.of_nat c)) (h + st new c - (h0 + st cols c)))
     = Some (part n total (starts h new (c + k)) (concat (firstn c new)))).
  { destruct (_ =? 0) eqn:E0.
    - replace (2 * (Z.of_nat (c + k) - Z.of_nat c)) with (2 * Z.of_nat k) by lia. cbn [bag_of bg_s].
      rewrite pos_rd by (fold n0; auto). fold n0. fold h0. unfold row.
      pose proof (part_tab n total (starts h new c) (map (fun i => h0 + st cols i) (seq c k)) (concat (firstn c new))) as P.
      rewrite starts_len in P. rewrite P by (rewrite len_map; unfold len; rewrite seq_length; lia). f_equal. f_equal. rewrite starts_add. f_equal.
      apply map_ext_in. intros i Hi. apply in_seq in Hi. pose proof (shift (i - c)) as S. replace (c + (i - c))%nat with i in S by lia. lia.
    - replace (Z.to_nat _) with k by lia. pose proof (copy_pos_ok k ltac:(lia) (concat (firstn c new))) as P. rewrite Nat.sub_diag, Nat.add_0_r in P. exact P. }
  rewrite E. rewrite pos_of by (fold n0; auto; lia). fold n0. fold h0. cbn [bag_of bg_s].
  replace (h0 + st cols (c + k) - (h0 + st cols c)) with (st cols (c + k) - st cols c) by lia.
  pose proof (data_rd cols c k) as D. fold n0 in D. fold h0 in D. rewrite D by auto.
  rewrite <- slice_eq by auto.
  pose proof (part_data n total (starts h new (c + k)) (concat (firstn c new)) (concat (firstn k (skipn c new)))) as P.
  rewrite starts_len in P. fold h in P. change (len (concat (firstn c new))) with (st new c) in P.
  rewrite P; [|lia|].
  - rewrite <- concat_app, <- firstn_add. f_equal. f_equal. f_equal.
    rewrite !st_add, slice_eq by auto. lia.
  - rewrite <- st_add. apply st_total.
Qed.
End Run.

Lemma pad_ok k : forall c fuel, (c + k <= n)%nat -> (k <= fuel)%nat -> (forall i, (c <= i < c + k)%nat -> nth i new [] = []) ->
  pad_pos fuel (row c) (Z.of_nat c) (Z.of_nat (c + k)) (h + st new c) = Some (row (c + k), Z.of_nat (c + k)).
Proof.
  induction k as [|k IH]; intros c fuel Hc Hf He.
  - rewrite Nat.add_0_r. destruct fuel; cbn [pad_pos]; now rewrite Z.eqb_refl.
  - destruct fuel as [|fuel]; [lia|]. cbn [pad_pos]. replace (_ =? _) with false by lia.
    assert (Ec : concat (firstn (S c) new) = concat (firstn c new)).
    { replace (S c) with (c + 1)%nat by lia. rewrite firstn_add, concat_app, concat_one, He by lia. apply app_nil_r. }
    assert (Es : st new (S c) = st new c) by (unfold st; now rewrite Ec).
    unfold row at 1. pose proof (part_pos n total (starts h new c) (concat (firstn c new)) (h + st new c)) as P.
    rewrite starts_len in P. rewrite P by (auto using pos_small; lia). rewrite <- starts_S.
    assert (Hn' : Z.of_nat n < 2 ^ 16) by (pose proof (pos_small 0); rewrite st_0 in *; unfold h, hd_size in *; lia).
    rewrite Z.mod_small by lia. replace (Z.of_nat c + 1) with (Z.of_nat (S c)) by lia.
    replace (c + S k)%nat with (S c + k)%nat by lia. rewrite <- Es. rewrite <- IH with (fuel := fuel); [|lia|lia|intros; apply He; lia].
    unfold row. now rewrite Ec.
Qed.

Lemma row_len c : (c <= S n)%nat -> len (row c) = h + total.
Proof. intros. unfold row. apply part_len; [rewrite starts_len; lia|]. apply st_total. Qed.

(* columns of the old row that stay, then empty ones *)
Lemma fill c this fuel m' : (c <= this <= n)%nat -> (n <= fuel)%nat ->
  (forall i, (c <= i < this)%nat -> nth i new [] = nth i cols []) -> m' = row this ->
  match copy_run b (Z.of_nat n0) (row c) (h + st new c) (Z.of_nat c) (Z.of_nat this) with
  | Some (m, sz, col) => pad_pos (length m) m col (Z.of_nat this) sz = Some (m', Z.of_nat this) /\ sz = h + st new this
  | None => False
  end.
Proof.
  intros Hc Hf Hs ->.
  assert (Hl : forall c, (c <= n)%nat -> (n <= length (row c))%nat).
  { intros c' Hc'. pose proof (row_len c' ltac:(lia)) as L. unfold len in L. pose proof (st_total 0). rewrite st_0 in *. unfold h, hd_size in L. lia. }
  assert (Hst : forall a k, (forall i, (a <= i < a + k)%nat -> nth i new [] = []) -> st new (a + k) = st new a).
  { intros a k. induction k as [|k IH]; intros He; [now rewrite Nat.add_0_r|]. rewrite Nat.add_succ_r, st_S, He by lia. rewrite IH by (intros; apply He; lia). unfold len. cbn. lia. }
  destruct (le_lt_dec n0 c) as [C1|C1].
  - unfold copy_run. replace (_ && _) with false by lia. replace this with (c + (this - c))%nat by lia.
    assert (He : forall i, (c <= i < c + (this - c))%nat -> nth i new [] = []) by (intros; rewrite Hs by lia; apply nth_overflow; fold n0; lia).
    split; [apply pad_ok; auto; [lia|]; specialize (Hl c ltac:(lia)); lia|].
    rewrite Hst; auto.
  - destruct (Nat.eq_dec c this) as [->|C2].
    + unfold copy_run. rewrite Z.eqb_refl. cbn [negb andb]. split; auto.
      destruct (length (row this)); cbn [pad_pos]; now rewrite Z.eqb_refl.
    + set (e := Nat.min this n0). pose proof (copy_run_ok c (e - c) ltac:(lia) ltac:(intros; apply Hs; lia) ltac:(lia) (Z.of_nat this) ltac:(lia)) as R.
      replace (c + (e - c))%nat with e in R by lia. rewrite R by lia. clear R.
      replace this with (e + (this - e))%nat by lia.
      assert (He : forall i, (e <= i < e + (this - e))%nat -> nth i new [] = []) by (intros; rewrite Hs by lia; apply nth_overflow; fold n0; lia).
      split; [apply pad_ok; auto; [lia|]; specialize (Hl e ltac:(lia)); lia|].
      rewrite Hst; auto.
Qed.

Lemma loop_ok ch : forall c, (c <= n)%nat -> increasing (Z.of_nat c) ch -> top_col ch <= Z.of_nat n ->
  (forall i, (c <= i < n)%nat -> nth i new [] = match lookup (Z.of_nat i) ch with Some v => v | None => nth i cols [] end) ->
  upd_loop b (Z.of_nat n0) (Z.of_nat n) ch (row c) (h + st new c) (Z.of_nat c) = Some (row n, h + total).
Proof.
  assert (Htot : st new n = total) by (apply st_all; auto).
  induction ch as [|[j v] ch IH]; intros c Hc Hi Ht Hs; cbn [upd_loop].
  - cbv zeta. pose proof (fill c n n (row n) ltac:(lia) ltac:(lia) Hs eq_refl) as R.
    destruct (copy_run _ _ _ _ _ _) as [[[m sz] col]|]; [|easy]. destruct R as [R ->]. rewrite R, Z.eqb_refl. now rewrite Htot.
  - cbv zeta. cbn [increasing] in Hi. destruct Hi as [Hj Hi]. cbn [top_col fold_right fst] in Ht. fold (top_col ch) in Ht.
    set (t := Z.to_nat j). assert (Et : j = Z.of_nat t) by lia. rewrite Et in *. clear Et.
    pose proof (fill c t n (row t) ltac:(lia) ltac:(lia)) as R.
    assert (Hs1 : forall i, (c <= i < t)%nat -> nth i new [] = nth i cols []).
    { intros i Hi'. rewrite Hs by lia. cbn [lookup]. replace (_ =? _) with false by lia.
      now rewrite (lookup_above ch (Z.of_nat t + 1)) by (auto; lia). }
    specialize (R Hs1 eq_refl). destruct (copy_run _ _ _ _ _ _) as [[[m sz] col]|]; [|easy]. destruct R as [R ->]. rewrite R.
    replace (Z.of_nat t =? Z.of_nat n) with false by lia.
    assert (Ev : nth t new [] = v) by (rewrite Hs by lia; cbn [lookup]; now rewrite Z.eqb_refl).
    pose proof (part_pos n total (starts h new t) (concat (firstn t new)) (h + st new t)) as P.
    rewrite starts_len in P. unfold row at 1. rewrite P by (auto using pos_small; lia). rewrite <- starts_S.
    pose proof (part_data n total (starts h new (S t)) (concat (firstn t new)) v) as D. rewrite starts_len in D. fold h in D.
    change (len (concat (firstn t new))) with (st new t) in D.
    assert (ES : st new t + len v = st new (S t)) by (rewrite st_S; now rewrite Ev).
    rewrite D by (try lia; rewrite ES; apply st_total). clear D P.
    assert (Ef : concat (firstn t new) ++ v = concat (firstn (S t) new)).
    { replace (S t) with (t + 1)%nat by lia. now rewrite firstn_add, concat_app, concat_one, Ev. }
    rewrite Ef. fold (row (S t)). rewrite <- Z.add_assoc, ES.
    assert (Hn' : Z.of_nat n < 2 ^ 16) by (pose proof (pos_small 0); rewrite st_0 in *; unfold h, hd_size in *; lia).
    rewrite Z.mod_small by lia. replace (Z.of_nat t + 1) with (Z.of_nat (S t)) in * by lia. apply IH; auto; try lia.
    intros i Hi'. rewrite Hs by lia. cbn [lookup]. now replace (_ =? _) with false by lia.
Qed.

Lemma slow_ok ch : increasing 0 ch -> top_col ch <= Z.of_nat n ->
  (forall i, (i < n)%nat -> nth i new [] = match lookup (Z.of_nat i) ch with Some v => v | None => nth i cols [] end) ->
  forall ts', match wr16 (repeat None (Z.to_nat (h + total))) 0 (Z.of_nat n) with
  | Some m => match upd_loop b (Z.of_nat n0) (Z.of_nat n) ch m (sz_bagdata + Z.of_nat n * sz_off) 0 with
              | Some (m, sz) => match wr16 m (2 + 2 * Z.of_nat n) sz with Some m => Some (MkBag ts' m) | None => None end
              | None => None end
  | None => None end = Some (bag_of ts' new).
Proof.
  intros Hi Ht Hs ts'.
  assert (Hn' : Z.of_nat n < 2 ^ 16) by (pose proof (pos_small 0); rewrite st_0 in *; unfold h, hd_size in *; lia).
  pose proof (part_start n total (len_nonneg _)) as PS. fold h in PS. destruct PS as [->|]; [|lia].
  pose proof (loop_ok ch 0 ltac:(lia) Hi Ht ltac:(intros; apply Hs; lia)) as L. rewrite st_0, Z.add_0_r in L.
  change (row 0) with (part n total [] []) in L. unfold sz_bagdata, sz_off. replace (4 + Z.of_nat n * 2) with h by (unfold h, hd_size; lia).
  cbn [Z.of_nat] in L. rewrite L. unfold row.
  pose proof (part_pos n total (starts h new n) (concat (firstn n new)) (h + total)) as P. rewrite starts_len in P. rewrite P.
  - f_equal. rewrite <- (part_full n new ts' eq_refl). rewrite starts_S, st_all by auto. unfold n. now rewrite firstn_all.
  - lia.
  - pose proof (pos_small n) as Q. rewrite st_all in Q by auto. exact Q.
Qed.
End Upd.




(* the sizes computed first *)
Definition growth (cols : list (list Z)) (ch : changes) : Z :=
  fold_right (fun jv a => len (snd jv) - len (nth (Z.to_nat (fst jv)) cols []) + a) 0 ch.

Lemma sizes_ok ts cols ch : fits16 cols -> forall lo sz ncol, 0 <= lo -> increasing lo ch -> top_col ch < 2 ^ 32 ->
  len cols <= ncol <= Z.max (len cols) lo -> 0 <= sz < 2 ^ 64 ->
  upd_sizes (bag_of ts cols) (len cols) ch sz ncol = Some ((sz + growth cols ch) mod 2 ^ 64, Z.max ncol (top_col ch)).
Proof.
  intros F. induction ch as [|[j v] ch IH]; intros lo sz ncol Hlo Hi Ht Hn Hs; cbn [upd_sizes growth fold_right].
  - rewrite Z.add_0_r, Z.mod_small by lia. f_equal. f_equal. change (top_col []) with 0. pose proof (len_nonneg cols). lia.
  - cbn [increasing top_col fold_right fst snd] in *. fold (top_col ch) in *. fold (growth cols ch). destruct Hi as [Hj Hi].
    assert (T : 0 <= top_col ch) by apply top_nonneg.
    destruct (j <? len cols) eqn:E.
    + pose proof (column_length_of ts cols F (Z.to_nat j)) as C. rewrite Z2Nat.id in C by lia. rewrite C by (unfold len in E; lia).
      rewrite (IH (j + 1)) by (auto; try lia; apply Z.mod_pos_bound; lia). f_equal. f_equal; [|lia].
      rewrite Zplus_mod_idemp_l, <- (Zplus_mod_idemp_l (_ - _)), Zminus_mod_idemp_l, Zplus_mod_idemp_l. f_equal. lia.
    + rewrite (nth_overflow cols) by (unfold len in E; lia). rewrite Z.mod_small with (a := j + 1) by lia.
      rewrite (IH (j + 1)) by (auto; try lia; apply Z.mod_pos_bound; lia). f_equal. f_equal; [|lia].
      rewrite Zplus_mod_idemp_l. f_equal. rewrite len_nil. lia.
Qed.

Lemma st_diff (new cols : list (list Z)) a k : (forall i, (a <= i < a + k)%nat -> nth i new [] = nth i cols []) ->
  st new (a + k) - st new a = st cols (a + k) - st cols a.
Proof.
  induction k as [|k IH]; intros H; [rewrite Nat.add_0_r; lia|]. rewrite Nat.add_succ_r, !st_S, H by lia.
  specialize (IH ltac:(intros; apply H; lia)). lia.
Qed.
Lemma growth_ok cols new n ch : forall c, (c <= n)%nat -> increasing (Z.of_nat c) ch -> top_col ch <= Z.of_nat n ->
  (forall i, (c <= i < n)%nat -> nth i new [] = match lookup (Z.of_nat i) ch with Some v => v | None => nth i cols [] end) ->
  st new n - st new c = st cols n - st cols c + growth cols ch.
Proof.
  induction ch as [|[j v] ch IH]; intros c Hc Hi Ht Hs; cbn [growth fold_right fst snd].
  - pose proof (st_diff new cols c (n - c) ltac:(intros; apply Hs; lia)) as D. replace (c + (n - c))%nat with n in D by lia. lia.
  - fold (growth cols ch). cbn [increasing top_col fold_right fst] in *. fold (top_col ch) in *. destruct Hi as [Hj Hi].
    set (t := Z.to_nat j). assert (Et : j = Z.of_nat t) by lia. rewrite Et in *. clear Et. clearbody t.
    specialize (IH (S t) ltac:(lia)). replace (Z.of_nat (S t)) with (Z.of_nat t + 1) in IH by lia.
    assert (Ev : nth t new [] = v) by (rewrite Hs by lia; cbn [lookup]; now rewrite Z.eqb_refl).
    assert (I : st new n - st new (S t) = st cols n - st cols (S t) + growth cols ch).
    { apply IH; auto; [lia|]. intros i Hi'. rewrite Hs by lia. cbn [lookup]. now replace (_ =? _) with false by lia. }
    pose proof (st_diff new cols c (t - c)) as D. replace (c + (t - c))%nat with t in D by lia.
    assert (D' : st new t - st new c = st cols t - st cols c).
    { apply D. intros i Hi'. rewrite Hs by lia. cbn [lookup]. replace (_ =? _) with false by lia.
      now rewrite (lookup_above ch (Z.of_nat t + 1)) by (auto; lia). }
    rewrite !st_S, Ev in I. replace (Z.to_nat (Z.of_nat t)) with t by lia. lia.
Qed.

Lemma update_ok ts cols ch cols' ts' : fits16 cols -> fits16 cols' -> increasing 0 ch -> updated cols ch cols' ->
  bag_update (bag_of ts cols) ch ts' = Some (bag_of ts' cols').
Proof.
  intros F F' Hi [Hl Hv]. unfold bag_update. rewrite ncol_of, size_of by auto. cbv zeta.
  assert (T : 0 <= top_col ch) by apply top_nonneg.
  assert (B : hd_size (length cols) + len (concat cols) < 2 ^ 16) by exact F.
  assert (B' : hd_size (length cols') + len (concat cols') < 2 ^ 16) by exact F'.
  pose proof (len_nonneg (concat cols)) as P1. pose proof (len_nonneg (concat cols')) as P2.
  assert (L1 : len cols' < 2 ^ 16) by (unfold hd_size, len in *; lia).
  assert (G : len (concat cols') = len (concat cols) + growth cols ch).
  { pose proof (growth_ok cols cols' (length cols') ch 0 ltac:(lia) Hi) as G. rewrite !st_0 in G.
    rewrite !st_all in G by (unfold len in *; lia). specialize (G ltac:(unfold len in Hl at 1; lia) ltac:(intros; apply Hv)). lia. }
  rewrite (sizes_ok ts cols ch F 0) by (auto; unfold image_size, hd_size in *; try lia).
  assert (En : Z.max (len cols) (top_col ch) = Z.of_nat (length cols')) by (unfold len in *; lia).
  rewrite En. unfold image_size.
  set (sz := (8 + (hd_size (length cols) + len (concat cols)) + growth cols ch) mod 2 ^ 64).
  assert (Esz : sz = 8 + hd_size (length cols) + len (concat cols')) by (unfold sz; rewrite Z.mod_small; unfold hd_size in *; lia).
  assert (Etot : (if len cols <? Z.of_nat (length cols') then (sz + (Z.of_nat (length cols') - len cols) * sz_off) mod 2 ^ 64 else sz) = 8 + hd_size (length cols') + len (concat cols')).
  { destruct (_ <? _) eqn:E; [rewrite Z.mod_small|]; unfold sz_off, hd_size, len in *; lia. }
  rewrite Etot. unfold sz_ts. replace (8 + hd_size (length cols') + len (concat cols') - 8) with (hd_size (length cols') + len (concat cols')) by lia.
  pose proof (slow_ok ts cols cols' F F' ltac:(unfold len in *; lia) ch Hi ltac:(unfold len in *; lia) ltac:(intros; apply Hv) ts') as SL.
  fold (len cols) in SL.
  destruct ch as [|[j v] [|? ?]]; [exact SL| |exact SL].
  destruct ((Z.of_nat (length cols') =? len cols) && _ && _) eqn:E; [|exact SL]; clear SL.
  assert (E1 : length cols' = length cols) by (unfold len in *; lia).
  assert (E2 : len (concat cols') = len (concat cols)) by (rewrite E1 in *; unfold hd_size in *; lia).
  cbn [growth fold_right fst snd increasing] in *. cbn in T.
  set (t := Z.to_nat j). assert (Et : j = Z.of_nat t) by lia. rewrite Et in *. clear Et.
  assert (Ht : (t < length cols)%nat) by (unfold top_col in Hl; cbn [fold_right fst] in Hl; unfold len in *; lia).
  replace (Z.to_nat (Z.of_nat t)) with t in G by lia.
  cbn [bag_of bg_s]. unfold image. 
  pose proof (rd_mid [] (map Some (image cols)) [] 0 (hd_size (length cols') + len (concat cols')) eq_refl) as R.
  rewrite len_map, image_len in R. unfold image_size in R. rewrite app_nil_r in R. cbn [app] in R. unfold image in R. rewrite R by (rewrite E1; lia). clear R.
  fold (image cols).
  pose proof (wr_mid [] (repeat None (Z.to_nat (hd_size (length cols') + len (concat cols')))) [] (map Some (image cols)) 0 eq_refl) as W.
  rewrite !app_nil_r in W. cbn [app] in W. rewrite W by (rewrite len_repeat, len_map, image_len; unfold image_size; rewrite E1; unfold hd_size in *; lia). clear W.
  fold (bag_of ts cols). rewrite pos_of by (auto; lia).
  assert (Hcols : cols = firstn t cols ++ nth t cols [] :: skipn (S t) cols).
  { clear - Ht. revert cols Ht. induction t; intros [|c l] Ht; cbn in *; try lia; auto. f_equal. apply IHt. lia. }
  assert (Hcols' : cols' = firstn t cols ++ v :: skipn (S t) cols).
  { apply (nth_ext _ _ [] []). { rewrite E1, app_length. cbn [length]. rewrite firstn_length, skipn_length. lia. }
    intros i Hi'. rewrite Hv. cbn [lookup]. destruct (Z.of_nat t =? Z.of_nat i) eqn:Ei.
    - replace i with t by lia. rewrite app_nth2 by (rewrite firstn_length; lia). rewrite firstn_length. replace (_ - _)%nat with O by lia. reflexivity.
    - rewrite Hcols at 1. destruct (le_lt_dec t i).
      + rewrite !app_nth2 by (rewrite firstn_length; lia). rewrite firstn_length. destruct (i - _)%nat eqn:Q; [lia|]. reflexivity.
      + rewrite !app_nth1 by (rewrite firstn_length; lia). reflexivity. }
  assert (Ev : len v = len (nth t cols [])) by lia.
  assert (ES : forall i, st cols' i = st cols i).
  { intros i. destruct (le_lt_dec i t) as [C|C].
    - unfold st. rewrite Hcols'. rewrite firstn_app. rewrite firstn_firstn, firstn_length. replace (Nat.min i t) with i by lia.
      replace (i - Nat.min t (length cols))%nat with O by lia. cbn. now rewrite app_nil_r.
    - replace i with (t + 1 + (i - t - 1))%nat by lia. generalize (i - t - 1)%nat. intros k. induction k as [|k IHk].
      + rewrite Nat.add_0_r, Nat.add_1_r, !st_S. f_equal.
        * unfold st. rewrite Hcols'. rewrite firstn_app, firstn_firstn, firstn_length. replace (Nat.min t t) with t by lia.
          replace (t - Nat.min t (length cols))%nat with O by lia. cbn. now rewrite app_nil_r.
        * rewrite Hv. cbn [lookup]. rewrite Z.eqb_refl. auto.
      + rewrite Nat.add_succ_r, !st_S, IHk. f_equal. rewrite Hv. cbn [lookup]. now replace (_ =? _) with false by lia. }
  assert (Ec : concat cols = concat (firstn t cols) ++ nth t cols [] ++ concat (skipn (S t) cols)) by (rewrite Hcols at 1; now rewrite concat_app).
  assert (Ec' : concat cols' = concat (firstn t cols) ++ v ++ concat (skipn (S t) cols)) by (rewrite Hcols'; now rewrite concat_app).
  assert (Himg : map Some (image cols) = (map Some (le16 (len cols) ++ tab (starts (hd_size (length cols)) cols (S (length cols))) ++ concat (firstn t cols))) ++ map Some (nth t cols []) ++ map Some (concat (skipn (S t) cols))).
  { unfold image. rewrite Ec. rewrite !map_app, <- !app_assoc. reflexivity. }
  rewrite Himg. rewrite wr_mid.
  - f_equal. unfold bag_of. f_equal. unfold image. rewrite E1. replace (len cols') with (len cols) by (unfold len; lia).
    replace (starts (hd_size (length cols)) cols' (S (length cols))) with (starts (hd_size (length cols)) cols (S (length cols))) by (unfold starts; apply map_ext; intros; now rewrite ES).
    rewrite Ec'. rewrite !map_app, <- !app_assoc. reflexivity.
  - rewrite len_map, !len_app, le16_len, tab_len, starts_len. fold (st cols t). unfold hd_size. lia.
  - rewrite !len_map. lia.
Qed.
