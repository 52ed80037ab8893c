(* The memory image of a bag row and the writes of update. *)
From Verif Require Import Lib M_Key P_Key M_Bag Spec_Row.

Definition le16 (x : Z) : list Z := le_bytes 2 x.
Lemma le16_length x : length (le16 x) = 2%nat. Proof. reflexivity. Qed.
Lemma le16_len x : len (le16 x) = 2. Proof. reflexivity. Qed.
Lemma le16_val x : 0 <= x < 2 ^ 16 -> le_val (le16 x) = x.
Proof. intros. apply le_val_bytes. exact H. Qed.
Lemma le16_ok x : bytes_ok (le16 x). Proof. apply le_bytes_ok. Qed.
Lemma le16_def x : le_bytes 2 x = le16 x. Proof. reflexivity. Qed.
Global Opaque le16.
Definition tab (ps : list Z) : list Z := flat_map le16 ps.
Lemma tab_len ps : len (tab ps) = 2 * len ps.
Proof. unfold tab. induction ps; cbn [flat_map]; [reflexivity|]. rewrite len_app, le16_len, len_cons, IHps. lia. Qed.
Lemma tab_app a b : tab (a ++ b) = tab a ++ tab b.
Proof. apply flat_map_app. Qed.

Lemma firstn_len_app {A} (a b : list A) n : n = len a -> firstn (Z.to_nat n) (a ++ b) = a.
Proof. intros ->. unfold len. rewrite Nat2Z.id, firstn_app, firstn_all, Nat.sub_diag. cbn. apply app_nil_r. Qed.
Lemma skipn_len_app {A} (a b : list A) n : n = len a -> skipn (Z.to_nat n) (a ++ b) = b.
Proof. intros ->. unfold len. rewrite Nat2Z.id, skipn_app, skipn_all, Nat.sub_diag. reflexivity. Qed.

Lemma wr_mid a x b y off : off = len a -> len x = len y -> wr (a ++ x ++ b) off y = Some (a ++ y ++ b).
Proof.
  intros Ho Hl. unfold wr. rewrite !len_app. pose proof (len_nonneg a). pose proof (len_nonneg b). pose proof (len_nonneg x).
  replace ((0 <=? off) && _) with true by lia. rewrite (firstn_len_app a) by auto.
  rewrite (app_assoc a x b). rewrite (skipn_len_app (a ++ x)) by (rewrite len_app; lia). reflexivity.
Qed.
Lemma rd_mid a x b off n : off = len a -> n = len x -> rd (a ++ x ++ b) off n = Some x.
Proof.
  intros Ho Hn. unfold rd. rewrite !len_app. pose proof (len_nonneg a). pose proof (len_nonneg b). pose proof (len_nonneg x).
  replace ((0 <=? off) && _ && _) with true by lia. rewrite (skipn_len_app a) by auto. now rewrite (firstn_len_app x).
Qed.
Lemma init_map l : init (map Some l) = Some l.
Proof. induction l; cbn; auto. now rewrite IHl. Qed.
Lemma rd_bytes_mid a x b off n : off = len a -> n = len x -> rd_bytes (map Some (a ++ x ++ b)) off n = Some x.
Proof.
  intros Ho Hn. unfold rd_bytes. rewrite !map_app, rd_mid by (rewrite len_map; auto). apply init_map.
Qed.
Lemma repeat_split {A} (x : A) n k : (k <= n)%nat -> repeat x n = repeat x k ++ repeat x (n - k).
Proof. intros. rewrite <- repeat_app. f_equal. lia. Qed.

(* Offset of column i behind the header. *)
Definition st (l : list (list Z)) (i : nat) : Z := len (concat (firstn i l)).
Lemma st_0 l : st l 0 = 0. Proof. reflexivity. Qed.
Lemma st_nonneg l i : 0 <= st l i. Proof. apply len_nonneg. Qed.
Lemma st_add l i k : st l (i + k) = st l i + len (concat (firstn k (skipn i l))).
Proof.
  unfold st. rewrite <- len_app, <- concat_app. f_equal. f_equal.
  revert l. induction i as [|i IH]; intros [|x l]; cbn; auto. - now rewrite !firstn_nil. - now rewrite IH.
Qed.
Lemma concat_one (l : list (list Z)) i : concat (firstn 1 (skipn i l)) = nth i l [].
Proof. revert l. induction i as [|i IH]; intros [|x l]; auto; [cbn; apply app_nil_r|]. apply IH. Qed.
Lemma st_S l i : st l (S i) = st l i + len (nth i l []).
Proof.
  replace (S i) with (i + 1)%nat by lia. rewrite st_add. f_equal. f_equal.
  apply concat_one.
Qed.
Lemma st_all l i : (length l <= i)%nat -> st l i = len (concat l).
Proof. intros. unfold st. now rewrite firstn_all2. Qed.
Lemma st_mono l i j : (i <= j)%nat -> st l i <= st l j.
Proof. intros. replace j with (i + (j - i))%nat by lia. rewrite st_add. pose proof (len_nonneg (concat (firstn (j - i) (skipn i l)))). lia. Qed.
Lemma st_le l i : st l i <= len (concat l).
Proof.
  destruct (le_gt_dec (length l) i); [rewrite st_all; auto; lia|].
  rewrite <- (st_all l (length l)) by auto. apply st_mono. lia.
Qed.

Definition hd_size (n : nat) : Z := 4 + 2 * Z.of_nat n.
Definition starts (h : Z) (l : list (list Z)) (c : nat) : list Z := map (fun i => h + st l i) (seq 0 c).
Lemma starts_len h l c : len (starts h l c) = Z.of_nat c.
Proof. unfold starts, len. now rewrite map_length, seq_length. Qed.
Lemma starts_add h l c k : starts h l (c + k) = starts h l c ++ map (fun i => h + st l i) (seq c k).
Proof. unfold starts. now rewrite seq_app, map_app. Qed.
Lemma starts_S h l c : starts h l (S c) = starts h l c ++ [h + st l c].
Proof. replace (S c) with (c + 1)%nat by lia. apply starts_add. Qed.

(* The image of a row. *)
Definition image (cols : list (list Z)) : list Z :=
  le16 (len cols) ++ tab (starts (hd_size (length cols)) cols (S (length cols))) ++ concat cols.
Definition bag_of (ts : Z) (cols : list (list Z)) : bag := MkBag ts (map Some (image cols)).
Definition image_size (cols : list (list Z)) : Z := hd_size (length cols) + len (concat cols).
Definition fits16 (cols : list (list Z)) : Prop := image_size cols < 2 ^ 16.

Lemma image_len cols : len (image cols) = image_size cols.
Proof. unfold image, image_size, hd_size. rewrite !len_app, le16_len, tab_len, starts_len. lia. Qed.

Section Read.
Variable ts : Z.
Variable cols : list (list Z).
Hypothesis F : fits16 cols.
Let n := length cols.
Let h := hd_size n.

Lemma fits_n : hd_size n + len (concat cols) < 2 ^ 16 /\ 0 <= len (concat cols).
Proof. split; [exact F|apply len_nonneg]. Qed.
Lemma ncol_of : ld_ncol (bag_of ts cols) = Some (len cols).
Proof.
  pose proof fits_n. unfold ld_ncol, rd16, bag_of, image. cbn [bg_s].
  pose proof (rd_bytes_mid [] (le16 (len cols)) (tab (starts (hd_size (length cols)) cols (S (length cols))) ++ concat cols) 0 2 eq_refl eq_refl) as R.
  cbn [app] in R. rewrite R.
  rewrite le16_val; auto. unfold hd_size, len in *. unfold n in *. lia.
Qed.
Lemma pos_of i : (i <= n)%nat -> ld_pos (bag_of ts cols) (Z.of_nat i) = Some (h + st cols i).
Proof.
  intros Hi. pose proof fits_n. pose proof (st_le cols i). pose proof (st_nonneg cols i). unfold ld_pos, rd16, bag_of, image. cbn [bg_s]. fold n. fold h.
  replace (S n) with (i + (1 + (n - i)))%nat by lia. rewrite starts_add. cbn [Nat.add seq map].
  rewrite tab_app. unfold tab at 2. cbn [flat_map].
  replace (le16 (len cols) ++ (tab (starts h cols i) ++ le16 (h + st cols i) ++ flat_map le16 (map (fun i0 : nat => h + st cols i0) (seq (S i) (n - i)))) ++ concat cols)
    with ((le16 (len cols) ++ tab (starts h cols i)) ++ le16 (h + st cols i) ++ (flat_map le16 (map (fun i0 : nat => h + st cols i0) (seq (S i) (n - i))) ++ concat cols))
    by (now rewrite <- !app_assoc).
  rewrite rd_bytes_mid by (rewrite ?len_app, ?le16_len, ?tab_len, ?starts_len; lia).
  rewrite le16_val; auto. unfold h, hd_size in *. lia.
Qed.
Lemma size_of : bag_size (bag_of ts cols) = Some (8 + image_size cols).
Proof.
  unfold bag_size. rewrite ncol_of. unfold len at 1. rewrite pos_of by auto. rewrite st_all by auto. f_equal.
Qed.
Lemma data_rd i k : (i + k <= n)%nat -> rd (map Some (image cols)) (h + st cols i) (st cols (i + k) - st cols i) = Some (map Some (concat (firstn k (skipn i cols)))).
Proof.
  intros Hk. rewrite st_add. replace (st cols i + len _ - st cols i) with (len (concat (firstn k (skipn i cols)))) by lia.
  unfold image. replace (concat cols) with (concat (firstn i cols) ++ concat (firstn k (skipn i cols)) ++ concat (skipn k (skipn i cols))).
  2:{ rewrite <- !concat_app. now rewrite firstn_skipn, firstn_skipn. }
  fold n. fold h. rewrite !app_assoc, <- (app_assoc _ (concat (firstn k _))), !map_app. apply rd_mid; rewrite ?len_app, !len_map; auto.
  rewrite le16_len, tab_len, starts_len. unfold h, hd_size, st. lia.
Qed.
Lemma pos_rd i k : (i + k <= n)%nat -> rd (map Some (image cols)) (2 + 2 * Z.of_nat i) (2 * Z.of_nat k) = Some (map Some (tab (map (fun i => h + st cols i) (seq i k)))).
Proof.
  intros Hk. unfold image. fold n. fold h. replace (S n) with (i + (k + (S n - i - k)))%nat by lia.
  unfold starts. rewrite seq_app, seq_app, !map_app, !tab_app. cbn [Nat.add].
  rewrite !(map_app Some).
  match goal with |- rd (?a ++ (?b ++ ?c ++ ?d) ++ ?e) _ _ = _ => replace (a ++ (b ++ c ++ d) ++ e) with ((a ++ b) ++ c ++ (d ++ e)) by (now rewrite <- !app_assoc) end.
  apply rd_mid; rewrite ?len_app, ?len_map, ?le16_len, ?tab_len, ?len_map; unfold len; rewrite seq_length; lia.
Qed.
Lemma column_length_of i : (i < n)%nat -> column_length (bag_of ts cols) (Z.of_nat i) = Some (len (nth i cols [])).
Proof.
  intros Hi. unfold column_length. replace (Z.of_nat i + 1) with (Z.of_nat (S i)) by lia. rewrite !pos_of by lia.
  rewrite st_S. f_equal. pose proof fits_n. pose proof (st_le cols (S i)) as B. rewrite st_S in B. pose proof (st_nonneg cols i).
  unfold hd_size in *. pose proof (len_nonneg (nth i cols [])). rewrite Z.mod_small; lia.
Qed.
Lemma col_of i : 0 <= i < 2 ^ 31 -> bag_col (bag_of ts cols) i = Some (nth (Z.to_nat i) cols []).
Proof.
  intros Hi. unfold bag_col. rewrite ncol_of. rewrite Z.mod_small by lia. destruct (i <? len cols) eqn:E.
  - pose proof (pos_of (Z.to_nat i)) as P. pose proof (column_length_of (Z.to_nat i)) as C. rewrite Z2Nat.id in * by lia.
    unfold len in E. unfold n in *. rewrite P by lia. rewrite C by lia. unfold rd_bytes. cbn [bag_of bg_s].
    pose proof (data_rd (Z.to_nat i) 1) as D. rewrite Nat.add_1_r, st_S in D.
    replace (st cols (Z.to_nat i) + len (nth (Z.to_nat i) cols []) - st cols (Z.to_nat i)) with (len (nth (Z.to_nat i) cols [])) in D by lia.
    rewrite D by (unfold n; lia). rewrite init_map. f_equal.
    apply concat_one.
  - unfold len in E. rewrite nth_overflow by lia. reflexivity.
Qed.
End Read.

(* A row under construction: the offsets ps and the data d written so far. *)
Definition part (n : nat) (total : Z) (ps d : list Z) : list (option Z) :=
  map Some (le16 (Z.of_nat n) ++ tab ps) ++ repeat None (Z.to_nat (2 * (Z.of_nat n + 1 - len ps))) ++ map Some d ++ repeat None (Z.to_nat (total - len d)).

Lemma part_len n total ps d : len ps <= Z.of_nat n + 1 -> len d <= total -> len (part n total ps d) = hd_size n + total.
Proof. intros. unfold part, hd_size. rewrite !len_app, !len_repeat, !len_map, len_app, le16_len, tab_len. lia. Qed.

Lemma part_tab n total ps qs d : len ps + len qs <= Z.of_nat n + 1 ->
  wr (part n total ps d) (2 + 2 * len ps) (map Some (tab qs)) = Some (part n total (ps ++ qs) d).
Proof.
  intros H. pose proof (len_nonneg qs). unfold part at 1. rewrite (repeat_split None _ (Z.to_nat (2 * len qs))) by lia. rewrite <- app_assoc.
  rewrite wr_mid.
  - f_equal. unfold part. rewrite tab_app, !map_app, <- !app_assoc. repeat f_equal. rewrite len_app. lia.
  - rewrite len_map, len_app, le16_len, tab_len. lia.
  - rewrite len_repeat, len_map, tab_len. lia.
Qed.
Lemma part_pos n total ps d v : len ps <= Z.of_nat n -> 0 <= v < 2 ^ 16 ->
  wr16 (part n total ps d) (2 + 2 * len ps) v = Some (part n total (ps ++ [v]) d).
Proof.
  intros H Hv. unfold wr16. rewrite Z.mod_small by lia. rewrite le16_def.
  rewrite <- (app_nil_r (le16 v)). change (le16 v ++ []) with (tab [v]). apply part_tab. unfold len in *. cbn. lia.
Qed.
Lemma part_data n total ps d x : len ps <= Z.of_nat n + 1 -> len d + len x <= total ->
  wr (part n total ps d) (hd_size n + len d) (map Some x) = Some (part n total ps (d ++ x)).
Proof.
  intros H Hx. pose proof (len_nonneg x). unfold part at 1. rewrite (repeat_split None (Z.to_nat (total - len d)) (Z.to_nat (len x))) by lia.
  replace (map Some (le16 (Z.of_nat n) ++ tab ps) ++ repeat None (Z.to_nat (2 * (Z.of_nat n + 1 - len ps))) ++ map Some d ++ repeat None (Z.to_nat (len x)) ++ repeat None (Z.to_nat (total - len d) - Z.to_nat (len x)))
    with ((map Some (le16 (Z.of_nat n) ++ tab ps) ++ repeat None (Z.to_nat (2 * (Z.of_nat n + 1 - len ps))) ++ map Some d) ++ repeat None (Z.to_nat (len x)) ++ repeat None (Z.to_nat (total - len d) - Z.to_nat (len x)))
    by (now rewrite <- !app_assoc).
  rewrite wr_mid.
  - f_equal. unfold part. rewrite !map_app, <- !app_assoc. repeat f_equal. rewrite len_app. lia.
  - rewrite !len_app, len_repeat, !len_map, len_app, le16_len, tab_len. unfold hd_size. lia.
  - rewrite len_repeat, len_map. lia.
Qed.
Lemma part_full n cols ts : length cols = n -> MkBag ts (part n (len (concat cols)) (starts (hd_size n) cols (S n)) (concat cols)) = bag_of ts cols.
Proof.
  intros Hn. unfold part, bag_of, image. f_equal. rewrite starts_len. replace (Z.to_nat (2 * _)) with O by lia.
  rewrite Z.sub_diag. cbn [repeat Z.to_nat app]. rewrite app_nil_r, !map_app, Hn, <- app_assoc.
  unfold len. now rewrite Hn.
Qed.
Lemma part_start n total : 0 <= total ->
  wr16 (repeat None (Z.to_nat (hd_size n + total))) 0 (Z.of_nat n) = Some (part n total [] []) \/ 2 ^ 16 <= Z.of_nat n.
Proof.
  intros Ht. destruct (Z_lt_le_dec (Z.of_nat n) (2 ^ 16)) as [L|L]; auto. left.
  unfold wr16. rewrite Z.mod_small by lia. rewrite le16_def.
  unfold hd_size. rewrite (repeat_split None _ 2) by lia. change (repeat None 2 ++ ?x) with ([] ++ repeat None 2 ++ x).
  rewrite wr_mid by reflexivity. f_equal. cbn [app]. unfold part. cbn [tab flat_map]. rewrite app_nil_r. f_equal.
  cbn [map app]. rewrite <- repeat_app. f_equal. rewrite len_nil. lia.
Qed.
