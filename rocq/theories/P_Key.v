(* Proofs about slices and keys. *)
From Verif Require Import Lib Spec_String M_Key.

(* ---------- words and bytes ---------- *)

Lemma pow256_0 : 256 ^ 0 = 1. Proof. reflexivity. Qed.
Lemma pow256_S {A} (l : list A) : 256 ^ (1 + len l) = 256 * 256 ^ len l.
Proof. rewrite Z.pow_add_r by (pose proof (len_nonneg l); lia). reflexivity. Qed.

Lemma be_val_acc_spec l : forall acc, be_val_acc acc l = acc * 256 ^ len l + be_val_acc 0 l.
Proof.
  induction l as [|b l IH]; intros acc; cbn [be_val_acc].
  - rewrite len_nil, pow256_0. lia.
  - rewrite (IH (acc * 256 + b)), (IH (0 * 256 + b)), len_cons.
    rewrite Z.pow_add_r by (pose proof (len_nonneg l); lia). change (256 ^ 1) with 256. lia.
Qed.

Lemma be_val_cons b l : be_val (b :: l) = b * 256 ^ len l + be_val l.
Proof.
  unfold be_val. cbn [be_val_acc]. rewrite be_val_acc_spec. reflexivity.
Qed.

Lemma be_val_nil : be_val [] = 0. Proof. reflexivity. Qed.

Lemma pow256_pos n : 0 <= n -> 0 < 256 ^ n.
Proof. intros. apply Z.pow_pos_nonneg; lia. Qed.

Lemma be_val_bound l : bytes_ok l -> 0 <= be_val l < 256 ^ len l.
Proof.
  induction 1 as [|b l Hb Hl IH].
  - cbn. lia.
  - rewrite be_val_cons, len_cons, pow256_S. unfold byte_ok in Hb.
    pose proof (pow256_pos (len l) (len_nonneg l)). nia.
Qed.

Lemma be_val_compare a b : bytes_ok a -> bytes_ok b -> length a = length b ->
  (be_val a ?= be_val b) = lex_compare a b.
Proof.
  intros Ha. revert b. induction Ha as [|x a Hx Ha IH]; intros [|y b] Hb E; simpl in E; try lia.
  - reflexivity.
  - inversion Hb as [|? ? Hy Hb']; subst. injection E as E.
    cbn [lex_compare]. rewrite !be_val_cons.
    assert (El : len a = len b) by (unfold len; lia). rewrite El.
    pose proof (be_val_bound a Ha) as Ba. pose proof (be_val_bound b Hb') as Bb. rewrite El in Ba.
    pose proof (pow256_pos (len b) (len_nonneg b)) as Hp.
    destruct (Z.compare_spec x y) as [->|Hlt|Hgt].
    + rewrite <- IH by auto.
      destruct (Z.compare_spec (be_val a) (be_val b)) as [C|C|C];
        [apply Z.compare_eq_iff|apply Z.compare_lt_iff|apply Z.compare_gt_iff]; nia.
    + apply Z.compare_lt_iff. nia.
    + apply Z.compare_gt_iff. nia.
Qed.

Lemma le_bytes_length n x : length (le_bytes n x) = n.
Proof. revert x. induction n; intros; simpl; auto. Qed.

Lemma le_bytes_ok n x : bytes_ok (le_bytes n x).
Proof.
  revert x. induction n; intros; simpl; constructor.
  - unfold byte_ok. apply Z.mod_pos_bound. lia.
  - apply IHn.
Qed.

Lemma le_val_bound l : bytes_ok l -> 0 <= le_val l < 256 ^ len l.
Proof.
  induction 1 as [|b l Hb Hl IH].
  - cbn. lia.
  - cbn [le_val]. rewrite len_cons, pow256_S. unfold byte_ok in Hb. nia.
Qed.

Lemma le_bytes_val l : bytes_ok l -> le_bytes (length l) (le_val l) = l.
Proof.
  induction 1 as [|b l Hb Hl IH]; cbn [length le_bytes le_val]; auto.
  unfold byte_ok in Hb. f_equal.
  - lia.
  - replace ((b + 256 * le_val l) / 256) with (le_val l) by lia. exact IH.
Qed.

Lemma le_val_bytes n x : 0 <= x < 256 ^ Z.of_nat n -> le_val (le_bytes n x) = x.
Proof.
  revert x. induction n as [|n IH]; intros x H.
  - cbn in *. lia.
  - cbn [le_bytes le_val]. rewrite IH.
    + rewrite (Z.div_mod x 256) at 3 by lia. lia.
    + rewrite Nat2Z.inj_succ, Z.pow_succ_r in H by lia. split; [apply Z.div_pos; lia|].
      apply Z.div_lt_upper_bound; lia.
Qed.

Lemma le_val_app a b : le_val (a ++ b) = le_val a + 256 ^ len a * le_val b.
Proof.
  induction a as [|x a IH]; cbn [app le_val].
  - cbn [len length Z.of_nat Z.pow]. lia.
  - rewrite IH, len_cons, pow256_S. lia.
Qed.

Lemma le_val_rev l : le_val (rev l) = be_val l.
Proof.
  induction l as [|b l IH]; auto.
  cbn [rev]. rewrite le_val_app, IH, be_val_cons. cbn [le_val].
  unfold len. rewrite rev_length. lia.
Qed.

Lemma be_val_rev l : be_val (rev l) = le_val l.
Proof. rewrite <- le_val_rev, rev_involutive. reflexivity. Qed.

Lemma bytes_ok_rev l : bytes_ok l -> bytes_ok (rev l).
Proof. unfold bytes_ok. rewrite !Forall_forall. intros H x Hx. apply H. now apply in_rev. Qed.

Lemma be_bytes_length n x : length (be_bytes n x) = n.
Proof. unfold be_bytes. now rewrite rev_length, le_bytes_length. Qed.

Lemma be_bytes_ok n x : bytes_ok (be_bytes n x).
Proof. apply bytes_ok_rev, le_bytes_ok. Qed.

Lemma be_val_bytes n x : 0 <= x < 256 ^ Z.of_nat n -> be_val (be_bytes n x) = x.
Proof. intros. unfold be_bytes. rewrite be_val_rev. now apply le_val_bytes. Qed.

Lemma be_bytes_val l : bytes_ok l -> be_bytes (length l) (be_val l) = l.
Proof.
  intros H. unfold be_bytes. rewrite <- le_val_rev, <- (rev_length l).
  rewrite le_bytes_val by now apply bytes_ok_rev. apply rev_involutive.
Qed.

Lemma bswap_le_val l : bytes_ok l -> bswap (length l) (le_val l) = be_val l.
Proof. intros. unfold bswap. rewrite le_bytes_val by auto. apply le_val_rev. Qed.

(* ---------- the padded slice ---------- *)

(* The first n bytes of s, padded with zeros to exactly n bytes. *)
Fixpoint padn (n : nat) (s : list Z) : list Z :=
  match n with
  | O => []
  | S n' => match s with [] => 0 :: padn n' [] | x :: s' => x :: padn n' s' end
  end.

Lemma padn_length n s : length (padn n s) = n.
Proof. revert s. induction n; intros [|x s]; simpl; auto. Qed.

Lemma padn_ok n s : bytes_ok s -> bytes_ok (padn n s).
Proof.
  revert s. induction n; intros s H; simpl; [constructor|].
  destruct H as [|x s Hx Hs]; constructor; auto.
  - split; lia.
  - apply IHn. constructor.
  - apply IHn. exact Hs.
Qed.

Lemma padn_nil n : padn n [] = repeat 0 n.
Proof. induction n; simpl; congruence. Qed.

Lemma padn_spec n s : padn n s = firstn n s ++ repeat 0 (n - length (firstn n s)).
Proof.
  revert s. induction n; intros [|x s]; cbn [padn firstn length app]; auto.
  - rewrite padn_nil. rewrite Nat.sub_0_r. reflexivity.
  - rewrite IHn. reflexivity.
Qed.

Lemma slice_make_comparable_padn s : bytes_ok s -> slice_make_comparable s = be_val (padn 8 s).
Proof.
  intros H. unfold slice_make_comparable, slice_make, ikey_size. rewrite <- padn_spec.
  rewrite <- (padn_length 8 s) at 1. apply bswap_le_val. now apply padn_ok.
Qed.

Lemma slice_bound s : bytes_ok s -> 0 <= slice_make_comparable s < 2 ^ 64.
Proof.
  intros H. rewrite slice_make_comparable_padn by auto.
  pose proof (be_val_bound (padn 8 s) (padn_ok 8 s H)) as B.
  unfold len in B. rewrite padn_length in B. exact B.
Qed.

(* Lexicographic order decided by the padded prefix, then by capped lengths, then by the rest. *)
Lemma lex_padn n : forall a b,
  bytes_ok a -> bytes_ok b ->
  lex_compare a b =
  match lex_compare (padn n a) (padn n b) with
  | Eq => if (n <? length a)%nat && (n <? length b)%nat then lex_compare (skipn n a) (skipn n b)
          else Nat.compare (Nat.min (length a) (S n)) (Nat.min (length b) (S n))
  | c => c
  end.
Proof.
  induction n as [|n IH]; intros a b Ha Hb.
  - cbn [padn lex_compare skipn]. destruct a, b; cbn [length Nat.ltb Nat.leb andb Nat.min Nat.compare lex_compare]; auto.
  - assert (Hc : forall p q, (S p <? S q)%nat = (p <? q)%nat) by reflexivity.
    destruct Ha as [|x a Hx Ha]; destruct Hb as [|y b Hy Hb]; cbn [padn lex_compare length skipn].
    + rewrite lex_compare_refl. reflexivity.
    + unfold byte_ok in Hy. destruct (Z.compare_spec 0 y) as [<-|Hlt|Hgt]; auto; try lia.
      specialize (IH [] b (bytes_ok_nil) Hb).
      destruct (lex_compare (padn n []) (padn n b)) eqn:E; auto.
      destruct b; cbn [lex_compare] in IH; discriminate.
    + unfold byte_ok in Hx. destruct (Z.compare_spec x 0) as [->|Hlt|Hgt]; auto; try lia.
      specialize (IH a [] Ha (bytes_ok_nil)).
      destruct (lex_compare (padn n a) (padn n [])) eqn:E; auto.
      * rewrite andb_false_r. reflexivity.
      * destruct a; cbn [lex_compare] in IH; discriminate.
    + destruct (Z.compare_spec x y); auto.
      rewrite (IH a b) by auto. destruct (lex_compare (padn n a) (padn n b)); auto.
Qed.

(* The same at the level of slices and lengths, as the code computes it. *)
Lemma lex_slices a b : bytes_ok a -> bytes_ok b ->
  lex_compare a b =
  match slice_make_comparable a ?= slice_make_comparable b with
  | Eq => if (8 <? len a) && (8 <? len b) then lex_compare (skipn 8 a) (skipn 8 b)
          else Z.min (len a) 9 ?= Z.min (len b) 9
  | c => c
  end.
Proof.
  intros Ha Hb. rewrite !slice_make_comparable_padn by auto.
  rewrite be_val_compare by (rewrite ?padn_length; auto using padn_ok).
  rewrite (lex_padn 8 a b Ha Hb).
  destruct (lex_compare (padn 8 a) (padn 8 b)); auto.
  assert (E1 : forall s : list Z, (8 <? length s)%nat = (8 <? len s)).
  { intros s. unfold len. destruct (Nat.ltb_spec 8 (length s)), (Z.ltb_spec 8 (Z.of_nat (length s))); lia. }
  rewrite !E1. destruct ((8 <? len a) && (8 <? len b)); auto.
  rewrite <- Nat2Z.inj_compare. f_equal; unfold len; lia.
Qed.

(* ---------- key objects represent (prefix, rest) splits of a string ---------- *)

(* [k] is the key object for full string [p ++ s] shifted over [p]. *)
Definition key_rep (k : mkey) (p s : list Z) : Prop :=
  k_buf k = p ++ s /\ k_off k = length p /\ k_len k = len s /\ k_ikey k = slice_make_comparable s.

Lemma key_make_rep s : key_rep (key_make s) [] s.
Proof. repeat split. Qed.

Lemma key_has_suffix_rep k p s : key_rep k p s -> key_has_suffix k = (8 <? len s).
Proof. intros (_ & _ & L & _). unfold key_has_suffix. now rewrite L. Qed.

Lemma skipn_app_exact {A} (p s : list A) n : skipn (length p + n) (p ++ s) = skipn n s.
Proof.
  rewrite skipn_app. rewrite skipn_all2 by lia. simpl. f_equal. lia.
Qed.

Lemma key_suffix_rep k p s : key_rep k p s -> key_suffix k = skipn 8 s.
Proof.
  intros (B & O & L & _). unfold key_suffix. rewrite B, O, L, skipn_app_exact.
  apply firstn_all2. rewrite skipn_length. unfold len. lia.
Qed.

Lemma le_val_zeros n : le_val (repeat 0 n) = 0.
Proof. induction n; cbn [repeat le_val]; [reflexivity|]. rewrite IHn. reflexivity. Qed.

Lemma slice_sloppy_eq before s : bytes_ok before -> bytes_ok s -> (8 <= length before)%nat ->
  slice_make_sloppy before s = slice_make s.
Proof.
  intros Hb Hs Hl. unfold slice_make_sloppy, slice_make, ikey_size.
  destruct (Nat.leb_spec 8 (length s)) as [H|H].
  - assert (E : length (firstn 8 s) = 8%nat) by (rewrite firstn_length; lia).
    rewrite E. simpl (8 - 8)%nat. simpl repeat. now rewrite app_nil_r.
  - rewrite (firstn_all2 s) by lia.
    destruct (Nat.eqb_spec (length s) 0) as [E|E].
    + destruct s; simpl in E; try lia. reflexivity.
    + set (m := skipn _ before).
      assert (Lm : length m = (8 - length s)%nat) by (unfold m; rewrite skipn_length; lia).
      assert (Hm : bytes_ok m) by (now apply bytes_ok_skipn).
      rewrite le_val_app, le_val_app.
      rewrite le_val_zeros. rewrite Z.shiftr_div_pow2 by lia.
      assert (E1 : 2 ^ (8 * Z.of_nat (8 - length s)) = 256 ^ len m).
      { unfold len. rewrite Lm. change 256 with (2 ^ 8). rewrite <- Z.pow_mul_r by lia. reflexivity. }
      rewrite E1. pose proof (le_val_bound m Hm) as Bm.
      replace (256 ^ len m * le_val s) with (le_val s * 256 ^ len m) by lia.
      rewrite Z.div_add by lia. rewrite Z.div_small by lia. lia.
Qed.

Lemma key_shift_rep k p s : bytes_ok p -> bytes_ok s -> key_rep k p s -> 8 < len s ->
  key_rep (key_shift k) (p ++ firstn 8 s) (skipn 8 s).
Proof.
  intros Hp Hs (B & O & L & I) Hl. unfold key_rep, key_shift. cbn [k_buf k_off k_len k_ikey].
  assert (Hl' : (8 < length s)%nat) by (unfold len in Hl; lia).
  repeat split.
  - rewrite B, <- app_assoc, firstn_skipn. reflexivity.
  - rewrite O, app_length, firstn_length. lia.
  - rewrite L. unfold len. rewrite skipn_length. lia.
  - rewrite B, O, L, skipn_app_exact.
    rewrite (firstn_all2 (skipn 8 s)) by (rewrite skipn_length; unfold len; lia).
    unfold slice_make_comparable_sloppy, slice_make_comparable. f_equal.
    apply slice_sloppy_eq.
    + apply bytes_ok_firstn. apply bytes_ok_app; auto.
    + now apply bytes_ok_skipn.
    + rewrite firstn_length, app_length. lia.
Qed.

Lemma key_unshift_all_rep k p s : bytes_ok p -> bytes_ok s -> key_rep k p s -> key_rep (key_unshift_all k) [] (p ++ s).
Proof.
  intros Hp Hs (B & O & L & I). unfold key_unshift_all.
  destruct (Nat.eqb_spec (k_off k) 0) as [E|E].
  - rewrite O in E. destruct p; simpl in E; try lia. repeat split; auto.
  - unfold key_rep. cbn [k_buf k_off k_len k_ikey]. rewrite L, O. repeat split; auto.
    + rewrite len_app. unfold len. lia.
    + rewrite B. f_equal. apply firstn_all2. rewrite app_length. unfold len. lia.
Qed.

(* ---------- comparison ---------- *)

(* What one layer's comparison means for whole strings. *)
Lemma key_compare_lex a b : bytes_ok a -> bytes_ok b ->
  let c := key_compare (slice_make_comparable a) (len a) (slice_make_comparable b) (len b) in
  (c < 0 -> lex_compare a b = Lt) /\ (c > 0 -> lex_compare a b = Gt) /\
  (c = 0 -> (len a <= 8 /\ a = b) \/
            (8 < len a /\ 8 < len b /\ firstn 8 a = firstn 8 b /\ lex_compare a b = lex_compare (skipn 8 a) (skipn 8 b))).
Proof.
  intros Ha Hb. rewrite (lex_slices a b Ha Hb). unfold key_compare, icompare.
  destruct (Z.compare_spec (slice_make_comparable a) (slice_make_comparable b)) as [E|E|E]; cbn [Z.eqb].
  - destruct (Z.ltb_spec 8 (len a)) as [La|La].
    + destruct (Z.leb_spec (len b) 8) as [Lb|Lb].
      * assert (F : (8 <? len b) = false) by lia. rewrite F. cbn [andb].
        repeat split; try lia. intros _. apply Z.compare_gt_iff. lia.
      * assert (F : (8 <? len b) = true) by lia. rewrite F. cbn [andb].
        repeat split; try lia. intros _. right. repeat split; auto.
        rewrite !slice_make_comparable_padn in E by auto.
        apply (f_equal (be_bytes 8)) in E.
        rewrite <- (padn_length 8 a) in E at 1. rewrite be_bytes_val in E by now apply padn_ok.
        rewrite <- (padn_length 8 b) in E at 2. rewrite be_bytes_val in E by now apply padn_ok.
        rewrite !padn_spec in E. rewrite !firstn_length_le in E by (unfold len in *; lia).
        simpl repeat in E. now rewrite !app_nil_r in E.
    + cbn [andb].
      split; [intros; apply Z.compare_lt_iff; lia|].
      split; [intros; apply Z.compare_gt_iff; lia|].
      intros. left. split; auto. apply lex_compare_eq. rewrite (lex_slices a b Ha Hb).
      apply Z.compare_eq_iff in E. rewrite E.
      assert (F : (8 <? len a) = false) by lia. rewrite F. cbn [andb]. apply Z.compare_eq_iff. lia.
  - repeat split; try lia.
  - repeat split; try lia.
Qed.

Lemma memcmp_lex a : forall b,
  let cmp := memcmp (Nat.min (length a) (length b)) a b in
  (cmp <> 0 -> lex_compare a b = (cmp ?= 0)) /\
  (cmp = 0 -> lex_compare a b = (len a ?= len b)).
Proof.
  induction a as [|x a IH]; intros [|y b]; cbn [length Nat.min memcmp lex_compare].
  - split; [lia|]. reflexivity.
  - split; [lia|]. intros _. symmetry. apply Z.compare_lt_iff. rewrite len_cons, len_nil. pose proof (len_nonneg b). lia.
  - split; [lia|]. intros _. symmetry. apply Z.compare_gt_iff. rewrite len_cons, len_nil. pose proof (len_nonneg a). lia.
  - destruct (Z.eqb_spec x y) as [->|E].
    + rewrite Z.compare_refl. destruct (IH b) as [I1 I2]. split; intros H.
      * auto.
      * rewrite I2 by auto. rewrite !len_cons.
        destruct (Z.compare_spec (len a) (len b)); symmetry; [apply Z.compare_eq_iff|apply Z.compare_lt_iff|apply Z.compare_gt_iff]; lia.
    + split; [|lia]. intros _.
      destruct (Z.compare_spec x y); try lia; symmetry; [apply Z.compare_lt_iff|apply Z.compare_gt_iff]; lia.
Qed.

Lemma str_compare_lex a b : (str_compare a b ?= 0) = lex_compare a b.
Proof.
  unfold str_compare. destruct (memcmp_lex a b) as [H1 H2].
  destruct (Z.eqb_spec (memcmp (Nat.min (length a) (length b)) a b) 0) as [E|E].
  - rewrite H2 by auto.
    destruct (Z.compare_spec (len a) (len b)); [apply Z.compare_eq_iff|apply Z.compare_lt_iff|apply Z.compare_gt_iff]; lia.
  - now rewrite H1.
Qed.

(* ---------- decomposition is injective ---------- *)

Lemma slice_inj a b : bytes_ok a -> bytes_ok b ->
  slice_make_comparable a = slice_make_comparable b ->
  Z.min (len a) 9 = Z.min (len b) 9 -> skipn 8 a = skipn 8 b -> a = b.
Proof.
  intros Ha Hb E L S. apply lex_compare_eq. rewrite (lex_slices a b Ha Hb).
  rewrite E, Z.compare_refl, S, lex_compare_refl, L, Z.compare_refl.
  destruct (_ && _); auto.
Qed.

(* ---------- rebuilding bytes from a slice ---------- *)

Lemma bswap_bytes x : 0 <= x < 2 ^ 64 -> le_bytes 8 (bswap 8 x) = be_bytes 8 x.
Proof.
  intros H. unfold bswap. fold (be_bytes 8 x).
  rewrite <- (be_bytes_length 8 x) at 1. apply le_bytes_val. apply be_bytes_ok.
Qed.

Lemma be_bytes_slice s : bytes_ok s -> be_bytes 8 (slice_make_comparable s) = padn 8 s.
Proof.
  intros H. rewrite slice_make_comparable_padn by auto.
  rewrite <- (padn_length 8 s) at 1. apply be_bytes_val. now apply padn_ok.
Qed.

Lemma padn_firstn n m s : (m <= n)%nat -> (m <= length s)%nat -> firstn m (padn n s) = firstn m s.
Proof.
  revert n s. induction m; intros n s H1 H2; auto.
  destruct n; try lia. destruct s; simpl in H2; try lia. simpl. f_equal. apply IHm; lia.
Qed.

Lemma unparse_comparable_len_spec s buflen l :
  bytes_ok s -> 0 <= l -> l <= len s -> 0 <= buflen ->
  unparse_comparable_len buflen (slice_make_comparable s) l = firstn (Z.to_nat (Z.min (Z.min l 8) buflen)) s.
Proof.
  intros H Hl1 Hl2 Hb. unfold unparse_comparable_len, ikey_size.
  rewrite bswap_bytes by now apply slice_bound. rewrite be_bytes_slice by auto.
  apply padn_firstn; unfold len in *; lia.
Qed.

(* ---------- equals_sloppy ---------- *)

Lemma memcmp_eq_spec n : forall a b, (n <= length a)%nat -> (n <= length b)%nat ->
  memcmp_eq n a b = true <-> firstn n a = firstn n b.
Proof.
  induction n; intros a b Ha Hb; simpl; [tauto|].
  destruct a as [|x a], b as [|y b]; simpl in *; try lia.
  rewrite andb_true_iff, Z.eqb_eq, IHn by lia. split.
  - intros [-> ->]. reflexivity.
  - intros E. injection E. auto.
Qed.

Lemma le_val_inj a b : bytes_ok a -> bytes_ok b -> length a = length b -> le_val a = le_val b -> a = b.
Proof.
  intros Ha Hb L E. rewrite <- (le_bytes_val a Ha), <- (le_bytes_val b Hb), L, E. reflexivity.
Qed.

Lemma shiftl_mod_zero d m n : 0 <= m <= n -> Z.shiftl d (n - m) mod 2 ^ n = 0 <-> d mod 2 ^ m = 0.
Proof.
  intros H. rewrite Z.shiftl_mul_pow2 by lia.
  replace (2 ^ n) with (2 ^ m * 2 ^ (n - m)) by (rewrite <- Z.pow_add_r by lia; f_equal; lia).
  assert (Hp : 0 < 2 ^ m) by (apply Z.pow_pos_nonneg; lia).
  assert (Hq : 0 < 2 ^ (n - m)) by (apply Z.pow_pos_nonneg; lia).
  rewrite Z.mul_mod_distr_r by lia. nia.
Qed.

Lemma equals_sloppy_spec a b l : bytes_ok a -> bytes_ok b ->
  (8 <= length a)%nat -> (8 <= length b)%nat -> 0 <= l -> l <= len a -> l <= len b ->
  equals_sloppy a b l = true <-> firstn (Z.to_nat l) a = firstn (Z.to_nat l) b.
Proof.
  intros Ha Hb La Lb Hl Hla Hlb. unfold equals_sloppy.
  destruct (Z.leb_spec l 8) as [H8|H8].
  - destruct (Z.leb_spec l 0) as [H0|H0].
    + replace l with 0 by lia. simpl. tauto.
    + rewrite Z.eqb_eq.
      replace (8 * (8 - l)) with (64 - 8 * l) by lia.
      rewrite shiftl_mod_zero by lia.
      set (n := Z.to_nat l).
      assert (S : forall s, bytes_ok s -> (8 <= length s)%nat ->
        le_val (firstn 8 s) mod 2 ^ (8 * l) = le_val (firstn n s)).
      { intros s Hs Ls.
        assert (E : firstn 8 s = firstn n s ++ firstn (8 - n) (skipn n s)).
        { rewrite <- (firstn_skipn n (firstn 8 s)) at 1. rewrite firstn_firstn, firstn_skipn_comm.
          f_equal; f_equal; try lia. f_equal; lia. }
        rewrite E, le_val_app.
        assert (Ln : len (firstn n s) = l) by (unfold len; rewrite firstn_length_le; lia).
        rewrite Ln. replace (2 ^ (8 * l)) with (256 ^ l) by (change 256 with (2 ^ 8); rewrite <- Z.pow_mul_r by lia; reflexivity).
        pose proof (le_val_bound (firstn n s) (bytes_ok_firstn n s Hs)) as B. rewrite Ln in B.
        rewrite (Z.mul_comm (256 ^ l)), Z_mod_plus_full. apply Z.mod_small. lia. }
      split; intros E.
      * apply le_val_inj; auto using bytes_ok_firstn.
        { rewrite !firstn_length_le; unfold len in *; lia. }
        rewrite <- !S by auto.
        apply Z.bits_inj'. intros i Hi.
        destruct (Z.ltb_spec i (8 * l)) as [Hi2|Hi2].
        -- rewrite !Z.mod_pow2_bits_low by lia.
           assert (B : Z.testbit (Z.lxor (le_val (firstn 8 a)) (le_val (firstn 8 b))) i = false).
           { rewrite <- (Z.mod_pow2_bits_low _ (8 * l)) by lia. rewrite E. apply Z.testbit_0_l. }
           rewrite Z.lxor_spec in B. destruct (Z.testbit _ _), (Z.testbit _ _); cbn in B; congruence.
        -- rewrite !Z.mod_pow2_bits_high by lia. reflexivity.
      * apply Z.bits_inj'. intros i Hi. rewrite Z.testbit_0_l.
        destruct (Z.ltb_spec i (8 * l)) as [Hi2|Hi2].
        -- rewrite Z.mod_pow2_bits_low by lia. rewrite Z.lxor_spec.
           rewrite <- (Z.mod_pow2_bits_low (le_val (firstn 8 a)) (8 * l)) by lia.
           rewrite <- (Z.mod_pow2_bits_low (le_val (firstn 8 b)) (8 * l)) by lia.
           rewrite !S by auto. rewrite E. apply xorb_nilpotent.
        -- rewrite Z.mod_pow2_bits_high by lia. reflexivity.
  - apply memcmp_eq_spec; unfold len in *; lia.
Qed.

(* ---------- whole-key comparison through the layers ---------- *)

Lemma key_compare_layers_spec fuel : forall ka kb pa pb a b,
  bytes_ok pa -> bytes_ok pb -> bytes_ok a -> bytes_ok b ->
  key_rep ka pa a -> key_rep kb pb b -> (length a < fuel)%nat ->
  exists c, key_compare_layers fuel ka kb = Some c /\ (c ?= 0) = lex_compare a b.
Proof.
  induction fuel as [|f IH]; intros ka kb pa pb a b Hpa Hpb Ha Hb Ra Rb Hf; [lia|].
  cbn [key_compare_layers].
  rewrite (key_has_suffix_rep ka pa a Ra).
  pose proof (key_compare_lex a b Ha Hb) as K. cbv zeta in K.
  assert (E : key_compare_key ka kb = key_compare (slice_make_comparable a) (len a) (slice_make_comparable b) (len b)).
  { destruct Ra as (_ & _ & L1 & I1), Rb as (_ & _ & L2 & I2). unfold key_compare_key. congruence. }
  rewrite E. set (c := key_compare _ _ _ _) in *. destruct K as (K1 & K2 & K3).
  destruct (Z.eqb_spec c 0) as [C|C].
  - destruct (K3 C) as [(La & ->)|(La & Lb & Ef & El)].
    + assert (F : (8 <? len b) = false) by lia. rewrite F. exists 0. split; auto.
      now rewrite lex_compare_refl.
    + assert (F : (8 <? len a) = true) by lia. rewrite F. rewrite El.
      apply IH with (pa := pa ++ firstn 8 a) (pb := pb ++ firstn 8 b);
        auto using key_shift_rep, bytes_ok_skipn; try (apply bytes_ok_app; auto using bytes_ok_firstn).
      rewrite skipn_length. unfold len in La. lia.
  - exists c. split; auto. destruct (Z.compare_spec c 0); try lia.
    + symmetry. apply K1. lia.
    + symmetry. apply K2. lia.
Qed.

Lemma key_compare_layers_correct a b : bytes_ok a -> bytes_ok b ->
  exists c, key_compare_layers (S (length a)) (key_make a) (key_make b) = Some c /\ (c ?= 0) = lex_compare a b.
Proof.
  intros. apply key_compare_layers_spec with (pa := []) (pb := []); auto using key_make_rep, bytes_ok_nil.
Qed.

Lemma key_layers_distinct a b : bytes_ok a -> bytes_ok b ->
  (key_compare_layers (S (length a)) (key_make a) (key_make b) = Some 0 <-> a = b).
Proof.
  intros Ha Hb. destruct (key_compare_layers_correct a b Ha Hb) as (c & E & C). rewrite E.
  rewrite <- lex_compare_eq, <- C, Z.compare_eq_iff. split; [congruence|intros ->; reflexivity].
Qed.

Lemma key_shift_unshift a : bytes_ok a -> 8 < len a ->
  key_rep (key_shift (key_make a)) (firstn 8 a) (skipn 8 a) /\
  key_unshift_all (key_shift (key_make a)) = key_make a.
Proof.
  intros H L. pose proof (key_shift_rep (key_make a) [] a bytes_ok_nil H (key_make_rep a) L) as R.
  split; auto.
  apply key_unshift_all_rep in R; auto using bytes_ok_skipn. 2: now apply bytes_ok_firstn.
  cbn [app] in R. rewrite firstn_skipn in R. destruct R as (R1 & R2 & R3 & R4).
  destruct (key_unshift_all (key_shift (key_make a))) as [ki kl kb ko].
  cbn [k_buf k_off k_len k_ikey length] in *. unfold key_make. rewrite R1, R2, R3, R4. reflexivity.
Qed.
