(* small_vector: each operation, and runs. *)
From Verif Require Import Lib M_Smallvec Spec_Smallvec P_Smallvec1 P_Smallvec2.

Lemma sput_sput q i a b j : sput (sput q i a) i b j = sput q i b j.
Proof. unfold sput. now destruct (j =? i)%nat. Qed.
Lemma cap_pos N s i x l : (1 <= N)%nat -> vecok N s i x l -> (1 <= v_cap x)%nat.
Proof. intros HN (_ & _ & _ & (_ & k & K0 & K1) & _). assert (0 < Z.of_nat N * 2 ^ k) by (apply Z.mul_pos_pos; [lia|apply Z.pow_pos_nonneg; lia]). lia. Qed.
Lemma layout_snoc l cap : (length l < cap)%nat -> layout l cap = objs l ++ Raw :: raws (cap - S (length l)).
Proof. intros H. unfold layout. replace (cap - length l)%nat with (S (cap - S (length l))) by lia. reflexivity. Qed.

Lemma objs_repeat v n : objs (repeat v n) = repeat (Obj (Some v)) n. Proof. unfold objs. induction n; cbn; congruence. Qed.

Lemma skipn_more {A} : forall a b (l : list A), skipn (a + b) l = skipn b (skipn a l).
Proof. induction a; intros b l; cbn; auto. destruct l; auto. now rewrite skipn_nil. Qed.

Lemma append_ok N s q i x l v : vinv N s q -> s_env s i = Some x -> q i = Some l -> (length l < v_cap x)%nat -> exists s', append i v s = Some s' /\ vinv N s' (sput q i (Some (l ++ [v]))).
Proof.
  intros V Hx Hq Hl. pose proof (i_vec _ _ _ V _ _ _ Hx Hq) as (A1 & A2 & A3 & _ & _). unfold append. rewrite Hx. rewrite layout_snoc in A3 by auto.
  destruct (construct_ok _ _ _ _ (v_size x) v A3 ltac:(rewrite objs_len; auto)) as (m & E & M1 & M2). rewrite E. eexists. split; [reflexivity|].
  apply (vinv_inplace N s q i x l (l ++ [v]) m (S (v_size x))); auto. - rewrite snoc_len. lia. - rewrite snoc_len. lia.
  - rewrite M1. unfold layout. rewrite objs_app, snoc_len, <- app_assoc. reflexivity.
Qed.
Lemma maybe_grow_push N s q i x l : (1 <= N)%nat -> vinv N s q -> s_env s i = Some x -> q i = Some l -> Z.of_nat (length l) < 2 ^ 30 ->
  exists s1 x1, maybe_grow (full i s) i 0 s = Some s1 /\ vinv N s1 q /\ s_env s1 i = Some x1 /\ (length l < v_cap x1)%nat /\ forall a, a <> i -> s_env s1 a = s_env s a.
Proof.
  intros HN V Hx Hq Hl. pose proof (i_vec _ _ _ V _ _ _ Hx Hq) as K. pose proof (cap_pos _ _ _ _ _ HN K) as Cp. destruct K as (A1 & A2 & _). unfold full. rewrite Hx. destruct (Nat.eqb_spec (v_size x) (v_cap x)) as [F|F]; cbn [maybe_grow].
  - destruct (new_cap_ok (Z.of_nat (v_cap x)) 0) as (j & J1 & J2 & J3 & J4); [lia|left; lia|]. destruct J4 as [[_ ->]|J4]; [|lia].
    destruct (grow_ok N s q i x l 0 1 V Hx Hq Cp ltac:(lia) J2 ltac:(lia)) as (s1 & G1 & G2 & G3 & G4). exists s1. eexists. split; [exact G1|]. split; auto. split; [exact G3|]. split; auto. cbn [v_cap]. change (2 ^ 1) with 2. lia.
  - exists s, x. repeat (split; auto). lia.
Qed.
Lemma push_ok N s q i l v : (1 <= N)%nat -> vinv N s q -> q i = Some l -> Z.of_nat (length l) < 2 ^ 30 -> exists s', push i v s = Some s' /\ vinv N s' (sput q i (Some (l ++ [v]))).
Proof.
  intros HN V Hq Hl. destruct (env_some _ _ _ _ _ V Hq) as (x & Hx & _). destruct (maybe_grow_push N s q i x l HN V Hx Hq Hl) as (s1 & x1 & E & V1 & E1 & L1 & _). unfold push. rewrite E. now apply (append_ok N s1 q i x1 l v).
Qed.
Lemma push_at_ok fix_ N s q i j k l l' v : (1 <= N)%nat -> vinv N s q -> q i = Some l -> q j = Some l' -> nth_error l' k = Some v -> Z.of_nat (length l) < 2 ^ 30 -> fix_ = true \/ i <> j ->
  exists s', push_at fix_ i j k s = Some s' /\ vinv N s' (sput q i (Some (l ++ [v]))).
Proof.
  intros HN V Hq Hj Hk Hl Hf. destruct (env_some _ _ _ _ _ V Hq) as (x & Hx & _). destruct (env_some _ _ _ _ _ V Hj) as (y & Hy & Ky). unfold push_at. rewrite Hy. assert (Kl : (k < length l')%nat) by (apply nth_error_Some; congruence). destruct fix_.
  - destruct Ky as (_ & _ & A3 & _). rewrite (value_layout _ _ _ _ _ A3 Kl), Hk. now apply push_ok.
  - destruct Hf as [Hf|Hf]; [discriminate|]. destruct (maybe_grow_push N s q i x l HN V Hx Hq Hl) as (s1 & x1 & E & V1 & E1 & L1 & O1). rewrite E.
    rewrite <- O1 in Hy by auto. destruct (i_vec _ _ _ V1 _ _ _ Hy Hj) as (_ & _ & A3 & _). rewrite (value_layout _ _ _ _ _ A3 Kl), Hk. now apply (append_ok N s1 q i x1 l v).
Qed.
Lemma push_all_ok N q i j : (1 <= N)%nat -> i <> j -> forall rest pre s, q j = Some (pre ++ rest) -> vinv N s (sput q i (Some pre)) -> Z.of_nat (length (pre ++ rest)) <= 2 ^ 30 ->
  exists s', push_all (length rest) i j (length pre) s = Some s' /\ vinv N s' (sput q i (Some (pre ++ rest))).
Proof.
  intros HN Hn. induction rest as [|v rest IH]; intros pre s Hj V Hl; cbn [length push_all]; [exists s; split; auto; now rewrite app_nil_r|].
  destruct (push_at_ok false N s (sput q i (Some pre)) i j (length pre) pre (pre ++ v :: rest) v) as (s1 & E & V1); auto.
  - now rewrite sput_eq. - now rewrite sput_ne by auto. - now apply nth_mid. - rewrite app_length in Hl. cbn in Hl. lia.
  - rewrite E. apply (vinv_ext _ _ _ _ (sput_sput q i _ _)) in V1. rewrite mid_snoc in Hj, Hl. destruct (IH (pre ++ [v]) s1 Hj V1 Hl) as (s2 & E2 & V2). exists s2. rewrite snoc_len in E2. split; auto. now rewrite mid_snoc.
Qed.
Lemma new_ok N s q i : Z.of_nat N <= 2 ^ 30 -> vinv N s q -> q i = None ->
  vinv N (MkVst (eput (s_env s) i (Some (MkSv (Inl i) 0 N))) (mput (s_mem s) (Inl i) (Some (repeat Raw N))) (s_next s)) (sput q i (Some [])).
Proof.
  intros HN V Hq. pose proof (env_none _ _ _ _ V Hq) as He. constructor; cbn [s_env s_mem s_next].
  - intros a. destruct (Nat.eq_dec a i) as [-> |Ha]; [rewrite eput_eq, sput_eq; split; discriminate|]. rewrite eput_ne, sput_ne by auto. apply (i_env _ _ _ V).
  - intros a. destruct (Nat.eq_dec a i) as [-> |Ha]; [rewrite eput_eq; discriminate|]. rewrite eput_ne by auto. intros E. rewrite mput_ne by congruence. now apply (i_none _ _ _ V).
  - intros a y r. destruct (Nat.eq_dec a i) as [-> |Ha].
    + rewrite eput_eq, sput_eq. intros [= <-] [= <-]. unfold vecok. cbn [v_first v_size v_cap s_mem s_next length]. split; auto. split; [lia|]. split; [rewrite mput_eq; unfold layout; cbn [objs map app length]; now rewrite Nat.sub_0_r|]. split; [|left; auto]. split; [lia|exists 0; lia].
    + rewrite eput_ne, sput_ne by auto. intros E1 E2. destruct (i_vec _ _ _ V _ _ _ E1 E2) as (B1 & B2 & B3 & B4 & B5). unfold vecok. cbn [s_mem s_next]. split; auto. split; auto.
      split; [rewrite mput_ne; auto; apply (first_inl _ _ _ _ i _ V E1); auto|]. split; auto. destruct B5 as [B5|(b & D1 & D2 & D3)]; [left; exact B5|right]. exists b. split; auto. split; auto. rewrite mput_ne by congruence. exact D3.
  - intros a d y z b. destruct (Nat.eq_dec a i) as [-> |Ha], (Nat.eq_dec d i) as [-> |Hd]; auto; rewrite ?eput_eq, ?eput_ne by auto.
    + intros [= <-] E. cbn. discriminate. + intros E [= <-]. cbn. discriminate. + apply (i_uniq _ _ _ V).
  - intros b Hb. rewrite mput_ne in Hb by discriminate. destruct (i_own _ _ _ V b Hb) as (d & y & F1 & F2). exists d, y. rewrite eput_ne by congruence. auto.
Qed.
Lemma clear_mem N s q i x l : vinv N s q -> s_env s i = Some x -> q i = Some l ->
  exists m, destroy_n (v_size x) (s_mem s) (v_first x) 0 = Some m /\ m (v_first x) = Some (raws (v_cap x)) /\ forall r, r <> v_first x -> m r = s_mem s r.
Proof.
  intros V Hx Hq. pose proof (i_vec _ _ _ V _ _ _ Hx Hq) as (A1 & A2 & A3 & _ & _). destruct (destroy_n_ok (v_first x) (objs l) (s_mem s) [] (raws (v_cap x - length l)) 0) as (m & E & M1 & M2); auto; [apply objs_isobj|].
  rewrite objs_len in E, M1. exists m. rewrite A1. split; auto. split; auto. rewrite M1. cbn [app]. rewrite raws_app. do 2 f_equal. lia.
Qed.
Lemma drop_ok N s q i x l : vinv N s q -> s_env s i = Some x -> q i = Some l -> exists s', vstep false N s (Drop i) = Some s' /\ vinv N s' (sput q i None).
Proof.
  intros V Hx Hq. pose proof (i_vec _ _ _ V _ _ _ Hx Hq) as (A1 & A2 & A3 & _ & W). destruct (clear_mem N s q i x l V Hx Hq) as (m & E & M1 & M2). cbn [vstep]. rewrite Hx, E.
  assert (Fin : forall m2, m2 (Inl i) = None -> (forall b, v_first x = Hp b -> m2 (Hp b) = None) -> (forall r, r <> v_first x -> r <> Inl i -> m2 r = s_mem s r) -> vinv N (MkVst (eput (s_env s) i None) m2 (s_next s)) (sput q i None)).
  { intros m2 H1 H2 H3. constructor; cbn [s_env s_mem s_next].
    - intros a. destruct (Nat.eq_dec a i) as [-> |Ha]; [rewrite eput_eq, sput_eq; tauto|]. rewrite eput_ne, sput_ne by auto. apply (i_env _ _ _ V).
    - intros a. destruct (Nat.eq_dec a i) as [-> |Ha]; [auto|]. rewrite eput_ne by auto. intros Ea. rewrite H3; [now apply (i_none _ _ _ V)| |congruence]. intros E'. now apply (first_inl _ _ _ _ a _ V Hx Ha).
    - intros a y r. destruct (Nat.eq_dec a i) as [-> |Ha]; [rewrite eput_eq; discriminate|]. rewrite eput_ne, sput_ne by auto. intros E1 E2. destruct (i_vec _ _ _ V _ _ _ E1 E2) as (B1 & B2 & B3 & B4 & B5). unfold vecok. cbn [s_mem s_next].
      split; auto. split; auto. split. { rewrite H3; auto; [now apply (first_ne _ _ _ _ _ _ _ V E1 Hx)|]. apply (first_inl _ _ _ _ i _ V E1); auto. }
      split; auto. destruct B5 as [B5|(b & D1 & D2 & D3)]; [left; exact B5|right]. exists b. split; auto. split; auto. rewrite H3; auto; [|congruence]. intros E'. now apply (first_inl _ _ _ _ a _ V Hx Ha).
    - intros a d y z b. destruct (Nat.eq_dec a i) as [-> |Ha], (Nat.eq_dec d i) as [-> |Hd]; auto; rewrite ?eput_eq, ?eput_ne by auto; try discriminate. apply (i_uniq _ _ _ V).
    - intros b Hb. destruct (place_dec (Hp b) (v_first x)) as [E2|E2]; [exfalso; apply Hb; now apply H2|]. rewrite H3 in Hb by (auto; discriminate). destruct (i_own _ _ _ V b Hb) as (d & y & F1 & F2). destruct (Nat.eq_dec d i) as [-> |Hd]; [congruence|]. exists d, y. now rewrite eput_ne. }
  destruct W as [[W1 W2]|(b & W1 & W2 & W3)]; rewrite W1.
  - rewrite W1, W2 in M1. rewrite (release_ok _ _ _ M1). eexists. split; [reflexivity|]. apply Fin. + apply mput_eq. + intros b Eb. congruence. + intros r R1 R2. rewrite mput_ne by auto. auto.
  - rewrite W1 in M1. rewrite (release_ok _ _ _ M1). rewrite (release_ok _ (Inl i) N) by (rewrite mput_ne by discriminate; rewrite M2; [auto|congruence]). eexists. split; [reflexivity|]. apply Fin.
    + apply mput_eq. + intros b' Eb. rewrite W1 in Eb. injection Eb as <-. rewrite mput_ne by discriminate. apply mput_eq. + intros r R1 R2. rewrite mput_ne by auto. rewrite mput_ne by congruence. auto.
Qed.
Lemma clear_ok N s q i x l : vinv N s q -> s_env s i = Some x -> q i = Some l -> exists m, destroy_n (v_size x) (s_mem s) (v_first x) 0 = Some m /\ vinv N (set_mem s m i (MkSv (v_first x) 0 (v_cap x))) (sput q i (Some [])).
Proof.
  intros V Hx Hq. destruct (clear_mem N s q i x l V Hx Hq) as (m & E & M1 & M2). exists m. split; auto. apply (vinv_inplace N s q i x l [] m 0); auto; [cbn; lia|]. rewrite M1. unfold layout. cbn. now rewrite Nat.sub_0_r.
Qed.
Lemma pop_ok N s q i l : vinv N s q -> q i = Some l -> l <> [] -> exists s', vstep false N s (Pop i) = Some s' /\ vinv N s' (sput q i (Some (removelast l))).
Proof.
  intros V Hq Hne. destruct (exists_last Hne) as (l' & v & ->). rewrite removelast_last. destruct (env_some _ _ _ _ _ V Hq) as (x & Hx & (A1 & A2 & A3 & _ & _)). rewrite snoc_len in *. cbn [vstep]. rewrite Hx. destruct x as [p n c]. cbn [v_first v_size v_cap] in *. subst n.
  unfold layout in A3. rewrite objs_app, snoc_len, <- app_assoc in A3. cbn [objs map app] in A3. destruct (destroy_ok (s_mem s) p (objs l') _ _ (length l') A3 ltac:(now rewrite objs_len)) as (m & E & M1 & M2). unfold objs in E. rewrite E. eexists. split; [reflexivity|].
  apply (vinv_inplace N s q i (MkSv p (S (length l')) c) (l' ++ [v]) l' m (length l')); auto; cbn [v_cap v_first]; [lia|]. rewrite M1. now rewrite layout_snoc by lia.
Qed.
Lemma resize_ok N s q i n v l : (1 <= N)%nat -> vinv N s q -> q i = Some l -> Z.of_nat n <= 2 ^ 30 -> exists s', vstep false N s (Resize i n v) = Some s' /\ vinv N s' (sput q i (Some (firstn n l ++ repeat v (n - length l)))).
Proof.
  intros HN V Hq Hn. destruct (env_some _ _ _ _ _ V Hq) as (x0 & Hx0 & K0). pose proof (cap_pos _ _ _ _ _ HN K0) as Cp. cbn [vstep]. rewrite Hx0.
  assert (G : exists s1 x, maybe_grow (v_cap x0 <? n)%nat i n s = Some s1 /\ vinv N s1 q /\ s_env s1 i = Some x /\ (n <= v_cap x)%nat).
  { destruct (Nat.ltb_spec (v_cap x0) n) as [L|L]; cbn [maybe_grow]; [|exists s, x0; auto]. destruct (new_cap_ok (Z.of_nat (v_cap x0)) (Z.of_nat n)) as (j & J1 & J2 & J3 & J4); [lia|right; lia|]. destruct J4 as [[J4 _]|J4]; [lia|].
    destruct (grow_ok N s q i x0 l n j V Hx0 Hq Cp J1 J2 ltac:(lia)) as (s1 & G1 & G2 & G3 & G4). exists s1. eexists. split; [exact G1|]. split; auto. split; [exact G3|]. cbn [v_cap]. lia. }
  destruct G as (s1 & x & E & V1 & Hx & Hc). rewrite E, Hx. clear E. destruct (i_vec _ _ _ V1 _ _ _ Hx Hq) as (A1 & A2 & A3 & _ & _). destruct (Nat.ltb_spec n (v_size x)) as [L|L].
  - assert (Hsplit : layout l (v_cap x) = objs (firstn n l) ++ objs (skipn n l) ++ raws (v_cap x - length l)) by (unfold layout; rewrite app_assoc, <- objs_app, firstn_skipn; reflexivity). rewrite Hsplit in A3.
    destruct (destroy_n_ok (v_first x) (objs (skipn n l)) (s_mem s1) (objs (firstn n l)) _ n A3) as (m & E & M1 & M2); [apply objs_isobj|rewrite objs_len, firstn_length; lia|]. rewrite objs_len, skipn_length in E, M1. rewrite A1, E. eexists. split; [reflexivity|].
    replace (n - length l)%nat with 0%nat by lia. cbn [repeat]. rewrite app_nil_r. apply (vinv_inplace N s1 q i x l (firstn n l) m n); auto; rewrite ?firstn_length; try lia. rewrite M1. unfold layout. rewrite raws_app, firstn_length. do 2 f_equal. f_equal. lia.
  - unfold layout in A3. replace (v_cap x - length l)%nat with ((n - length l) + (v_cap x - n))%nat in A3 by lia. rewrite <- raws_app in A3. destruct (fill_ok (v_first x) v (n - length l) (s_mem s1) (objs l) _ (v_size x) A3) as (m & E & M1 & M2); [now rewrite objs_len|]. rewrite A1 in *. rewrite E. eexists. split; [reflexivity|].
    rewrite firstn_all2 by lia. apply (vinv_inplace N s1 q i x l (l ++ repeat v (n - length l)) m n); auto; rewrite ?app_length, ?repeat_length; try lia. rewrite M1. unfold layout. rewrite objs_app, <- app_assoc, app_length, repeat_length. rewrite objs_repeat. do 4 f_equal. lia.
Qed.
Lemma erase_ok N s q i a b l : vinv N s q -> q i = Some l -> (a <= b <= length l)%nat -> exists s', vstep false N s (Erase i a b) = Some s' /\ vinv N s' (sput q i (Some (firstn a l ++ skipn b l))).
Proof.
  intros V Hq Hab. destruct (env_some _ _ _ _ _ V Hq) as (x & Hx & (A1 & A2 & A3 & _ & _)). cbn [vstep]. rewrite Hx. destruct (Nat.eqb_spec a b) as [-> |Hn].
  - exists s. split; auto. apply (vinv_ext N s q); auto. intros j. unfold sput. destruct (Nat.eqb_spec j i) as [-> |]; auto. rewrite firstn_skipn. auto.
  - set (l1 := firstn a l). set (l2 := firstn (b - a) (skipn a l)). set (l3 := skipn b l). assert (Hl : l = l1 ++ l2 ++ l3). { unfold l1, l2, l3. replace (skipn b l) with (skipn (b - a) (skipn a l)) by (rewrite <- skipn_more; f_equal; lia). rewrite firstn_skipn, firstn_skipn. reflexivity. }
    assert (L1 : length l1 = a) by (unfold l1; rewrite firstn_length; lia). assert (L2 : length l2 = (b - a)%nat) by (unfold l2; rewrite firstn_length, skipn_length; lia). assert (L3 : length l3 = (length l - b)%nat) by (unfold l3; apply skipn_length).
    clearbody l1 l2 l3. assert (B3 : s_mem s (v_first x) = Some (objs l1 ++ objs l2 ++ map Obj (map Some l3) ++ raws (v_cap x - length l))). { rewrite A3. unfold layout. rewrite Hl at 1. rewrite !objs_app, <- !app_assoc. do 3 f_equal. unfold objs. now rewrite map_map. }
    destruct (shift_ok (v_first x) (map Some l3) (s_mem s) (objs l1) (objs l2) (raws (v_cap x - length l)) a b) as (m1 & es & E & M1 & Le & Fe & M2); auto.
    { destruct l2; [cbn in L2; lia|discriminate]. } { apply objs_isobj. } { now rewrite objs_len. } { rewrite !objs_len. lia. }
    rewrite map_length, L3 in E. rewrite A1, E. replace (length l - (a + (length l - b)))%nat with (length es) by (rewrite Le, objs_len; lia).
    rewrite map_map in M1. fold (objs l3) in M1. rewrite app_assoc, <- objs_app in M1. destruct (destroy_n_ok (v_first x) es m1 (objs (l1 ++ l3)) _ (a + (length l - b)) M1 Fe) as (m2 & E2 & P1 & P2); [rewrite objs_len, app_length; lia|]. rewrite E2. eexists. split; [reflexivity|].
    apply (vinv_inplace N s q i x l (l1 ++ l3) m2); auto; rewrite ?app_length; try lia.
    + rewrite P1. unfold layout. rewrite raws_app, app_length, Le, objs_len. do 3 f_equal. lia. + intros r Hr. rewrite P2, M2; auto.
Qed.
Lemma put_ok N s q i k v l : vinv N s q -> q i = Some l -> (k < length l)%nat -> exists s', vstep false N s (Put i k v) = Some s' /\ vinv N s' (sput q i (Some (firstn k l ++ v :: skipn (S k) l))).
Proof.
  intros V Hq Hk. destruct (env_some _ _ _ _ _ V Hq) as (x & Hx & K). pose proof K as (A1 & A2 & A3 & _ & _). cbn [vstep]. rewrite Hx. destruct (nth_error l k) as [w|] eqn:Ew; [|apply nth_error_None in Ew; lia].
  destruct (nth_error_split l k Ew) as (l1 & l2 & -> & L1). assert (F1 : firstn k (l1 ++ w :: l2) = l1) by (rewrite firstn_app, <- L1, firstn_all, Nat.sub_diag; apply app_nil_r). assert (F2 : skipn (S k) (l1 ++ w :: l2) = l2) by (rewrite mid_snoc, <- L1, <- (snoc_len l1 w), skipn_app, skipn_all, Nat.sub_diag; reflexivity). rewrite F1, F2.
  assert (B3 : s_mem s (v_first x) = Some (objs l1 ++ Obj (Some w) :: objs l2 ++ raws (v_cap x - length (l1 ++ w :: l2)))) by (rewrite A3; unfold layout; rewrite objs_app, <- app_assoc; reflexivity).
  assert (Lk : k = length (objs l1)) by now rewrite objs_len. rewrite (cget_mid _ _ _ _ _ _ B3 Lk). eexists. split; [reflexivity|].
  assert (Hlen : length (l1 ++ v :: l2) = length (l1 ++ w :: l2)) by (rewrite !app_length; reflexivity).
  pose proof (vinv_inplace N s q i x _ (l1 ++ v :: l2) (cset (s_mem s) (v_first x) k (Obj (Some v))) (v_size x) V Hx Hq) as U. destruct U as [U1 U2 U3 U4 U5]; try lia.
  { rewrite (cset_mid _ _ _ _ _ _ _ B3 Lk). unfold layout. rewrite Hlen, objs_app, <- app_assoc. reflexivity. } { intros r Hr. now apply cset_ne. }
  assert (Ev : forall a, eput (s_env s) i (Some (MkSv (v_first x) (v_size x) (v_cap x))) a = s_env s a). { intros a. unfold eput. destruct (Nat.eqb_spec a i) as [-> |]; auto. rewrite Hx. now destruct x. }
  constructor; cbn [set_mem s_env s_mem s_next] in *.
  - intros a. rewrite <- Ev. apply U1.
  - intros a. rewrite <- Ev. apply U2.
  - intros a y r. rewrite <- Ev. intros E1 E2. exact (U3 a y r E1 E2).
  - intros a c y z b. rewrite <- !Ev. apply U4.
  - intros b Hb. destruct (U5 b Hb) as (j & y & Y1 & Y2). exists j, y. now rewrite <- Ev.
Qed.
Lemma assign_ok N s q i j l l' : (1 <= N)%nat -> vinv N s q -> q i = Some l' -> q j = Some l -> exists s', vstep false N s (Assign i j) = Some s' /\ vinv N s' (sput q i (Some l)).
Proof.
  intros HN V Hi Hj. destruct (env_some _ _ _ _ _ V Hi) as (x & Hx & Kx). destruct (env_some _ _ _ _ _ V Hj) as (y & Hy & Ky). pose proof (cap_pos _ _ _ _ _ HN Kx) as Cp. cbn [vstep]. rewrite Hx, Hy. destruct (Nat.eqb_spec i j) as [<- |Hn].
  - exists s. split; auto. apply (vinv_ext N s q); auto. intros a. unfold sput. destruct (Nat.eqb_spec a i) as [-> |]; auto.
  - destruct (clear_ok N s q i x l' V Hx Hi) as (m & E & V1). rewrite E. set (s0 := set_mem s m i (MkSv (v_first x) 0 (v_cap x))) in *. destruct Kx as (_ & _ & _ & (_ & a & A0 & Ha) & _). destruct Ky as (Y1 & Y2 & _ & (Yb & b & B0 & Hb) & _).
    assert (Hx0 : s_env s0 i = Some (MkSv (v_first x) 0 (v_cap x))) by apply eput_eq. assert (Hy0 : s_env s0 j = Some y) by (unfold s0; cbn; rewrite eput_ne; auto).
    assert (G : exists s1 x1, maybe_grow (v_cap x <? v_cap y)%nat i (v_cap y) s0 = Some s1 /\ vinv N s1 (sput q i (Some [])) /\ s_env s1 i = Some x1 /\ (v_cap y <= v_cap x1)%nat /\ s_env s1 j = Some y).
    { destruct (Nat.ltb_spec (v_cap x) (v_cap y)) as [L|L]; cbn [maybe_grow]; [|exists s0; eexists; repeat (split; eauto); exact L]. destruct (new_cap_ok (Z.of_nat (v_cap x)) (Z.of_nat (v_cap y))) as (k & J1 & J2 & J3 & J4); [lia|right; lia|]. destruct J4 as [[J4 _]|J4]; [lia|].
      assert (Hc : Z.of_nat (v_cap x) * 2 ^ k <= 2 ^ 31). { rewrite Ha, Hb in J4. rewrite Ha. rewrite <- Z.mul_assoc, <- Z.pow_add_r in * by lia. replace (2 * (Z.of_nat N * 2 ^ b)) with (Z.of_nat N * 2 ^ (b + 1)) in J4 by (rewrite Z.pow_add_r by lia; lia).
        apply Z.mul_lt_mono_pos_l in J4; [|lia]. apply Z.pow_lt_mono_r_iff in J4; [|lia|lia]. assert (2 ^ (a + k) <= 2 ^ b) by (apply Z.pow_le_mono_r; lia). assert (Z.of_nat N * 2 ^ (a + k) <= Z.of_nat N * 2 ^ b) by (apply Z.mul_le_mono_nonneg_l; lia). lia. }
      destruct (grow_ok N s0 (sput q i (Some [])) i (MkSv (v_first x) 0 (v_cap x)) [] (v_cap y) k V1 Hx0 (sput_eq _ _ _) Cp J1 J2 Hc) as (s1 & G1 & G2 & G3 & G4). exists s1. eexists. split; [exact G1|]. split; auto. split; [exact G3|]. cbn [v_cap]. split; [lia|]. now rewrite G4 by auto. }
    destruct G as (s1 & x1 & E1 & V2 & Hx1 & Hc & Hy1). rewrite E1, Hx1. destruct (i_vec _ _ _ V2 _ _ _ Hx1 (sput_eq _ _ _)) as (_ & _ & A3 & _ & _). destruct (i_vec _ _ _ V2 j y l Hy1) as (_ & _ & C3 & _ & _); [now rewrite sput_ne by auto|].
    unfold layout in A3, C3. cbn [objs map app length] in A3. rewrite Nat.sub_0_r in A3. replace (v_cap x1) with (length l + (v_cap x1 - length l))%nat in A3 by lia. rewrite <- raws_app in A3.
    destruct (copy_n_ok (v_first y) (v_first x1) ltac:(apply (first_ne _ _ _ _ _ _ _ V2 Hy1 Hx1); auto) l (s_mem s1) [] _ [] _ 0 C3 A3 eq_refl eq_refl) as (m2 & E2 & M1 & M2). rewrite Y1, E2. eexists. split; [reflexivity|].
    apply (vinv_ext _ _ _ _ (sput_sput q i (Some []) _)). apply (vinv_inplace N s1 _ i x1 [] l m2 (length l)); auto; [apply sput_eq|lia].
Qed.

Lemma vstep_ok fix_ N s q o q' : (1 <= N)%nat -> Z.of_nat N <= 2 ^ 30 -> vinv N s q -> sstep q o = Some q' -> small q' -> fix_ = true \/ no_alias o -> exists s', vstep fix_ N s o = Some s' /\ vinv N s' q'.
Proof.
  intros HN HN2 V Hs Sm Hf. destruct o; cbn [sstep] in Hs.
  - destruct (q i) eqn:Hq; [discriminate|]. injection Hs as <-. cbn [vstep]. rewrite (env_none _ _ _ _ V Hq). eexists. split; [reflexivity|]. now apply new_ok.
  - destruct (q i) eqn:Hq; [discriminate|]. destruct (q j) as [l|] eqn:Hj; [|discriminate]. injection Hs as <-. cbn [vstep]. rewrite (env_none _ _ _ _ V Hq). destruct (env_some _ _ _ _ _ V Hj) as (y & Hy & (A1 & _)). rewrite Hy, A1.
    apply (push_all_ok N q i j HN ltac:(congruence) l [] _ Hj (new_ok N s q i HN2 V Hq)). apply (Sm i). apply sput_eq.
  - destruct (q i) as [l|] eqn:Hq; [|discriminate]. injection Hs as <-. destruct (env_some _ _ _ _ _ V Hq) as (x & Hx & _). exact (drop_ok N s q i x l V Hx Hq).
  - destruct (q i) as [l|] eqn:Hq; [|discriminate]. injection Hs as <-. pose proof (Sm i _ (sput_eq _ _ _)) as S1. rewrite snoc_len in S1. apply push_ok; auto. lia.
  - destruct (q i) as [l|] eqn:Hq; [|discriminate]. destruct (q j) as [l'|] eqn:Hj; [|discriminate]. destruct (nth_error l' k) as [v|] eqn:Hk; [|discriminate]. injection Hs as <-. pose proof (Sm i _ (sput_eq _ _ _)) as S1. rewrite snoc_len in S1. apply (push_at_ok fix_ N s q i j k l l' v); auto. lia.
  - destruct (q i) as [l|] eqn:Hq; [|discriminate]. destruct (Nat.eqb_spec (length l) 0) as [|Hl]; [discriminate|]. injection Hs as <-. apply (pop_ok N s q i l V Hq). intros ->. now apply Hl.
  - destruct (q i) as [l|] eqn:Hq; [|discriminate]. injection Hs as <-. destruct (env_some _ _ _ _ _ V Hq) as (x & Hx & _). destruct (clear_ok N s q i x l V Hx Hq) as (m & E & V1). cbn [vstep]. rewrite Hx, E. eauto.
  - destruct (q i) as [l|] eqn:Hq; [|discriminate]. injection Hs as <-. pose proof (Sm i _ (sput_eq _ _ _)) as S1. rewrite app_length, firstn_length, repeat_length in S1. apply (resize_ok N s q i n v l); auto. lia.
  - destruct (q i) as [l|] eqn:Hq; [|discriminate]. destruct ((a <=? b)%nat && (b <=? length l)%nat) eqn:Hb; [|discriminate]. injection Hs as <-. apply andb_prop in Hb. destruct Hb as [B1 B2]. apply Nat.leb_le in B1, B2. apply (erase_ok N s q i a b l); auto.
  - destruct (q i) as [l|] eqn:Hq; [|discriminate]. destruct (Nat.ltb_spec k (length l)) as [Hk|]; [|discriminate]. injection Hs as <-. now apply (put_ok N s q i k v l).
  - destruct (q i) as [l'|] eqn:Hq; [|discriminate]. destruct (q j) as [l|] eqn:Hj; [|discriminate]. injection Hs as <-. now apply (assign_ok N s q i j l l').
Qed.
Lemma vrun_ok fix_ N : (1 <= N)%nat -> Z.of_nat N <= 2 ^ 30 -> forall l s q q', vinv N s q -> srun q l = Some q' -> stays_small q l -> fix_ = true \/ Forall no_alias l -> exists s', vrun fix_ N s l = Some s' /\ vinv N s' q'.
Proof.
  intros HN HN2. induction l as [|o l IH]; intros s q q' V Hs Sm Hf; cbn [srun vrun stays_small] in *; [injection Hs as <-; eauto|].
  destruct (sstep q o) as [q1|] eqn:Eo; [|discriminate]. destruct Sm as [_ Sm]. assert (S1 : small q1) by (destruct l; apply Sm).
  destruct (vstep_ok fix_ N s q o q1 HN HN2 V Eo S1) as (s1 & E1 & V1). { destruct Hf as [Hf|Hf]; auto. right. now inversion Hf. }
  rewrite E1. apply (IH s1 q1); auto. destruct Hf as [Hf|Hf]; auto. right. now inversion Hf.
Qed.
Lemma vinv_shows N s q i l : vinv N s q -> q i = Some l -> shows s i l.
Proof. intros V Hq. destruct (env_some _ _ _ _ _ V Hq) as (x & Hx & (A1 & A2 & A3 & _)). exists x. split; auto. split; auto. intros k Hk. now apply (value_layout _ _ _ (v_cap x)). Qed.
Lemma vinv_objects N s q p b : vinv N s q -> s_mem s p = Some b -> exists i x, s_env s i = Some x /\ (p = v_first x /\ objects b = v_size x \/ p = Inl i /\ p <> v_first x /\ objects b = 0%nat).
Proof.
  intros V Hm. destruct p as [i|h].
  - destruct (s_env s i) as [x|] eqn:Hx; [|rewrite (i_none _ _ _ V i Hx) in Hm; discriminate]. exists i, x. split; auto. destruct (seq_some _ _ _ _ _ V Hx) as (l & _ & (A1 & A2 & A3 & _ & [[W1 W2]|(h & W1 & W2 & W3)])).
    + left. split; auto. rewrite W1 in A3. rewrite A3 in Hm. injection Hm as <-. rewrite objects_layout. auto.
    + right. split; auto. split; [congruence|]. rewrite W3 in Hm. injection Hm as <-. apply objects_raws.
  - destruct (i_own _ _ _ V h ltac:(congruence)) as (i & x & Hx & Hf). exists i, x. split; auto. left. split; auto. destruct (seq_some _ _ _ _ _ V Hx) as (l & _ & (A1 & A2 & A3 & _)). rewrite Hf, Hm in A3. injection A3 as ->. rewrite objects_layout. auto.
Qed.
Lemma vinv_empty N s q : vinv N s q -> (forall i, q i = None) -> forall p, s_mem s p = None.
Proof.
  intros V H p. destruct (s_mem s p) as [b|] eqn:E; auto. destruct (vinv_objects _ _ _ _ _ V E) as (i & x & Hx & _). rewrite (env_none _ _ _ _ V (H i)) in Hx. discriminate.
Qed.
