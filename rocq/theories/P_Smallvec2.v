(* small_vector: the invariant, and every operation keeps it. *)
From Verif Require Import Lib M_Smallvec Spec_Smallvec P_Smallvec1.

Definition capok (N c : nat) : Prop := Z.of_nat c <= 2 ^ 31 /\ exists k, 0 <= k /\ Z.of_nat c = Z.of_nat N * 2 ^ k.
Definition vecok (N : nat) (s : vst) (i : nat) (x : sv) (l : list Z) : Prop :=
  v_size x = length l /\ (length l <= v_cap x)%nat /\ s_mem s (v_first x) = Some (layout l (v_cap x)) /\ capok N (v_cap x) /\
  (v_first x = Inl i /\ v_cap x = N \/ exists b, v_first x = Hp b /\ (b < s_next s)%nat /\ s_mem s (Inl i) = Some (raws N)).
Record vinv (N : nat) (s : vst) (q : seqs) : Prop := MkVinv {
  i_env : forall i, s_env s i = None <-> q i = None;
  i_none : forall i, s_env s i = None -> s_mem s (Inl i) = None;
  i_vec : forall i x l, s_env s i = Some x -> q i = Some l -> vecok N s i x l;
  i_uniq : forall i j x y b, s_env s i = Some x -> s_env s j = Some y -> v_first x = Hp b -> v_first y = Hp b -> i = j;
  i_own : forall b, s_mem s (Hp b) <> None -> exists i x, s_env s i = Some x /\ v_first x = Hp b }.

Lemma vinv_ext N s q q' : (forall i, q i = q' i) -> vinv N s q -> vinv N s q'.
Proof. intros E V. destruct V as [A B C D F]. constructor; auto. - intros i. rewrite <- E. apply A. - intros i x l H1 H2. apply C; auto. now rewrite E. Qed.
Lemma vinv_0 N : vinv N vst0 (fun _ => None).
Proof. constructor; cbn; intros; try congruence; tauto. Qed.
Lemma env_some N s q i l : vinv N s q -> q i = Some l -> exists x, s_env s i = Some x /\ vecok N s i x l.
Proof. intros V H. destruct (s_env s i) as [x|] eqn:E. - exists x. split; auto. now apply (i_vec _ _ _ V). - apply (i_env _ _ _ V) in E. congruence. Qed.
Lemma env_none N s q i : vinv N s q -> q i = None -> s_env s i = None.
Proof. intros V H. now apply (i_env _ _ _ V). Qed.
Lemma seq_some N s q i x : vinv N s q -> s_env s i = Some x -> exists l, q i = Some l /\ vecok N s i x l.
Proof. intros V H. destruct (q i) as [l|] eqn:E. - exists l. split; auto. now apply (i_vec _ _ _ V). - apply (i_env _ _ _ V) in E. congruence. Qed.
Lemma first_inl N s q i j x : vinv N s q -> s_env s i = Some x -> j <> i -> v_first x <> Inl j.
Proof. intros V H Hn. destruct (seq_some _ _ _ _ _ V H) as (l & _ & (_ & _ & _ & _ & [[E _]|(b & E & _)])); rewrite E; congruence. Qed.
Lemma first_ne N s q i j x y : vinv N s q -> s_env s i = Some x -> s_env s j = Some y -> i <> j -> v_first x <> v_first y.
Proof.
  intros V H1 H2 Hn E. destruct (v_first y) as [k|b] eqn:Ey.
  - destruct (Nat.eq_dec k i) as [-> |Hk]. + now apply (first_inl _ _ _ _ i _ V H2). + now apply (first_inl _ _ _ _ k _ V H1).
  - apply Hn. exact (i_uniq _ _ _ V _ _ _ _ _ H1 H2 E Ey).
Qed.

Lemma vinv_inplace N s q i x l l' m' n : vinv N s q -> s_env s i = Some x -> q i = Some l -> n = length l' -> (length l' <= v_cap x)%nat -> m' (v_first x) = Some (layout l' (v_cap x)) ->
  (forall r, r <> v_first x -> m' r = s_mem s r) -> vinv N (set_mem s m' i (MkSv (v_first x) n (v_cap x))) (sput q i (Some l')).
Proof.
  intros V Hx Hq -> Hl Hm Ho. pose proof (i_vec _ _ _ V _ _ _ Hx Hq) as (_ & _ & _ & Ck & W). constructor; cbn [set_mem s_env s_mem s_next].
  - intros j. destruct (Nat.eq_dec j i) as [-> |Hj]; [rewrite eput_eq, sput_eq; split; discriminate|]. rewrite eput_ne, sput_ne by auto. apply (i_env _ _ _ V).
  - intros j. destruct (Nat.eq_dec j i) as [-> |Hj]; [rewrite eput_eq; discriminate|]. rewrite eput_ne by auto. intros E. rewrite Ho; [now apply (i_none _ _ _ V)|]. intros E'. now apply (first_inl _ _ _ _ j _ V Hx Hj).
  - intros j y k. destruct (Nat.eq_dec j i) as [-> |Hj].
    + rewrite eput_eq, sput_eq. intros [= <-] [= <-]. unfold vecok. cbn [v_first v_size v_cap set_mem s_mem s_next]. split; auto. split; auto. split; auto. split; auto.
      destruct W as [W|(b & B1 & B2 & B3)]; [left; exact W|right]. exists b. split; auto. split; auto. rewrite Ho; auto. congruence.
    + rewrite eput_ne, sput_ne by auto. intros E1 E2. destruct (i_vec _ _ _ V _ _ _ E1 E2) as (A1 & A2 & A3 & A4 & A5). unfold vecok. cbn [set_mem s_mem s_next].
      split; auto. split; auto. split; [rewrite Ho; auto; now apply (first_ne _ _ _ _ _ _ _ V E1 Hx)|]. split; auto.
      destruct A5 as [A5|(b & B1 & B2 & B3)]; [left; exact A5|right]. exists b. split; auto. split; auto. rewrite Ho; auto. intros E'. now apply (first_inl _ _ _ _ j _ V Hx Hj).
  - intros a c y z b. destruct (Nat.eq_dec a i) as [-> |Ha], (Nat.eq_dec c i) as [-> |Hc]; auto; rewrite ?eput_eq, ?eput_ne by auto.
    + intros [= <-] E. cbn. intros F1 F2. exact (i_uniq _ _ _ V _ _ _ _ _ Hx E F1 F2).
    + intros E [= <-]. cbn. intros F1 F2. exact (i_uniq _ _ _ V _ _ _ _ _ E Hx F1 F2).
    + apply (i_uniq _ _ _ V).
  - intros b Hb. destruct (place_dec (Hp b) (v_first x)) as [E|E].
    + exists i. rewrite eput_eq. eexists. split; [reflexivity|]. cbn. auto.
    + rewrite Ho in Hb by auto. destruct (i_own _ _ _ V b Hb) as (j & y & E1 & E2). destruct (Nat.eq_dec j i) as [-> |Hj]; [congruence|]. exists j, y. now rewrite eput_ne.
Qed.

Lemma grow_ok N s q i x l n j : vinv N s q -> s_env s i = Some x -> q i = Some l -> (1 <= v_cap x)%nat -> 1 <= j ->
  new_cap (Z.of_nat (v_cap x)) (Z.of_nat n) = Some (Z.of_nat (v_cap x) * 2 ^ j) -> Z.of_nat (v_cap x) * 2 ^ j <= 2 ^ 31 ->
  exists s', grow i n s = Some s' /\ vinv N s' q /\ s_env s' i = Some (MkSv (Hp (s_next s)) (v_size x) (Z.to_nat (Z.of_nat (v_cap x) * 2 ^ j))) /\ forall a, a <> i -> s_env s' a = s_env s a.
Proof.
  intros V Hx Hq C1 J1 Hc Hb. pose proof (i_vec _ _ _ V _ _ _ Hx Hq) as (A1 & A2 & A3 & (_ & k & K0 & K1) & W). unfold grow. rewrite Hx, Hc.
  assert (Hj : 2 ^ 1 <= 2 ^ j) by (apply Z.pow_le_mono_r; lia). change (2 ^ 1) with 2 in Hj.
  assert (Hz : Z.of_nat (v_cap x) * 2 <= Z.of_nat (v_cap x) * 2 ^ j) by (apply Z.mul_le_mono_nonneg_l; lia).
  assert (Hk : Z.of_nat (Z.to_nat (Z.of_nat (v_cap x) * 2 ^ j)) = Z.of_nat N * 2 ^ (k + j)). { rewrite Z2Nat.id by lia. rewrite K1, Z.pow_add_r by lia. lia. }
  assert (Hk' : Z.of_nat (Z.to_nat (Z.of_nat (v_cap x) * 2 ^ j)) <= 2 ^ 31) by (rewrite Z2Nat.id; lia).
  assert (Hle : (v_cap x <= Z.to_nat (Z.of_nat (v_cap x) * 2 ^ j))%nat) by lia.
  set (c := Z.to_nat (Z.of_nat (v_cap x) * 2 ^ j)) in *. clearbody c. clear Hc Hb Hz.
  set (nb := Hp (s_next s)). assert (Hpq : v_first x <> nb) by (destruct W as [[W _]|(b & W & Wb & _)]; rewrite W; unfold nb; [discriminate|intros [= E]; lia]).
  destruct (relocate_ok (v_first x) nb Hpq (map Some l) (mput (s_mem s) nb (Some (repeat Raw c))) [] (raws (v_cap x - length l)) [] (raws (c - length l)) 0) as (m & E & M1 & M2 & M3); auto.
  { rewrite mput_ne by auto. rewrite A3. unfold layout, objs. now rewrite map_map. } { rewrite mput_eq. cbn [app]. rewrite map_length, raws_app. f_equal. unfold raws. f_equal. lia. }
  rewrite map_length in E, M1. cbn [app] in M1, M2. rewrite map_map in M2. fold (objs l) in M2. change (objs l ++ raws (c - length l)) with (layout l c) in M2. rewrite raws_app in M1. replace (length l + (v_cap x - length l))%nat with (v_cap x) in M1 by lia.
  rewrite A1. rewrite E. clear E.
  assert (Fin : forall m', (match v_first x with Inl _ => m' = m | Hp b => m' = mput m (Hp b) None end) ->
    vinv N (MkVst (eput (s_env s) i (Some (MkSv nb (length l) c))) m' (S (s_next s))) q).
  { intros m' Hm'.
    assert (O : forall r, r <> v_first x -> r <> nb -> m' r = s_mem s r). { intros r R1 R2. destruct (v_first x) as [a|b]; subst m'; [|rewrite mput_ne by auto]; rewrite M3 by auto; now rewrite mput_ne. }
    assert (Onb : m' nb = Some (layout l c)). { destruct (v_first x) as [a|b]; subst m'; auto. rewrite mput_ne by auto. auto. }
    assert (Oi : m' (Inl i) = Some (raws N)). { destruct W as [[W1 W2]|(b & W1 & W2 & W3)]. - rewrite W1 in Hm', M1. subst m'. now rewrite <- W2. - rewrite O; [auto|congruence|discriminate]. }
    assert (Ofr : forall b, v_first x = Hp b -> m' (Hp b) = None). { intros b W1. rewrite W1 in Hm'. subst m'. apply mput_eq. }
    constructor; cbn [s_env s_mem s_next].
    - intros a. destruct (Nat.eq_dec a i) as [-> |Ha]; [rewrite eput_eq, Hq; split; discriminate|]. rewrite eput_ne by auto. apply (i_env _ _ _ V).
    - intros a. destruct (Nat.eq_dec a i) as [-> |Ha]; [rewrite eput_eq; discriminate|]. rewrite eput_ne by auto. intros E. rewrite O; [now apply (i_none _ _ _ V)| |discriminate]. intros E'. now apply (first_inl _ _ _ _ a _ V Hx Ha).
    - intros a y r. destruct (Nat.eq_dec a i) as [-> |Ha].
      + rewrite eput_eq. intros [= <-] E2. assert (r = l) as -> by congruence. unfold vecok. cbn [v_first v_size v_cap s_mem s_next]. split; auto. split; [lia|]. split; auto. split; [split; [exact Hk'|exists (k + j); split; [lia|exact Hk]]|]. right. exists (s_next s). split; auto.
      + rewrite eput_ne by auto. intros E1 E2. destruct (i_vec _ _ _ V _ _ _ E1 E2) as (B1 & B2 & B3 & B4 & B5). unfold vecok. cbn [s_mem s_next].
        split; auto. split; auto. split. { rewrite O; auto; [now apply (first_ne _ _ _ _ _ _ _ V E1 Hx)|]. destruct B5 as [[B5 _]|(b & B5 & Bb & _)]; rewrite B5; unfold nb; [discriminate|intros [= E]; lia]. }
        split; auto. destruct B5 as [B5|(b & D1 & D2 & D3)]; [left; exact B5|right]. exists b. split; auto. split; [lia|]. rewrite O; auto; [|discriminate]. intros E'. now apply (first_inl _ _ _ _ a _ V Hx Ha).
    - intros a d y z b. destruct (Nat.eq_dec a i) as [-> |Ha], (Nat.eq_dec d i) as [-> |Hd]; auto; rewrite ?eput_eq, ?eput_ne by auto.
      + intros [= <-] E. unfold nb. cbn. intros [= <-] F2. exfalso. destruct (seq_some _ _ _ _ _ V E) as (? & _ & (_ & _ & _ & _ & [[B5 _]|(b & B5 & Bb & _)])); [congruence|]. rewrite B5 in F2. injection F2 as F2. lia.
      + intros E [= <-]. unfold nb. cbn. intros F2 [= <-]. exfalso. destruct (seq_some _ _ _ _ _ V E) as (? & _ & (_ & _ & _ & _ & [[B5 _]|(b & B5 & Bb & _)])); [congruence|]. rewrite B5 in F2. injection F2 as F2. lia.
      + apply (i_uniq _ _ _ V).
    - intros b Hb. destruct (place_dec (Hp b) nb) as [E|E].
      + exists i. rewrite eput_eq. eexists. split; [reflexivity|]. cbn. auto.
      + destruct (place_dec (Hp b) (v_first x)) as [E2|E2]; [exfalso; apply Hb; now apply Ofr|]. rewrite O in Hb by auto. destruct (i_own _ _ _ V b Hb) as (d & y & F1 & F2). destruct (Nat.eq_dec d i) as [-> |Hd]; [congruence|]. exists d, y. now rewrite eput_ne. }
  destruct (v_first x) as [a|b] eqn:Ef.
  - eexists. split; [reflexivity|]. split; [now apply Fin|]. cbn [s_env]. split; [now rewrite eput_eq|]. intros a' Ha. now rewrite eput_ne.
  - rewrite (release_ok _ _ _ M1). eexists. split; [reflexivity|]. split; [now apply Fin|]. cbn [s_env]. split; [now rewrite eput_eq|]. intros a' Ha. now rewrite eput_ne.
Qed.
