(* small_vector: loops over storage. *)
From Verif Require Import Lib M_Smallvec Spec_Smallvec.

Lemma place_eqb_refl p : place_eqb p p = true. Proof. destruct p; cbn; apply Nat.eqb_refl. Qed.
Lemma place_eqb_ne p q : p <> q -> place_eqb p q = false.
Proof. destruct p, q; cbn; intros H; auto; apply Nat.eqb_neq; congruence. Qed.
Lemma place_dec (p q : place) : {p = q} + {p <> q}. Proof. decide equality; apply Nat.eq_dec. Qed.
Lemma mput_eq m p b : mput m p b p = b. Proof. unfold mput. now rewrite place_eqb_refl. Qed.
Lemma mput_ne m p b q : q <> p -> mput m p b q = m q. Proof. intros H. unfold mput. now rewrite place_eqb_ne. Qed.
Lemma eput_eq e i v : eput e i v i = v. Proof. unfold eput. now rewrite Nat.eqb_refl. Qed.
Lemma eput_ne e i v j : j <> i -> eput e i v j = e j. Proof. intros H. unfold eput. destruct (Nat.eqb_spec j i); congruence. Qed.
Lemma sput_eq q i v : sput q i v i = v. Proof. unfold sput. now rewrite Nat.eqb_refl. Qed.
Lemma sput_ne q i v j : j <> i -> sput q i v j = q j. Proof. intros H. unfold sput. destruct (Nat.eqb_spec j i); congruence. Qed.

Lemma set_mid (a : list cell) x b c k : k = length a -> set_nth (a ++ x :: b) k c = a ++ c :: b.
Proof. intros ->. induction a; cbn; congruence. Qed.
Lemma nth_mid {A} (a : list A) x b k : k = length a -> nth_error (a ++ x :: b) k = Some x.
Proof. intros ->. induction a; auto. Qed.
Lemma cget_mid m p a x b k : m p = Some (a ++ x :: b) -> k = length a -> cget m p k = Some x.
Proof. intros H E. unfold cget. rewrite H. now apply nth_mid. Qed.
Lemma cset_mid m p a x b k c : m p = Some (a ++ x :: b) -> k = length a -> cset m p k c p = Some (a ++ c :: b).
Proof. intros H E. unfold cset. rewrite mput_eq, H. f_equal. now apply set_mid. Qed.
Lemma cset_ne m p k c q : q <> p -> cset m p k c q = m q. Proof. intros H. unfold cset. now apply mput_ne. Qed.

Definition raws (n : nat) : list cell := repeat Raw n.
Definition isobj (c : cell) : Prop := match c with Obj _ => True | Raw => False end.
Lemma raws_snoc a n b : (a ++ [Raw]) ++ raws n ++ b = a ++ raws (S n) ++ b. Proof. rewrite <- app_assoc. reflexivity. Qed.
Lemma snoc_len {A} (a : list A) x : length (a ++ [x]) = S (length a). Proof. rewrite app_length. cbn. lia. Qed.
Lemma mid_snoc {A} (a : list A) x b : a ++ x :: b = (a ++ [x]) ++ b. Proof. now rewrite <- app_assoc. Qed.

Lemma destroy_ok m p a o b k : m p = Some (a ++ Obj o :: b) -> k = length a -> exists m', destroy m p k = Some m' /\ m' p = Some (a ++ Raw :: b) /\ forall q, q <> p -> m' q = m q.
Proof. intros H E. unfold destroy. rewrite (cget_mid _ _ _ _ _ _ H E). eexists. split; [reflexivity|]. split; [now apply (cset_mid _ _ _ _ _ _ _ H)|]. intros q Hq. now apply cset_ne. Qed.
Lemma construct_ok m p a b k v : m p = Some (a ++ Raw :: b) -> k = length a -> exists m', construct m p k v = Some m' /\ m' p = Some (a ++ Obj (Some v) :: b) /\ forall q, q <> p -> m' q = m q.
Proof. intros H E. unfold construct. rewrite (cget_mid _ _ _ _ _ _ H E). eexists. split; [reflexivity|]. split; [now apply (cset_mid _ _ _ _ _ _ _ H)|]. intros q Hq. now apply cset_ne. Qed.
Lemma destroy_n_ok p : forall cs m a b k, m p = Some (a ++ cs ++ b) -> Forall isobj cs -> k = length a ->
  exists m', destroy_n (length cs) m p k = Some m' /\ m' p = Some (a ++ raws (length cs) ++ b) /\ forall q, q <> p -> m' q = m q.
Proof.
  induction cs as [|c cs IH]; intros m a b k H F E; cbn [length destroy_n]; [eauto|]. inversion F; subst. destruct c as [|o]; [contradiction|].
  destruct (destroy_ok m p a o (cs ++ b) _ H eq_refl) as (m1 & E1 & H1 & O1). rewrite E1. rewrite mid_snoc in H1.
  destruct (IH m1 (a ++ [Raw]) b (S (length a)) H1 H3 ltac:(now rewrite snoc_len)) as (m2 & E2 & H2' & O2). exists m2. split; auto. split; [rewrite H2'; now rewrite raws_snoc|]. intros q Hq. now rewrite O2, O1.
Qed.
Lemma fill_ok p v : forall n m a b k, m p = Some (a ++ raws n ++ b) -> k = length a ->
  exists m', fill n m p k v = Some m' /\ m' p = Some (a ++ repeat (Obj (Some v)) n ++ b) /\ forall q, q <> p -> m' q = m q.
Proof.
  induction n as [|n IH]; intros m a b k H E; cbn [fill]; [eauto|]. cbn [raws repeat app] in H.
  destruct (construct_ok m p a _ k v H E) as (m1 & E1 & H1 & O1). rewrite E1. rewrite mid_snoc in H1.
  destruct (IH m1 (a ++ [Obj (Some v)]) b (S k) H1 ltac:(rewrite snoc_len; lia)) as (m2 & E2 & H2 & O2). exists m2. split; auto. split; [rewrite H2; now rewrite <- app_assoc|]. intros q Hq. now rewrite O2, O1.
Qed.
Lemma relocate_ok p q : p <> q -> forall os m a1 b1 a2 b2 k, m p = Some (a1 ++ map Obj os ++ b1) -> m q = Some (a2 ++ raws (length os) ++ b2) -> k = length a1 -> k = length a2 ->
  exists m', relocate (length os) m p q k = Some m' /\ m' p = Some (a1 ++ raws (length os) ++ b1) /\ m' q = Some (a2 ++ map Obj os ++ b2) /\ forall r, r <> p -> r <> q -> m' r = m r.
Proof.
  intros N. induction os as [|o os IH]; intros m a1 b1 a2 b2 k H1 H2 K1 K2; cbn [length relocate]; [exists m; auto|]. cbn [map app length] in H1, H2. cbn [raws repeat app] in H2.
  unfold construct_moved. rewrite (cget_mid _ _ _ _ _ _ H1 K1), (cget_mid _ _ _ _ _ _ H2 K2). set (m1 := cset (cset m p k (Obj None)) q k (Obj o)).
  assert (A1 : m1 p = Some (a1 ++ Obj None :: map Obj os ++ b1)) by (unfold m1; rewrite cset_ne by auto; now apply (cset_mid _ _ _ _ _ _ _ H1)).
  assert (A2 : m1 q = Some (a2 ++ Obj o :: repeat Raw (length os) ++ b2)). { unfold m1. apply (cset_mid _ _ _ Raw); auto. rewrite cset_ne by auto. exact H2. }
  destruct (destroy_ok m1 p a1 None _ k A1 K1) as (m2 & E2 & B1 & O2). rewrite E2. rewrite mid_snoc in B1. assert (B2 : m2 q = Some (a2 ++ Obj o :: repeat Raw (length os) ++ b2)) by (rewrite O2; auto). rewrite mid_snoc in B2.
  destruct (IH m2 (a1 ++ [Raw]) b1 (a2 ++ [Obj o]) b2 (S k) B1 B2 ltac:(rewrite snoc_len; lia) ltac:(rewrite snoc_len; lia)) as (m3 & E3 & C1 & C2 & O3). exists m3. split; auto. split; [rewrite C1; now rewrite raws_snoc|]. split; [rewrite C2; now rewrite <- app_assoc|].
  intros r R1 R2. rewrite O3, O2 by auto. unfold m1. rewrite !cset_ne by auto. reflexivity.
Qed.
Definition objs (l : list Z) : list cell := map (fun v => Obj (Some v)) l.
Lemma objs_isobj l : Forall isobj (objs l). Proof. apply Forall_forall. intros c H. apply in_map_iff in H. destruct H as (v & <- & _). exact Logic.I. Qed.
Lemma objs_len l : length (objs l) = length l. Proof. apply map_length. Qed.
Lemma objs_app a b : objs (a ++ b) = objs a ++ objs b. Proof. apply map_app. Qed.
Lemma copy_n_ok p q : p <> q -> forall l m a1 b1 a2 b2 k, m p = Some (a1 ++ objs l ++ b1) -> m q = Some (a2 ++ raws (length l) ++ b2) -> k = length a1 -> k = length a2 ->
  exists m', copy_n (length l) m p q k = Some m' /\ m' q = Some (a2 ++ objs l ++ b2) /\ forall r, r <> q -> m' r = m r.
Proof.
  intros N. induction l as [|v l IH]; intros m a1 b1 a2 b2 k H1 H2 K1 K2; cbn [length copy_n]; [exists m; auto|]. cbn [objs map app length] in H1, H2. cbn [raws repeat app] in H2.
  unfold value. rewrite (cget_mid _ _ _ _ _ _ H1 K1). destruct (construct_ok m q a2 _ k v H2 K2) as (m1 & E1 & A2 & O1). rewrite E1. rewrite mid_snoc in A2. assert (A1 : m1 p = Some ((a1 ++ [Obj (Some v)]) ++ objs l ++ b1)) by (rewrite O1 by auto; rewrite H1; now rewrite <- app_assoc).
  destruct (IH m1 _ b1 _ b2 (S k) A1 A2 ltac:(rewrite snoc_len; lia) ltac:(rewrite snoc_len; lia)) as (m2 & E2 & B2 & O2). exists m2. split; auto. split; [rewrite B2; now rewrite <- app_assoc|]. intros r Hr. now rewrite O2, O1.
Qed.
Lemma shift_ok p : forall os m a cs b it last, cs <> [] -> m p = Some (a ++ cs ++ map Obj os ++ b) -> Forall isobj cs -> it = length a -> last = (length a + length cs)%nat ->
  exists m' es, shift (length os) m p it last = Some m' /\ m' p = Some (a ++ map Obj os ++ es ++ b) /\ length es = length cs /\ Forall isobj es /\ forall q, q <> p -> m' q = m q.
Proof.
  induction os as [|o os IH]; intros m a cs b it last Nc H F K1 K2; cbn [length shift]; [exists m, cs; auto|]. destruct cs as [|c cs]; [congruence|]. clear Nc. cbn [map] in H. inversion F as [|? ? Fc Fs]; subst. destruct c as [|oc]; [contradiction|].
  assert (H' : m p = Some ((a ++ Obj oc :: cs) ++ Obj o :: map Obj os ++ b)) by (rewrite H; rewrite <- app_assoc; reflexivity).
  unfold assign_moved. rewrite (cget_mid m p (a ++ Obj oc :: cs) (Obj o) (map Obj os ++ b) (length a + length (Obj oc :: cs)) H') by (rewrite app_length; reflexivity).
  rewrite (cget_mid m p a (Obj oc) (cs ++ Obj o :: map Obj os ++ b) (length a) H eq_refl).
  set (m1 := cset (cset m p (length a + length (Obj oc :: cs)) (Obj None)) p (length a) (Obj o)).
  assert (A : m1 p = Some ((a ++ [Obj o]) ++ (cs ++ [Obj None]) ++ map Obj os ++ b)).
  { unfold m1. rewrite <- app_assoc. cbn [app]. apply (cset_mid _ _ _ (Obj oc)); auto. rewrite (cset_mid m p (a ++ Obj oc :: cs) (Obj o) (map Obj os ++ b)) by (auto; rewrite app_length; reflexivity). rewrite <- !app_assoc. reflexivity. }
  destruct (IH m1 (a ++ [Obj o]) (cs ++ [Obj None]) b (S (length a)) (S (length a + length (Obj oc :: cs))) ltac:(destruct cs; discriminate) A) as (m2 & es & E2 & B & L & Fe & O2).
  { apply Forall_app. split; [exact Fs|]. constructor; [exact Logic.I|constructor]. } { now rewrite snoc_len. } { rewrite !snoc_len. cbn. lia. }
  exists m2, es. split; auto. split; [rewrite B, <- app_assoc; reflexivity|]. split; [rewrite L, snoc_len; reflexivity|]. split; auto. intros q Hq. rewrite O2 by auto. unfold m1. rewrite !cset_ne by auto. reflexivity.
Qed.
Lemma all_raw_raws n : all_raw (raws n) = true. Proof. induction n; auto. Qed.
Lemma raws_len n : length (raws n) = n. Proof. apply repeat_length. Qed.
Lemma release_ok m p n : m p = Some (raws n) -> release m p n = Some (mput m p None).
Proof. intros H. unfold release. rewrite H, raws_len, Nat.eqb_refl, all_raw_raws. reflexivity. Qed.
Lemma raws_app a b : raws a ++ raws b = raws (a + b). Proof. symmetry. apply repeat_app. Qed.
Definition layout (l : list Z) (cap : nat) : list cell := objs l ++ raws (cap - length l).
Lemma value_layout m p l cap k : m p = Some (layout l cap) -> (k < length l)%nat -> value m p k = nth_error l k.
Proof.
  intros H L. unfold value, cget. rewrite H. unfold layout. rewrite nth_error_app1 by (rewrite objs_len; lia). unfold objs. rewrite nth_error_map. now destruct (nth_error l k).
Qed.
Lemma objects_raws n : objects (raws n) = 0%nat. Proof. unfold objects. induction n; auto. Qed.
Lemma objects_objs l : objects (objs l) = length l. Proof. unfold objects. induction l; cbn; auto. Qed.
Lemma objects_layout l cap : objects (layout l cap) = length l.
Proof. unfold layout. transitivity (objects (objs l) + objects (raws (cap - length l)))%nat; [unfold objects; now rewrite filter_app, app_length|]. rewrite objects_objs, objects_raws. lia. Qed.

(* The capacity chosen by grow. *)
Lemma double_to_ok n : n <= 2 ^ 31 -> forall f c, 1 <= c -> n <= c * 2 ^ Z.of_nat f -> exists j, 0 <= j /\ double_to f c n = Some (c * 2 ^ j) /\ n <= c * 2 ^ j /\ (j = 0 \/ c * 2 ^ j < 2 * n).
Proof.
  intros Hn. induction f as [|f IH]; intros c Hc Hf; cbn [double_to]; destruct (Z.leb_spec n c) as [L|L].
  - exists 0. rewrite Z.mul_1_r. repeat split; auto; lia.
  - cbn in Hf. lia.
  - exists 0. rewrite Z.mul_1_r. repeat split; auto; lia.
  - rewrite Z.mod_small by lia. destruct (IH (c * 2) ltac:(lia)) as (j & J0 & J1 & J2 & J3). { rewrite Nat2Z.inj_succ, Z.pow_succ_r in Hf by lia. lia. }
    exists (j + 1). rewrite Z.pow_add_r by lia. replace (c * (2 ^ j * 2 ^ 1)) with (c * 2 * 2 ^ j) by lia. repeat split; auto; try lia. right. destruct J3 as [-> |]; auto. rewrite Z.mul_1_r. lia.
Qed.
Lemma new_cap_ok cap n : 1 <= cap -> (n = 0 /\ cap <= 2 ^ 30 \/ cap < n <= 2 ^ 31) -> exists j, 1 <= j /\ new_cap cap n = Some (cap * 2 ^ j) /\ n <= cap * 2 ^ j /\ (n = 0 /\ j = 1 \/ cap * 2 ^ j < 2 * n).
Proof.
  intros H1 H2. unfold new_cap. rewrite Z.mod_small by lia. destruct (double_to_ok n ltac:(lia) 64 (cap * 2) ltac:(lia)) as (j & J0 & J1 & J2 & J3). { change (2 ^ Z.of_nat 64) with 18446744073709551616. lia. }
  exists (j + 1). rewrite Z.pow_add_r by lia. replace (cap * (2 ^ j * 2 ^ 1)) with (cap * 2 * 2 ^ j) by lia. repeat split; auto; try lia.
  destruct H2 as [[-> H2]|H2]; [left|right].
  - cbn [new_cap] in J1. split; auto. destruct J3 as [-> |J3]; auto. lia.
  - destruct J3 as [-> |J3]; [rewrite Z.mul_1_r; lia|lia].
Qed.
