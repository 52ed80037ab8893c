(* Layers: rows, and what the tree of layers shows. *)
From Verif Require Import Lib M_Layers.

Lemma leqb_ok a b : leqb a b = true <-> a = b.
Proof.
  revert b. induction a as [|x a IH]; intros [|y b]; cbn [leqb]; try (split; [discriminate|discriminate]); [tauto|]. rewrite andb_true_iff, Z.eqb_eq, IH. split; [intros (-> & ->); reflexivity|now intros [= -> ->]].
Qed.
Lemma kqb_ok p q : kqb p q = true <-> p = q.
Proof.
  destruct p as [a b], q as [c d]. unfold kqb. cbn [fst snd]. rewrite andb_true_iff, leqb_ok, eqb_true_iff. split; [intros (-> & ->); reflexivity|now intros [= -> ->]].
Qed.
Lemma kqb_no p q : kqb p q = false <-> p <> q. Proof. rewrite <- kqb_ok. destruct (kqb p q); intuition congruence. Qed.
Lemma kq_dec (p q : lkey) : p = q \/ p <> q. Proof. destruct (kqb p q) eqn:E; [left; now apply kqb_ok|right; now apply kqb_no]. Qed.
Lemma lget_del p q l : lget p (ldel q l) = if kqb q p then None else lget p l.
Proof.
  induction l as [|[a x] l IH]; cbn [ldel filter lget fst]; [now destruct (kqb q p)|]. destruct (kqb a q) eqn:E; cbn [negb].
  - apply kqb_ok in E. subst a. unfold ldel in IH. rewrite IH. now destruct (kqb q p).
  - cbn [lget]. unfold ldel in IH. rewrite IH. destruct (kqb q p) eqn:F; [|reflexivity]. apply kqb_ok in F. subst p. now rewrite E.
Qed.
Lemma lget_put p q x l : lget p (lput q x l) = if kqb q p then Some x else lget p l.
Proof. unfold lput. cbn [lget]. destruct (kqb q p) eqn:E; [reflexivity|]. now rewrite lget_del, E. Qed.
Lemma kqb_rf q : kqb q q = true. Proof. now apply kqb_ok. Qed.
Lemma kqb_sy p q : p <> q -> kqb q p = false. Proof. intros N. apply kqb_no. congruence. Qed.

Lemma slice_long r q : slice r = q -> snd q = true -> r = fst q ++ skipn 8 r /\ skipn 8 r <> [] /\ length (fst q) = 8%nat.
Proof.
  intros <- H. unfold slice in *. cbn [fst snd] in *. apply Nat.ltb_lt in H. split; [now rewrite firstn_skipn|]. split; [|rewrite firstn_length; lia].
  intros E. apply (f_equal (@length Z)) in E. rewrite skipn_length in E. cbn in E. lia.
Qed.
Lemma slice_short r q : slice r = q -> snd q = false -> r = fst q.
Proof. intros <- H. unfold slice in *. cbn [fst snd] in *. apply Nat.ltb_ge in H. symmetry. now apply firstn_all2. Qed.
Lemma slice_app q r : length (fst q) = 8%nat -> snd q = true -> r <> [] -> slice (fst q ++ r) = q /\ skipn 8 (fst q ++ r) = r.
Proof.
  intros A B N. unfold slice. destruct q as [a b]. cbn [fst snd] in *. subst b. rewrite firstn_app, skipn_app, A, Nat.sub_diag, firstn_O, app_nil_r.
  rewrite (firstn_all2 a), (skipn_all2 a) by lia. split; [|reflexivity]. f_equal. apply Nat.ltb_lt. rewrite app_length. destruct r; [congruence|cbn; lia].
Qed.
Lemma slice_flag r : snd (slice r) = (8 <? length r)%nat. Proof. reflexivity. Qed.

(* What a layer shows for the rest r of a key. *)
Inductive has_in (s : lst) : nat -> list Z -> Z -> Prop :=
| h_val L r v : lget (slice r) (rws s L) = Some (RVal v) -> has_in s L r v
| h_suf L r v : lget (slice r) (rws s L) = Some (RSuf (skipn 8 r) v) -> has_in s L r v
| h_lay L r v L' : lget (slice r) (rws s L) = Some (RLay L') -> has_in s L' (skipn 8 r) v -> has_in s L r v.
Definition has (s : lst) (k : list Z) (v : Z) : Prop := has_in s 0 k v.
Definition entry (s : lst) (k : list Z) (r : option Z) : Prop := forall v, has s k v <-> r = Some v.

Lemma has_none s L r v : lget (slice r) (rws s L) = None -> ~ has_in s L r v.
Proof. intros E H. inversion H; congruence. Qed.
Lemma has_val s L r v0 v : lget (slice r) (rws s L) = Some (RVal v0) -> (has_in s L r v <-> v0 = v).
Proof. intros E. split; [intros H; inversion H; congruence|intros ->; now apply h_val]. Qed.
Lemma has_suf s L r x v0 v : lget (slice r) (rws s L) = Some (RSuf x v0) -> (has_in s L r v <-> x = skipn 8 r /\ v0 = v).
Proof. intros E. split; [intros H; inversion H; split; congruence|intros (-> & ->); now apply h_suf]. Qed.
Lemma has_lay s L r L' v : lget (slice r) (rws s L) = Some (RLay L') -> (has_in s L r v <-> has_in s L' (skipn 8 r) v).
Proof. intros E. split; [intros H; inversion H; congruence|intros H; now apply (h_lay s L r v L')]. Qed.
Lemma has_ext s s' : (forall L, rws s' L = rws s L) -> forall L r v, has_in s L r v -> has_in s' L r v.
Proof.
  intros E L r v H. induction H as [L r v H|L r v H|L r v L' H _ IH].
  - apply h_val. now rewrite E.
  - apply h_suf. now rewrite E.
  - apply (h_lay s' L r v L'); [now rewrite E|exact IH].
Qed.
Lemma has_new_row s L r w v x : lget (slice x) (rws s L) = Some (new_row r w) -> slice x = slice r -> (has_in s L x v <-> x = r /\ v = w).
Proof.
  intros E Q. unfold new_row in E. destruct (8 <? length r)%nat eqn:F.
  - rewrite (has_suf _ _ _ _ _ _ E). destruct (slice_long x (slice r) Q F) as (A & _). destruct (slice_long r (slice r) eq_refl F) as (B & _).
    split; intros (H1 & H2); split; try congruence.
  - rewrite (has_val _ _ _ _ _ E). rewrite (slice_short x (slice r) Q F), <- (slice_short r (slice r) eq_refl F) at 1. split; [intros ->; auto|intros (_ & ->); auto].
Qed.

(* A step that changes one row leaves the keys it does not touch. *)
Lemma frame s s' (g : nat -> list Z) B L q (okk : list Z -> Prop) :
  (forall M p, (M < B)%nat -> ~ (M = L /\ p = q) -> lget p (rws s' M) = lget p (rws s M)) ->
  (forall M p L', (M < B)%nat -> ~ (M = L /\ p = q) -> lget p (rws s M) = Some (RLay L') -> (L' < B)%nat /\ g L' = g M ++ fst p /\ snd p = true) ->
  (forall r v, slice r = q -> okk (g L ++ r) -> has_in s L r v -> has_in s' L r v) ->
  forall M r v, has_in s M r v -> (M < B)%nat -> okk (g M ++ r) -> has_in s' M r v.
Proof.
  intros A C D M r v H. induction H as [M r v H|M r v H|M r v L' H H0 IH]; intros HB HK.
  all: destruct (Nat.eq_dec M L) as [E|N]; [destruct (kq_dec (slice r) q) as [E'|N]|]; [subst M; subst q; apply D; [reflexivity|exact HK|] | |].
  all: try (now apply h_val); try (now apply h_suf); try (now apply (h_lay s L r v L')).
  all: try (apply h_val; rewrite A; [exact H|exact HB|tauto]); try (apply h_suf; rewrite A; [exact H|exact HB|tauto]).
  all: apply (h_lay s' M r v L'); [rewrite A; [exact H|exact HB|tauto]|].
  all: destruct (C M (slice r) L' HB ltac:(tauto) H) as (C1 & C2 & C3); destruct (slice_long r _ eq_refl C3) as (C4 & _).
  all: apply IH; [exact C1|]; rewrite C2, <- app_assoc, <- C4; exact HK.
Qed.
