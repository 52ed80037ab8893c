(* Concurrent layer: the run in which a present key is reported absent. *)
From Verif Require Import Lib M_Tree M_Stampc M_Conc M_ConcRun Spec_Conc.

Lemma steps_snoc s l s1 t x s2 : steps s l s1 -> step s1 t x = Some s2 -> steps s (l ++ [((t, x), s2)]) s2.
Proof. induction 1; intros E; simpl; econstructor; eauto. constructor. Qed.
Lemma steps_app s l s1 m s2 : steps s l s1 -> steps s1 m s2 -> steps s (l ++ m) s2.
Proof. induction 1; intros E; simpl; [exact E|]. econstructor; eauto. Qed.

Definition tr_ok (r : trace) : Prop := steps start (rev (fst r)) (snd r).
Lemma ok_act r t x : tr_ok r -> tr_ok (act r t x).
Proof.
  unfold tr_ok, act. intros H. destruct (step (snd r) t x) eqn:E; [|exact H]. cbn [fst snd rev]. exact (steps_snoc _ _ _ _ _ _ H E).
Qed.
Lemma ok_drive f stop : forall r t, tr_ok r -> tr_ok (drive f stop r t).
Proof. induction f as [|f IH]; intros r t H; simpl; [exact H|]. destruct (stop _); [exact H|]. apply IH. now apply ok_act. Qed.
Lemma ok_fold {A} (f : trace -> A -> trace) (Hf : forall r x, tr_ok r -> tr_ok (f r x)) : forall l r, tr_ok r -> tr_ok (fold_left f l r).
Proof. induction l as [|x l IH]; intros r H; simpl; [exact H|]. auto. Qed.
Lemma ok_whole r t y o : tr_ok r -> tr_ok (whole r t y o).
Proof. intros H. apply ok_act, ok_drive, ok_act, H. Qed.
Lemma ok_runE : tr_ok runE.
Proof.
  unfold runE. apply ok_fold; [intros; now apply ok_act, ok_drive|]. unfold runD. apply ok_drive. unfold begin. apply ok_act.
  unfold runC, rems. apply ok_fold; [intros; now apply ok_whole|]. apply ok_fold; [intros; now apply ok_whole|].
  unfold runB, puts. apply ok_fold; [intros; now apply ok_whole|].
  unfold runA. apply ok_fold; [intros; now apply ok_drive, ok_act|]. unfold run0. constructor.
Qed.

(* A stretch of a run, first event first, in which thread t looks y up in vain although leaf a shows it throughout. *)
Definition chk (a : nat) (y w : Z) (s : cst) : bool :=
  (a <? fr s)%nat && isl (nd s a) && match row_get y (rws (nd s a)) with Some w' => w' =? w | None => false end.
Lemma chk_has a y w s : chk a y w s = true -> has s y w.
Proof.
  unfold chk. rewrite !andb_true_iff. intros ((A & B) & C). exists a. split; [now apply Nat.ltb_lt|]. split; [exact B|].
  destruct (row_get y _); [|discriminate]. apply Z.eqb_eq in C. now subst.
Qed.
Definition is_start (e : cevent) : bool := match snd e with Start _ _ => true | _ => false end.
Definition none_found (p : pct) (y : Z) : bool := match p with PDone y' OGet None => y' =? y | _ => false end.
Definition starts_get (e : cevent) (t : nat) (y : Z) : bool :=
  (fst e =? t)%nat && match snd e with Start y' OGet => y' =? y | _ => false end.
Definition chk_tail (a t : nat) (y w : Z) (tl : list (cevent * cst)) : bool :=
  match tl with
  | e :: m => starts_get (fst e) t y && chk a y w (snd e) && forallb (fun e => chk a y w (snd e) && negb (is_start (fst e))) m &&
      none_found (pcs (snd (last m e)) t) y && negb (length m =? 0)%nat && negb (abnd (snd (last m e)))
  | [] => false
  end.

Lemma nth_st_tail (l0 m : list (cevent * cst)) k : (length l0 < k <= length l0 + length m)%nat ->
  exists e, In e m /\ st (l0 ++ m) k = snd e.
Proof.
  intros H. unfold st. destruct k as [|k]; [lia|]. cbn [nth]. rewrite map_app, app_nth2; rewrite map_length; [|lia].
  set (i := (k - length l0)%nat).
  assert (Hi : (i < length m)%nat) by (unfold i; lia). clearbody i. clear H. revert i Hi.
  induction m as [|e m IH]; intros i Hi; simpl in *; [lia|]. destruct i.
  - exists e. auto.
  - destruct (IH i) as (e' & A & B); [lia|]. exists e'. auto.
Qed.

Lemma steps_det_end : forall s l s', steps s l s' -> s' = snd (last l ((0%nat, Go), s)).
Proof.
  induction 1 as [s|s t x s1 l s2 E Hs IH]; [reflexivity|]. rewrite IH. destruct l as [|e l]; [reflexivity|].
  cbn [last]. clear. revert e. induction l as [|e' l IHl]; intros e; [reflexivity|]. cbn [last] in *. apply IHl.
Qed.

Lemma last_cons {A} (m : list A) : forall e d, last m e = last (e :: m) d.
Proof.
  induction m as [|x m IH]; intros e d; [reflexivity|]. change (last (e :: x :: m) d) with (last (x :: m) d).
  rewrite <- (IH x d). rewrite <- (IH x e). reflexivity.
Qed.
Lemma last_st (l0 m : list (cevent * cst)) e : st (l0 ++ e :: m) (S (length l0 + length m)) = snd (last m e).
Proof.
  unfold st. cbn [nth]. rewrite map_app, app_nth2; rewrite map_length; [|lia].
  replace (length l0 + length m - length l0)%nat with (length m) by lia. clear. revert e.
  induction m as [|e' m IH]; intros e; [reflexivity|].
  change (nth (length (e' :: m)) (map snd (e :: e' :: m)) start) with (nth (length m) (map snd (e' :: m)) start). rewrite IH. clear IH.
  f_equal. exact (last_cons m e' e).
Qed.
Lemma refute_gen a t y w l0 s0 tl s : steps start l0 s0 -> steps s0 tl s -> chk_tail a t y w tl = true ->
  steps start (l0 ++ tl) s /\ abnd s = false /\ ~ gets_right (l0 ++ tl).
Proof.
  intros H0 Hs C. destruct tl as [|e m]; [discriminate|]. unfold chk_tail in C. rewrite !andb_true_iff in C.
  destruct C as (((((C0 & C1) & C2) & C3) & C4) & C5).
  split; [exact (steps_app _ _ _ _ _ H0 Hs)|].
  assert (Hl : s = snd (last m e)).
  { rewrite (steps_det_end _ _ _ Hs). f_equal. symmetry. apply last_cons. }
  split; [rewrite Hl; now apply negb_true_iff|]. intros G.
  assert (Hm : (0 < length m)%nat) by (apply negb_true_iff, Nat.eqb_neq in C4; lia).
  assert (Hlen : length (l0 ++ e :: m) = (length l0 + S (length m))%nat) by (rewrite app_length; reflexivity).
  destruct (G (length l0) (length l0 + length m)%nat t y None) as (k & Hk & Hk2).
  - split; [|split; [lia|split; [rewrite Hlen; lia|split]]].
    + exists (snd e). rewrite nth_error_app2, Nat.sub_diag by lia. cbn [nth_error]. f_equal. destruct e as [[t1 x] s1]. cbn [fst snd] in *.
      unfold starts_get in C0. cbn [fst snd] in C0. rewrite andb_true_iff, Nat.eqb_eq in C0. destruct C0 as (-> & C0).
      destruct x; try discriminate. destruct o; try discriminate. apply Z.eqb_eq in C0. now subst.
    + rewrite last_st. unfold none_found in C3. destruct (pcs (snd (last m e)) t); try discriminate.
      destruct o; try discriminate. destruct r; try discriminate. apply Z.eqb_eq in C3. now subst.
    + intros k y' o' Hk (s2 & Hk2). rewrite nth_error_app2 in Hk2 by lia.
      destruct (k - length l0)%nat as [|i] eqn:Ei; [lia|]. cbn [nth_error] in Hk2. apply nth_error_In in Hk2.
      rewrite forallb_forall in C2. specialize (C2 _ Hk2). cbn [fst snd is_start negb] in C2. unfold is_start in C2. cbn [snd negb] in C2.
      rewrite andb_false_r in C2. discriminate.
  - assert (Hh : has (st (l0 ++ e :: m) k) y w).
    { destruct (nth_st_tail l0 (e :: m) k) as (e1 & He & ->); [cbn [length]; lia|].
      apply (chk_has a). destruct He as [<-|He]; [exact C1|]. rewrite forallb_forall in C2. specialize (C2 _ He).
      rewrite andb_true_iff in C2. tauto. }
    apply Hk2 in Hh. discriminate.
Qed.

Definition idleb (p : pct) : bool := match p with Idle => true | _ => false end.
Lemma idleb_ok p : idleb p = true -> p = Idle.
Proof. destruct p; simpl; congruence. Qed.
Section Tail.
  Variable s0 : cst.
  Definition from (r : trace) : Prop := steps s0 (rev (fst r)) (snd r).
  Lemma from_act r t x : from r -> from (act r t x).
  Proof.
    unfold from, act. intros H. destruct (step (snd r) t x) eqn:E; [|exact H]. cbn [fst snd rev]. exact (steps_snoc _ _ _ _ _ _ H E).
  Qed.
  Lemma from_drive f stop : forall r t, from r -> from (drive f stop r t).
  Proof. induction f as [|f IH]; intros r t H; simpl; [exact H|]. destruct (stop _); [exact H|]. apply IH. now apply from_act. Qed.
  Definition reader (t : nat) (y : Z) : trace := drive 100 at_done (begin ([], s0) t y OGet) t.
  Lemma from_reader t y : from (reader t y).
  Proof. unfold reader, begin. apply from_drive, from_act. constructor. Qed.
End Tail.
Lemma reader_ok : chk_tail 20 10 25600 25600 (rev (fst (reader (snd runE) 10 25600))) = true.
Proof. vm_compute. reflexivity. Qed.
Lemma runG_threads : forallb (fun e => (fst (fst e) <? 11)%nat) (fst runG) && forallb (fun t => idleb (pcs (snd runG) t)) (seq 0 11) = true.
Proof. vm_compute. reflexivity. Qed.
Lemma readerG_ok : chk_tail 20 10 25600 25600 (rev (fst (reader (snd runG) 10 25600))) &&
  forallb (fun e => (fst (fst e) =? 10)%nat) (rev (fst (reader (snd runG) 10 25600))) = true.
Proof. vm_compute. reflexivity. Qed.
Lemma ok_runG : tr_ok runG.
Proof. unfold runG. apply ok_act, ok_drive, ok_runE. Qed.
Opaque runE runG reader.
Lemma conc_refuted : exists l s, steps start l s /\ abnd s = false /\ ~ gets_right l.
Proof. eexists _, _. exact (refute_gen _ _ _ _ _ _ _ _ ok_runE (from_reader (snd runE) 10 25600) reader_ok). Qed.

(* The same after every thread has finished. *)
Lemma setpars_pcs : forall l s p, pcs (setpars s l p) = pcs s.
Proof. induction l as [|[c|] l IH]; intros s p; simpl; [reflexivity| |]; rewrite IH; reflexivity. Qed.
Lemma step_pcs s t x s' : step s t x = Some s' -> exists p, forall t', pcs s' t' = (if (t' =? t)%nat then p else pcs s t').
Proof.
  assert (K : forall z p, pcs z = setf (pcs s) t p -> exists p, forall t', pcs z t' = (if (t' =? t)%nat then p else pcs s t')).
  { intros z p E. exists p. intros t'. rewrite E. reflexivity. }
  assert (K2 : forall z, pcs z = pcs s -> exists p, forall t', pcs z t' = (if (t' =? t)%nat then p else pcs s t')).
  { intros z E. exists (pcs s t). intros t'. rewrite E. destruct (Nat.eqb_spec t' t); congruence. }
  unfold step, unlock. intros E.
  destruct (pcs s t); destruct x; try discriminate;
  repeat match type of E with
  | (match ?o with OGet => _ | OPut _ => _ | ORem => _ end) = _ => destruct o; try discriminate
  | (if ?c then _ else _) = _ => destruct c eqn:?; try discriminate
  | (match ?c with Some _ => _ | None => _ end) = _ => destruct c eqn:?; try discriminate
  | (let (_, _) := ?c in _) = _ => destruct c
  | Some _ = Some _ => injection E as <-
  end;
  try (eapply K; reflexivity); try (eapply K2; reflexivity).
  all: try (unfold leaf_split; destruct (nxt _); eapply K; reflexivity).
  all: try (destruct (_ : option nat); first [eapply K; reflexivity|eapply K2; reflexivity]).
  all: try (unfold in_parent; repeat (match goal with |- context[if ?c then _ else _] => destruct c end); eapply K; simpl; rewrite ?setpars_pcs; reflexivity).
  all: try (unfold out_parent; repeat (match goal with |- context[if ?c then _ else _] => destruct c | |- context[match ?c with Some _ => _ | None => _ end] => destruct c end); eapply K; reflexivity).
  all: repeat match goal with |- context[match ?c with Some _ => _ | None => _ end] => destruct c | |- context[if ?c then _ else _] => destruct c end;
    first [eapply K; reflexivity|eapply K2; reflexivity].
Qed.

Lemma steps_other N : forall s l s', steps s l s' -> (forall e, In e l -> (fst (fst e) < N)%nat) -> forall t, (N <= t)%nat -> pcs s' t = pcs s t.
Proof.
  induction 1 as [s|s t0 x s1 l s2 E Hs IH]; intros Hl t Ht; [reflexivity|].
  rewrite IH; [|intros e He; apply Hl; now right|exact Ht]. destruct (step_pcs _ _ _ _ E) as (p & Hp). rewrite Hp.
  pose proof (Hl _ (or_introl eq_refl)) as H1. cbn [fst] in H1. destruct (Nat.eqb_spec t t0); [lia|reflexivity].
Qed.
Lemma runG_idle t : pcs (snd runG) t = Idle.
Proof.
  destruct (andb_prop _ _ runG_threads) as (H1 & H2).
  pose proof (proj1 (forallb_forall _ _) H1) as H1'. pose proof (proj1 (forallb_forall _ _) H2) as H2'. clear H1 H2.
  rename H1' into H1; rename H2' into H2.
  destruct (Nat.lt_ge_cases t 11) as [Ht|Ht].
  - exact (idleb_ok _ (H2 t (proj2 (in_seq 11 0 t) (conj (Nat.le_0_l t) Ht)))).
  - refine (eq_trans (steps_other 11 _ _ _ ok_runG _ t Ht) eq_refl).
    intros e He. exact (proj1 (Nat.ltb_lt _ _) (H1 e (proj2 (in_rev _ _) He))).
Qed.
Lemma conc_lost_refuted : exists l s m s', steps start l s /\ (forall t, pcs s t = Idle) /\ steps s m s' /\
  (forall e, In e m -> fst (fst e) = 10%nat) /\ abnd s' = false /\ ~ gets_right (l ++ m).
Proof.
  destruct (andb_prop _ _ readerG_ok) as (H1 & H0). pose proof (proj1 (forallb_forall _ _) H0) as H2. clear H0.
  destruct (refute_gen _ _ _ _ _ _ _ _ ok_runG (from_reader (snd runG) 10 25600) H1) as (A & B & C).
  exists (rev (fst runG)), (snd runG), (rev (fst (reader (snd runG) 10 25600))), (snd (reader (snd runG) 10 25600)).
  split; [exact ok_runG|]. split; [exact runG_idle|]. split; [exact (from_reader (snd runG) 10 25600)|].
  split; [intros e He; exact (proj1 (Nat.eqb_eq _ _) (H2 e He))|]. split; [exact B|exact C].
Qed.
