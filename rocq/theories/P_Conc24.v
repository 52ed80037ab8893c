(* Concurrent layer: parents are higher than their children, and every locked node is held by a thread. *)
From Verif Require Import Lib M_Tree M_Stampc P_Stampc1 M_Conc M_ConcRun Spec_Conc Spec_Conc2 P_Conc1 P_Conc2 P_Conc3 P_Conc4 P_Conc6 P_Conc14 P_Conc15 P_Conc16 P_Conc16b P_Conc18 P_Conc19 P_Conc20 P_Conc21 P_Conc22 P_Conc23 P_ConcR.

(* ---- heights ---- *)
Definition HN (s : cst) (h : nat) (q : option nat) (nc : option (nat * Z)) : Prop :=
  match nc with Some (c, _) => ht (nd s c) = S h /\ exists q', q = Some q' /\ ht (nd s q') = S h | None => True end.
Definition HTT (s : cst) (p : pct) : Prop :=
  match p with
  | WUp _ _ _ n c _ h _ | WIn _ _ _ n c _ h _ _ => ht (nd s n) = h /\ ht (nd s c) = h
  | WStrip _ _ _ n c _ _ q nc => ht (nd s n) = 0%nat /\ ht (nd s c) = 0%nat /\ HN s 0 q nc
  | WUnlN _ _ _ n c h _ q nc => ht (nd s n) = h /\ ht (nd s c) = h /\ HN s h q nc
  | WUnlC _ _ _ c h _ q nc => ht (nd s c) = h /\ HN s h q nc
  | WNext _ _ _ h _ q nc => HN s h q nc
  | DRed _ _ n p cur _ _ | DRedU _ _ n p cur _ _ _ => (ht (nd s n) < ht (nd s p) <= ht (nd s cur))%nat
  | DRedW _ _ n p _ p2 _ _ => (ht (nd s n) < ht (nd s p) < ht (nd s p2))%nat
  | _ => True
  end.
Record HT (s : cst) : Prop := {
  h_leaf : forall a, (a < fr s)%nat -> isl (nd s a) = true -> ht (nd s a) = 0%nat;
  h_par : forall a p, (a < fr s)%nat -> par (nd s a) = Some p -> (ht (nd s a) < ht (nd s p))%nat;
  h_thr : forall t, HTT s (pcs s t)
}.
Record Hk (s s' : cst) : Prop := {
  k_fr : (fr s <= fr s')%nat;
  k_old : forall a, (a < fr s)%nat -> ht (nd s' a) = ht (nd s a) /\ isl (nd s' a) = isl (nd s a);
  k_new : forall a, (fr s <= a < fr s')%nat -> isl (nd s' a) = true -> ht (nd s' a) = 0%nat;
  k_par : forall a p, (a < fr s')%nat -> par (nd s' a) = Some p -> ((a < fr s)%nat /\ par (nd s a) = Some p) \/ (ht (nd s' a) < ht (nd s' p))%nat
}.
Definition flat3 (s s' : cst) : Prop := fr s' = fr s /\ forall a, isl (nd s' a) = isl (nd s a) /\ ht (nd s' a) = ht (nd s a) /\ par (nd s' a) = par (nd s a).
Lemma flat3_refl s : flat3 s s. Proof. split; [reflexivity|]. intros a. auto. Qed.
Lemma flat3_go s s' t p : flat3 s s' -> flat3 s (go s' t p). Proof. exact (fun H => H). Qed.
Lemma flat3_put s s' a x : flat3 s s' -> isl x = isl (nd s' a) -> ht x = ht (nd s' a) -> par x = par (nd s' a) -> flat3 s (put s' a x).
Proof. intros (F & H) A B C. split; [exact F|]. intros z. rewrite nd_put. destruct (Nat.eqb_spec z a) as [->|N]; [|apply H]. rewrite A, B, C. apply H. Qed.
Lemma flat3_Hk s s' : flat3 s s' -> Hk s s'.
Proof.
  intros (F & H). constructor; try lia.
  - intros a Ha. destruct (H a) as (A & B & C). auto.
  - intros a p Ha Q. left. destruct (H a) as (A & B & C). rewrite <- C. split; [lia|exact Q].
Qed.
Lemma HN_keep s s' h q nc : (forall a, In a (o2l q ++ n2l nc) -> ht (nd s' a) = ht (nd s a)) -> HN s h q nc -> HN s' h q nc.
Proof.
  unfold HN. destruct nc as [[c sk]|]; [|auto]. intros H (A & q' & -> & B). split; [rewrite H; [exact A|cbn; tauto]|]. exists q'. split; [reflexivity|]. rewrite H; [exact B|cbn; tauto].
Qed.
Lemma HTT_keep s s' p : (forall a, In a (holds p) -> ht (nd s' a) = ht (nd s a)) -> HTT s p -> HTT s' p.
Proof.
  intros H. destruct p; cbn [HTT]; auto.
  - intros (A & B). rewrite !H by (cbn; tauto). auto.
  - intros (A & B). rewrite !H by (cbn; tauto). auto.
  - intros (A & B & C). rewrite !H by (cbn; tauto). split; [exact A|]. split; [exact B|]. revert C. apply HN_keep. intros a Ha. apply H. cbn [holds]. now right; right; right.
  - intros (A & B & C). rewrite !H by (cbn; tauto). split; [exact A|]. split; [exact B|]. revert C. apply HN_keep. intros a Ha. apply H. cbn [holds]. now right; right; right.
  - intros (A & C). rewrite !H by (cbn; tauto). split; [exact A|]. revert C. apply HN_keep. intros a Ha. apply H. cbn [holds]. now right; right.
  - apply HN_keep. intros a Ha. apply H. cbn [holds]. now right.
  - rewrite !H by (cbn; tauto). auto.
  - rewrite !H by (cbn; tauto). auto.
  - rewrite !H by (cbn; tauto). auto.
Qed.
Lemma HT_ok s g s' t : Inv s g -> HT s -> Hk s s' -> (forall t0, t0 <> t -> pcs s' t0 = pcs s t0) -> HTT s' (pcs s' t) -> HT s'.
Proof.
  intros (G & L & K & JA) H Q P T. constructor.
  - intros a Ha Hi. destruct (Nat.lt_ge_cases a (fr s)) as [O|O]; [|apply (k_new _ _ Q); auto; lia]. destruct (k_old _ _ Q a O) as (A & B). rewrite A. apply (h_leaf _ H a O). congruence.
  - intros a p Ha Hp. destruct (k_par _ _ Q a p Ha Hp) as [(O & Hp')|O]; [|exact O]. destruct (gt_par _ _ (gi_t _ _ G) a p O Hp') as (Op & _).
    rewrite (proj1 (k_old _ _ Q a O)), (proj1 (k_old _ _ Q p Op)). exact (h_par _ H a p O Hp').
  - intros t0. destruct (Nat.eq_dec t0 t) as [->|N]; [exact T|]. rewrite (P t0 N). apply (HTT_keep s); [|apply (h_thr _ H)]. intros a Ha. apply (k_old _ _ Q). exact (proj1 (proj1 L t0 a Ha)).
Qed.
Lemma HT_flat s g s' t : Inv s g -> HT s -> flat3 s s' -> (forall t0, t0 <> t -> pcs s' t0 = pcs s t0) -> HTT s (pcs s' t) -> HT s'.
Proof.
  intros I H F P T. apply (HT_ok s g s' t I H (flat3_Hk _ _ F) P). apply (HTT_keep s); [|exact T]. intros a _. apply F.
Qed.

Lemma HT_split s t y w n : HT s -> (n < fr s)%nat -> isl (nd s n) = true -> (forall b, nxt (nd s n) = Some b -> (b < fr s)%nat) ->
  Hk s (leaf_split s t y w n) /\ HTT (leaf_split s t y w n) (pcs (leaf_split s t y w n) t).
Proof.
  intros H Hn Hi Hb. destruct (pcs_split s t y w n) as (tg & c & sk & st & E). pose proof E as E'. unfold leaf_split in E'. cbv zeta in E'. rewrite gone in E'. injection E' as _ Ec _ _.
  assert (Q : forall a, (isl (nd (leaf_split s t y w n) a) = (if (a =? fr s)%nat then true else isl (nd s a))) /\ (ht (nd (leaf_split s t y w n) a) = (if (a =? fr s)%nat then 0%nat else ht (nd s a)))
     /\ (par (nd (leaf_split s t y w n) a) = (if (a =? fr s)%nat then None else par (nd s a)))).
  { intros a. unfold leaf_split. cbv zeta. destruct (nxt (nd s n)) as [b|] eqn:Nb.
    - specialize (Hb b eq_refl). change (nd (go ?x t _)) with (nd x). rewrite !nd_put. change (nd (grow s)) with (nd s).
      repeat match goal with |- context[(?u =? ?v)%nat] => destruct (Nat.eqb_spec u v); try lia end; subst; auto.
    - change (nd (go ?x t _)) with (nd x). rewrite !nd_put. change (nd (grow s)) with (nd s).
      repeat match goal with |- context[(?u =? ?v)%nat] => destruct (Nat.eqb_spec u v); try lia end; subst; auto. }
  assert (F : fr (leaf_split s t y w n) = S (fr s)) by (unfold leaf_split; cbv zeta; destruct (nxt (nd s n)); reflexivity).
  split.
  - constructor; rewrite ?F; [lia| | |].
    + intros a Ha. destruct (Q a) as (A & B & _). destruct (Nat.eqb_spec a (fr s)); [lia|auto].
    + intros a Ha _. destruct (Q a) as (A & B & _). destruct (Nat.eqb_spec a (fr s)); [auto|lia].
    + intros a p Ha. destruct (Q a) as (_ & _ & C). rewrite C. destruct (Nat.eqb_spec a (fr s)); [discriminate|]. intros U. left. split; [lia|exact U].
  - rewrite E. cbn [HTT]. destruct (Q n) as (_ & B & _). destruct (Q c) as (_ & D & _). rewrite B, D, <- Ec, Nat.eqb_refl. destruct (Nat.eqb_spec n (fr s)); [lia|]. split; [exact (h_leaf _ H n Hn Hi)|reflexivity].
Qed.
