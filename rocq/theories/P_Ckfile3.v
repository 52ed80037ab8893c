(* Checkpoint files: the statements, and the crashes after which a checkpoint is lost. *)
From Verif Require Import Lib M_Ckfile Spec_Ckfile P_Ckfile1 P_Ckfile2.

Lemma one_disk gen_of n dk s g A parts l1 l2 keep junk : (forall i, dk i = dk 0%nat) -> reach false (in_order dk) gen_of n s g A -> round false gen_of n g parts (l1 ++ l2) -> in_order dk (f_pend (calls s l1)) keep ->
  exists x, recover gen_of n (crash keep junk (calls s l1)) = Some x /\ In x (A ++ [Some (S g, parts)]).
Proof. intros H. exact (reach_crash (in_order dk) true gen_of n (order_ok dk H) false s g A parts l1 l2 keep junk (or_intror eq_refl)). Qed.
Lemma reach_one ok gen_of n s g A : reach true ok gen_of n s g A -> exists y, A = [y] /\ gen_no y = g.
Proof. induction 1; eauto. Qed.
Lemma repaired gen_of n s g A parts l1 l2 keep junk : reach true any_order gen_of n s g A -> round true gen_of n g parts (l1 ++ l2) ->
  exists y x, A = [y] /\ gen_no y = g /\ recover gen_of n (crash keep junk (calls s l1)) = Some x /\ (x = y \/ x = Some (S g, parts)).
Proof.
  intros R Rd. destruct (reach_one _ _ _ _ _ _ R) as (y & -> & Hy). destruct (reach_crash any_order false gen_of n any_ok true s g [y] parts l1 l2 keep junk (or_introl eq_refl) R Rd Logic.I) as (x & E & H). exists y, x. repeat (split; auto). destruct H as [H|[H|[]]]; auto.
Qed.

(* A text of kvd-ckp-gen for the examples: one number. *)
Definition gen1 (t : list Z) : option nat := match t with [z] => Some (Z.to_nat z) | _ => None end.
(* Two threads, generation S g: thread 1 starts while thread 0 has written a part of its file. *)
Definition parts2 (g : nat) (a b : Z) : list call := [Open (Ck g 0); Write (Ck g 0) [a]; Open (Ck g 1); Write (Ck g 0) [a + 1]; Write (Ck g 1) [b]; Fsync (Ck g 1); Fsync (Ck g 0)].
Lemma parts2_ok g a b : writes_parts 2 g [[a; a + 1]; [b]] (parts2 g a b).
Proof.
  unfold writes_parts, parts2. split; [reflexivity|]. split.
  - repeat constructor; ((exists 0%nat; split; [lia|cbn; now rewrite !Nat.eqb_refl]) || (exists 1%nat; split; [lia|cbn; now rewrite !Nat.eqb_refl])).
  - intros i Hi. assert (i = 0 \/ i = 1)%nat as [-> | ->] by lia; cbn [filter on name_eqb]; rewrite Nat.eqb_refl; cbn [andb Nat.eqb]; [exists [[a]; [a + 1]]|exists [[b]]]; split; reflexivity.
Qed.
Definition round2 (rep : bool) (g : nat) (a b : Z) : list call := parts2 (S g) a b ++ commit rep 2 g [[Z.of_nat (S g)]].
Lemma round2_ok rep g a b : round rep gen1 2 g [[a; a + 1]; [b]] (round2 rep g a b).
Proof. exists (parts2 (S g) a b), [[Z.of_nat (S g)]]. split; [apply parts2_ok|]. split; auto. cbn [concat app gen1]. now rewrite Nat2Z.id. Qed.
Definition s2 : fs := calls fs0 (round2 false 0 10 20).
Lemma s2_reach ok : reach false ok gen1 2 s2 1 [None; Some (1%nat, [[10; 11]; [20]])].
Proof. exact (R_round false ok gen1 2 fs0 0 [None] _ _ (R_start _ _ _ _) (round2_ok false 0 10 20)). Qed.

(* Committed once, committed again, crash: disk 0 loses the second rename and what follows, disk 1 loses nothing. *)
Definition keep2 : list bool := [true; true; true; true; true; true] ++ [true; true; true; false; false; true].
Lemma two_disks : exists s g A parts l keep junk, reach false (in_order (fun i => i)) gen1 2 s g A /\ round false gen1 2 g parts l /\ in_order (fun i => i) (f_pend (calls s l)) keep /\
  recover gen1 2 s = Some (Some (1%nat, [[10; 11]; [20]])) /\ recover gen1 2 (calls s l) = Some (Some (2%nat, [[30; 31]; [40]])) /\ recover gen1 2 (crash keep junk (calls s l)) = None.
Proof.
  exists s2, 1%nat. eexists. exists [[30; 31]; [40]], (round2 false 1 30 40), keep2, (fun _ => []). split; [apply s2_reach|]. split; [apply round2_ok|]. split; [|split; [reflexivity|split; reflexivity]].
  vm_compute. repeat split; try discriminate; intros _; repeat constructor; discriminate.
Qed.
(* One disk that keeps the removal of the old file but not the rename before it. *)
Lemma unordered : exists s g A parts l keep junk, reach false any_order gen1 2 s g A /\ round false gen1 2 g parts l /\ recover gen1 2 (crash keep junk (calls s l)) = None.
Proof. exists s2, 1%nat. eexists. exists [[30; 31]; [40]], (round2 false 1 30 40), keep2, (fun _ => []). split; [apply s2_reach|]. split; [apply round2_ok|reflexivity]. Qed.
Lemma not_durable dk : exists s l keep junk, reach false (in_order dk) gen1 2 s 1 [None; Some (1%nat, [[10; 11]; [20]])] /\ round false gen1 2 1 [[30; 31]; [40]] l /\ in_order dk (f_pend (calls s l)) keep /\
  recover gen1 2 s = Some (Some (1%nat, [[10; 11]; [20]])) /\ recover gen1 2 (calls s l) = Some (Some (2%nat, [[30; 31]; [40]])) /\ recover gen1 2 (crash keep junk (calls s l)) = Some None.
Proof. exists s2, (round2 false 1 30 40), [], (fun _ => []). split; [apply s2_reach|]. split; [apply round2_ok|]. split; [exact Logic.I|]. repeat split. Qed.
Lemma safe_write_all rs b ps r : safe_write rs b 0 = (ps, Some r) ->
  (exists rest, b = concat ps ++ rest) /\ (r = Z.of_nat (length (concat ps)) \/ r = -1 /\ ps = [] /\ b <> []) /\ (r = Z.of_nat (length b) <-> concat ps = b).
Proof. intros H. destruct (safe_write_ok _ _ _ _ _ H) as [H1 H2]. split; auto. split; [destruct H2 as [H2|(H2 & _ & H3)]; auto|]. exact (safe_write_full _ _ _ _ H). Qed.
