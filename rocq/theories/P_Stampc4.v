(* Runs in which timestamps go wrong. *)
From Verif Require Import Lib Spec_String Spec_Stamp M_Circular M_Tree M_Stamp M_Stampc P_Tree1 P_Stamp1.

Fixpoint inc_b (l : list upd_rec) : bool :=
  match l with
  | [] => true
  | a :: l' => forallb (fun c => if list_eq_dec Z.eq_dec (u_key a) (u_key c) then u_ts a <? u_ts c else true) l' && inc_b l'
  end.
Lemma inc_b_ok l : ts_increase l -> inc_b l = true.
Proof.
  induction l as [|a l IH]; intros H; cbn [inc_b]; [reflexivity|]. apply andb_true_intro. split; [|apply IH; exact (inc_tail _ _ H)].
  apply forallb_forall. intros c Hc. destruct (list_eq_dec Z.eq_dec (u_key a) (u_key c)) as [E|]; auto. apply in_split in Hc. destruct Hc as (l1 & l2 & ->). apply Z.ltb_lt. exact (H [] a l1 c l2 eq_refl E).
Qed.

(* Clocks: thread 1's is ahead. *)
Definition ahead (i : nat) : Z := if (i =? 1)%nat then 100 else 2.
Lemma ahead_ok i : 0 <= ahead i < 2 ^ 62.
Proof. unfold ahead. destruct (i =? 1)%nat; split; (discriminate || reflexivity). Qed.

Definition op_put (i : nat) (k : Z) (steps : nat) : list clabel := CBegin i true k :: repeat (CGo i) steps.
Definition op_rem (i : nat) (k : Z) (steps : nat) : list clabel := CBegin i false k :: repeat (CGo i) steps.
Fixpoint fill (n : nat) (k : Z) : list clabel := match n with O => [] | S n' => op_put 0 k 1 ++ fill n' (k + 10) end.
Fixpoint drain (n : nat) (k : Z) : list clabel := match n with O => [] | S n' => op_rem 0 k 2 ++ drain n' (k + 10) end.
(* Leaf 0 is full with 10..150, leaf 1 has 160. *)
Definition two_leaves : list clabel := fill 15 10 ++ op_put 0 160 3.

(* Thread 0 makes a new leaf for a split of leaf 0 and pauses; thread 1 removes 160, raises leaf 0's epoch and checks
   that leaf 0 still precedes; thread 0 links the new leaf, thread 1 unlinks leaf 1; thread 2 inserts 160 again. *)
Definition split_race : list clabel :=
  two_leaves ++ op_put 0 155 1 ++ op_rem 1 160 7 ++ [CGo 0; CGo 1; CGo 0] ++ op_put 2 160 1.
(* Thread 0 removes 10 from leaf 0 and pauses before its store; thread 1 removes 160 and raises leaf 0's epoch; the
   store of thread 0 overwrites it; thread 2 inserts 160 again. *)
Definition store_race : list clabel :=
  two_leaves ++ op_rem 0 10 1 ++ op_rem 1 160 6 ++ [CGo 0; CGo 1; CGo 1; CGo 0] ++ op_put 2 160 1.
(* Leaf 0, leaf 1 with 300 only, leaf 2 with 310. Thread 0 removes 300, hands leaf 1's epoch to leaf 0 and pauses;
   thread 1 removes 310, hands leaf 2's epoch to leaf 1 and checks; both unlink; thread 2 inserts 310 again. *)
Definition three_leaves : list clabel := two_leaves ++ fill 14 170 ++ op_put 0 310 3 ++ op_rem 0 160 3 ++ drain 13 170.
Definition chain_race : list clabel :=
  three_leaves ++ op_rem 0 300 6 ++ op_rem 1 310 7 ++ [CGo 0; CGo 1] ++ op_put 2 310 3.

Definition lost (l : list clabel) (k : Z) : option (bool * option Z * option Z) :=
  match cruns (c_init ahead) l with
  | Some (s, es) => Some (inc_b (map to_upd es), row_get k (c_rows s (resp s k)), newest [k] (map to_upd es))
  | None => None
  end.

Lemma lost_refutes l k x : lost l k = Some (false, Some x, None) -> exists s es, cruns (c_init ahead) l = Some (s, es) /\ ~ ts_increase (map to_upd es) /\ row_get k (c_rows s (resp s k)) = Some x /\ newest [k] (map to_upd es) = None.
Proof.
  unfold lost. destruct (cruns (c_init ahead) l) as [[s es]|]; [|discriminate]. intros E. inversion E as [[E1 E2 E3]]. exists s, es. split; auto. split; auto. intros H. apply inc_b_ok in H. congruence.
Qed.
Theorem split_race_lost : exists s es, cruns (c_init ahead) split_race = Some (s, es) /\ ~ ts_increase (map to_upd es) /\ row_get 160 (c_rows s (resp s 160)) = Some 2 /\ newest [160] (map to_upd es) = None.
Proof. apply lost_refutes. vm_compute. reflexivity. Qed.
Theorem store_race_lost : exists s es, cruns (c_init ahead) store_race = Some (s, es) /\ ~ ts_increase (map to_upd es) /\ row_get 160 (c_rows s (resp s 160)) = Some 6 /\ newest [160] (map to_upd es) = None.
Proof. apply lost_refutes. vm_compute. reflexivity. Qed.
Theorem chain_race_lost : exists s es, cruns (c_init ahead) chain_race = Some (s, es) /\ ~ ts_increase (map to_upd es) /\ row_get 310 (c_rows s (resp s 310)) = Some 6 /\ newest [310] (map to_upd es) = None.
Proof. apply lost_refutes. vm_compute. reflexivity. Qed.

(* Rows updated in place. *)
Definition in_place : list sop := [SPut 0 [7] false; SPut 1 [7] true; SPut 0 [7] true].
Theorem in_place_wrong : exists t es, sruns (s_init ahead) in_place = Ok (t, es) /\ option_map u_ts (latest [7] (map to_upd es)) = Some 4 /\ option_map u_ts (largest [7] (map to_upd es)) = Some 100.
Proof.
  assert (E : match sruns (s_init ahead) in_place with Ok (_, es) => Some (option_map u_ts (latest [7] (map to_upd es)), option_map u_ts (largest [7] (map to_upd es))) | Err _ => None end = Some (Some 4, Some 100)) by (vm_compute; reflexivity).
  destruct (sruns (s_init ahead) in_place) as [[t es]|]; [|discriminate]. inversion E. exists t, es. auto.
Qed.

(* As the properties state it. *)
Theorem split_race_refuted : exists clock ops s es k x, (forall i, 0 <= clock i < 2 ^ 62) /\ cruns (c_init clock) ops = Some (s, es) /\
  ~ ts_increase (map to_upd es) /\ row_get k (c_rows s (resp s k)) = Some x /\ newest [k] (map to_upd es) = None.
Proof. destruct split_race_lost as (s & es & A & B & C & D). exists ahead, split_race, s, es, 160, 2. split; [exact ahead_ok|auto]. Qed.
Theorem chain_race_refuted : exists clock ops s es k x, (forall i, 0 <= clock i < 2 ^ 62) /\ cruns (c_init clock) ops = Some (s, es) /\
  ~ ts_increase (map to_upd es) /\ row_get k (c_rows s (resp s k)) = Some x /\ newest [k] (map to_upd es) = None.
Proof. destruct chain_race_lost as (s & es & A & B & C & D). exists ahead, chain_race, s, es, 310, 6. split; [exact ahead_ok|auto]. Qed.
Theorem store_race_refuted : exists clock ops s es k x, (forall i, 0 <= clock i < 2 ^ 62) /\ cruns (c_init clock) ops = Some (s, es) /\
  c_fresh s = 2%nat /\ ~ ts_increase (map to_upd es) /\ row_get k (c_rows s (resp s k)) = Some x /\ newest [k] (map to_upd es) = None.
Proof.
  destruct store_race_lost as (s & es & A & B & C & D). exists ahead, store_race, s, es, 160, 6. split; [exact ahead_ok|]. split; auto. split; [|auto].
  assert (E : match cruns (c_init ahead) store_race with Some (s, _) => c_fresh s | None => 0%nat end = 2%nat) by (vm_compute; reflexivity). rewrite A in E. exact E.
Qed.
Theorem in_place_refuted : exists clock ops t es k a c, (forall i, 0 <= clock i < 2 ^ 62) /\ sruns (s_init clock) ops = Ok (t, es) /\
  latest k (map to_upd es) = Some a /\ largest k (map to_upd es) = Some c /\ u_ts a < u_ts c.
Proof.
  destruct in_place_wrong as (t & es & A & B & C). destruct (latest [7] (map to_upd es)) as [a|] eqn:E1; [|discriminate]. destruct (largest [7] (map to_upd es)) as [c|] eqn:E2; [|discriminate].
  exists ahead, in_place, t, es, [7], a, c. split; [exact ahead_ok|]. split; auto. split; auto. split; auto. cbn in B, C. inversion B. inversion C. lia.
Qed.

(* A check of apart. *)
Definition who (a : clabel) : nat := match a with CBegin i _ _ => i | CGo i => i end.
Definition between_b (p : cpc) (q : nat) : bool := match p with CStore n _ _ _ | CSplit n _ _ | CCheck n _ | CUnlink n => (n =? q)%nat | _ => false end.
Definition cas_b (N : nat) (s : cstate) (a : clabel) : bool :=
  match a with
  | CBegin _ _ _ => true
  | CGo i => match c_pc s i with
             | CCas n q v => if c_ph s q =? v then forallb (fun j => negb (between_b (c_pc s j) q)) (seq 0 N) else true
             | _ => true
             end
  end.
Fixpoint apart_b (N : nat) (s : cstate) (l : list clabel) : bool :=
  match l with [] => true | a :: l' => (who a <? N)%nat && cas_b N s a && match cstep s a with Some (s1, _) => apart_b N s1 l' | None => true end end.
Lemma cstep_pc s a s' e j : cstep s a = Some (s', e) -> j <> who a -> c_pc s' j = c_pc s j.
Proof.
  destruct s as [rest lo ph rw lk fr cl pc]. intros H N. unfold cstep in H. destruct a as [i put k|i]; cbn [who] in N; destruct (pc i); try discriminate;
    repeat match type of H with context[match ?x with _ => _ end] => destruct x; try discriminate end; inversion H; subst; cbn [c_pc]; unfold setf; destruct (Nat.eqb_spec j i); congruence.
Qed.
Lemma apart_b_ok N : forall l s, (forall j, (N <= j)%nat -> c_pc s j = CIdle) -> apart_b N s l = true -> apart s l.
Proof.
  induction l as [|a l IH]; intros s I H; cbn [apart apart_b] in *; auto. apply andb_prop in H. destruct H as [H H2]. apply andb_prop in H. destruct H as [H0 H1]. apply Nat.ltb_lt in H0. split.
  - intros i n q v -> E Q j B. cbn [cas_b] in H1. rewrite E, Q, Z.eqb_refl in H1. rewrite forallb_forall in H1. destruct (lt_dec j N) as [L|L].
    + specialize (H1 j). rewrite in_seq in H1. specialize (H1 ltac:(lia)). destruct (c_pc s j); cbn in *; try contradiction; subst; rewrite Nat.eqb_refl in H1; discriminate.
    + rewrite I in B by lia. exact B.
  - destruct (cstep s a) as [[s1 e]|] eqn:E; auto. apply IH; auto. intros j Hj. rewrite (cstep_pc s a s1 e j E) by lia. auto.
Qed.
