(* C18: objects handed to deferred reclamation are released once, in order, and not before their epoch has passed.
   cb describes what callbacks hand over and how many ticks pass meanwhile, at most B per callback; the last hypothesis
   excludes wrap-around of the 64-bit epoch. *)
From Verif Require Import Lib M_Limbo Spec_Limbo P_Limbo3.

Theorem C18_fifo cap free_count cb B os : (2 <= cap)%nat -> (0 < free_count)%nat -> (forall tr p, cb_ticks (cb tr p) <= B) ->
  valid cap free_count cb l_init os -> 1 + (2 + 2 * B * Z.of_nat free_count) * Z.of_nat (length os) < 2 ^ 63 ->
  exists l q, lrun cap free_count cb l_init os = Some l /\ queue (l_trace l) [] q.
Proof. exact (fun H1 H2 H3 => run_fifo cap free_count cb H1 H2 B H3 os). Qed.
Print Assumptions C18_fifo.

(* A collection releases a full batch or everything whose epoch has passed, also when the thread skips it because it
   thinks it has nothing to do. *)
Theorem C18_progress cap free_count cb B os a : (2 <= cap)%nat -> (0 < free_count)%nat -> (forall tr p, cb_ticks (cb tr p) <= B) ->
  valid cap free_count cb l_init (os ++ [LCollect a]) -> 1 + (2 + 2 * B * Z.of_nat free_count) * (Z.of_nat (length os) + 1) < 2 ^ 63 ->
  exists l l' q q' tr, lrun cap free_count cb l_init os = Some l /\ rcu_collect cap free_count cb l a = Some l' /\ l_trace l' = l_trace l ++ tr /\
    queue (l_trace l) [] q /\ queue tr q q' /\ (releases tr = free_count \/ Forall (fun x => a <= snd x) q').
Proof. exact (fun H1 H2 H3 => run_collect cap free_count cb H1 H2 B H3 os a). Qed.
Print Assumptions C18_progress.

(* Groups of 5 slots, batches of 2; object 2 is a callback that hands over object 20 after a tick. *)
Definition ex_cb (tr : list event) (p : Z) : list (Z * Z * nat) := if p =? 2 then [(20, 0, 1%nat)] else [].
Definition ex_os : list lop :=
  [LRecord 1 0; LRecord 2 (-1); LTick; LRecord 3 0; LRecord 4 0; LRecord 5 0; LCollect 1; LCollect 3; LTick; LCollect 5; LRecord 6 0; LTick; LCollect 9; LCollect 9; LCollect 9].
Example C18_example : (forall tr p, cb_ticks (ex_cb tr p) <= 1) /\ valid 5 2 ex_cb l_init ex_os /\
  match lrun 5 2 ex_cb l_init ex_os with
  | Some l => l_trace l =
      [EHand 1 0 1; EHand 2 (-1) 1; EHand 3 0 3; EHand 4 0 3; EHand 5 0 3; EFree 1 0 3; EFree 2 (-1) 3; EHand 20 0 5; EFree 3 0 5; EFree 4 0 5;
       EHand 6 0 7; EFree 5 0 9; EFree 20 0 9; EFree 6 0 9]
  | None => False
  end.
Proof.
  split. { intros tr p. unfold ex_cb. destruct (p =? 2); cbn; lia. } split; [|vm_compute; reflexivity]. vm_compute. repeat split; discriminate.
Qed.
(* The sizes in the code. *)
Example C18_sizes : (2 <= limbo_capacity)%nat /\ (0 < rcu_free_count)%nat.
Proof. unfold limbo_capacity, rcu_free_count. lia. Qed.
