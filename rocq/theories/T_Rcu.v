(* C17: deferred reclamation never releases an object that a thread can still get at. Any number of threads, any schedule
   of single accesses; the last hypothesis excludes wrap-around of the 64-bit epoch. *)
From Verif Require Import Lib M_Rcu Spec_Rcu P_Rcu.

Theorem C17_unlinked_first n succ l s : rexec n (r_init succ) l = Some s -> obeys unlinked_first n (r_init succ) l ->
  1 + 2 * Z.of_nat (length l) < 2 ^ 63 -> no_use_after_free s.
Proof. exact (rcu_safe_first n succ l s). Qed.
Print Assumptions C17_unlinked_first.
Theorem C17_unlinked_in_epoch n succ l s : rexec n (r_init succ) l = Some s -> obeys unlinked_in_epoch n (r_init succ) l ->
  1 + 2 * Z.of_nat (length l) < 2 ^ 63 -> no_use_after_free s.
Proof. exact (rcu_safe n succ l s). Qed.
Print Assumptions C17_unlinked_in_epoch.
(* A run with a reader that is slow to start; the retired object is released after the reader has left. *)
Example C17_example : exists s s', rexec 2 (r_init one_row) good_run = Some s /\ rstep 2 s (AFree 0) = None /\ rexec 2 s good_end = Some s' /\ r_freed s' 1 = true /\
  obeys unlinked_first 2 (r_init one_row) (good_run ++ good_end).
Proof. exact good_witness. Qed.

(* What the code does in apply_replace, apply_remove, remove_leaf and gc_layer, retiring an object and unlinking it later
   in the same critical section, is not enough. *)
Theorem C17_unlinked_in_section_refuted : exists l s, rexec 2 (r_init one_row) l = Some s /\ obeys unlinked_in_section 2 (r_init one_row) l /\ ~ no_use_after_free s.
Proof. exact bad_witness. Qed.
Print Assumptions C17_unlinked_in_section_refuted.
