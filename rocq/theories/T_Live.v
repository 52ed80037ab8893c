(* C44: progress of the operations of one layer. *)
From Verif Require Import Lib M_Tree M_Stampc M_Conc M_ConcRun Spec_Conc Spec_Conc2 Spec_Live P_Conc31.

(* No deadlock: whenever an operation has not finished, some operation that has not finished can take a step. (In runs in
   which each internode still has the child at the place its separators say, and no put is given up after a split.) *)
Theorem C44_no_deadlock_partial : forall l s t, steps start l s -> misp s = false -> abnd s = false -> pcs s t <> Idle ->
  exists t' x s', pcs s t' <> Idle /\ step s t' x = Some s' /\ carries_on x.
Proof. exact deadlock_main. Qed.
Print Assumptions C44_no_deadlock_partial.

(* Gets and puts can always finish: from every state that gets and puts of any number of threads can reach, the operations
   under way can all run to their end without a new one being started. *)
Theorem C44_gets_puts_partial : forall l s, steps start l s -> no_removals l -> no_giving_up l ->
  exists m s', steps s m s' /\ runs_on m /\ all_done s'.
Proof. exact finish_main. Qed.
Print Assumptions C44_gets_puts_partial.

(* Three puts are under way. The first splits a leaf and has locked the parent. The second, which splits another leaf, waits
   for the parent, and the third for the first leaf. *)
Example C44_ex : exists l s, steps start l s /\ no_removals l /\ no_giving_up l /\ misp s = false /\ abnd s = false /\
  stuck s 2 /\ stuck s 3 /\ pcs s 1 <> Idle.
Proof. exact stuck_example. Qed.
