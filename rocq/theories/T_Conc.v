(* C43: lookups, insertions and removals running at the same time in one layer. *)
From Verif Require Import Lib M_Tree M_Stampc M_Conc M_ConcRun Spec_Conc Spec_Conc2 P_ConcR P_Conc20 P_Conc23.

(* The full statement is false: a get, during which leaf 20 shows row 25600 all the time, reports that it is absent. A removal
   has unlinked a leaf but not yet changed the separators above; a put splits the leaf to the left of it, whose range now
   includes keys above an old separator, and writes the new leaf over another branch of the tree. *)
Theorem C43_get_refuted : exists l s, steps start l s /\ abnd s = false /\ ~ gets_right l.
Proof. exact conc_refuted. Qed.
Print Assumptions C43_get_refuted.

(* The loss is permanent: all threads have finished, and a get that runs alone reports a present key as absent. *)
Theorem C43_lost_refuted : exists l s m s', steps start l s /\ (forall t, pcs s t = Idle) /\ steps s m s' /\
  (forall e, In e m -> fst (fst e) = 10%nat) /\ abnd s' = false /\ ~ gets_right (l ++ m).
Proof. exact conc_lost_refuted. Qed.
Print Assumptions C43_lost_refuted.

(* What remains: in every run in which each internode still has the child at the place its separators say when a put or a
   removal comes to change it (misp marks the first time it does not), and no put is given up after a split (abnd), every
   finished operation reports what the table held at one moment while it ran, puts and removals change the table at that
   moment, and nothing else changes it. Every key has one entry at any moment, and no thread runs off the tree. *)
Theorem C43_linearizable_partial : forall l s, steps start l s -> misp s = false -> abnd s = false ->
  (forall i j t y o r, finished l i j t y o r -> linearized l i j t y o r) /\ explained l /\
  (forall y, exists r, entry s y r) /\ (forall t, pcs s t <> PCrash).
Proof. exact conc_main. Qed.
Print Assumptions C43_linearizable_partial.
(* A put by thread 1 reaches the only leaf; the tree grows and loses a leaf; the put finishes; a get finds its row. *)
Example C43_linearizable_ex : exists l s i j k, steps start l s /\ misp s = false /\ abnd s = false /\ dels s = true /\
  finished l 0 i 1 2050 (OPut 7) None /\ finished l k j 2 2050 OGet (Some 7).
Proof. exact conc_example. Qed.

(* Gets and puts alone, with all their splits, need no side condition on the tree: every run of any number of threads is
   linearizable, provided only that every put that makes room also writes its row. *)
Theorem C43_gets_puts_partial : forall l s, steps start l s -> no_removals l -> no_giving_up l -> atomic l s.
Proof. exact gp_main. Qed.
Print Assumptions C43_gets_puts_partial.
(* A put is overtaken by 300 others, which make internodes above internodes; it finishes, and a get finds its row. *)
Example C43_gets_puts_ex : exists l s i j k, steps start l s /\ no_removals l /\ no_giving_up l /\ tall s = true /\
  finished l 0 i 1 2050 (OPut 7) None /\ finished l k j 2 2050 OGet (Some 7).
Proof. exact gp_example. Qed.

(* Removals as well, in runs in which no removal takes the last row of a leaf that has a leaf to its left, so that no node is ever deleted. *)
Theorem C43_no_deletion_partial : forall l s, steps start l s -> undeleted l -> no_giving_up l -> atomic l s.
Proof. exact undel_main. Qed.
Print Assumptions C43_no_deletion_partial.
(* A row is put, removed and then not found, in a tree with a split leaf. *)
Example C43_no_deletion_ex : exists l s i j k m, steps start l s /\ undeleted l /\ no_giving_up l /\ (3 <= fr s)%nat /\
  finished l i j 3 2050 ORem (Some 7) /\ finished l k m 2 2050 OGet None.
Proof. exact undel_example. Qed.
