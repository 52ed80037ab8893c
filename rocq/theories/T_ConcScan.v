(* C46: scans, forward and in reverse, while other threads look up, insert, remove and scan in the same layer. *)
From Verif Require Import Lib M_Tree M_Stampc M_Conc Spec_Conc M_ConcScan Spec_ConcScan P_Conc20 P_ScanA4 P_ScanA5.

(* The full statement is false, for the reason C43_get_refuted gives: a removal and a put together can lose a leaf for
   reach_leaf. All other threads have finished; a scan that starts at a row that is there does not report it. *)
Theorem C46_scan_refuted : exists l s i j t rv f em res all, ssteps sstart l s /\ abnd (cs s) = false /\ scanned l i j t rv f em res all /\ ~ scan_true l i j rv f em res all.
Proof. exact conc_scan_refuted. Qed.
Print Assumptions C46_scan_refuted.

(* What remains, in every run in which internodes have children where separators say (misp) and no put is given up (abnd):
   a scan reports keys in order, without repetition and in its range, and for every key it has passed what it says, present
   with this value or absent, was true at some moment while it ran. *)
Theorem C46_scan_partial : forall l s, ssteps sstart l s -> misp (cs s) = false -> abnd (cs s) = false ->
  forall i j t rv f em res all, scanned l i j t rv f em res all -> scan_true l i j rv f em res all.
Proof. exact conc_scan_main. Qed.
Print Assumptions C46_scan_partial.
(* A forward and a reverse scan have reported five rows each; another thread makes leaves split and a leaf go; then both
   go on to the end. Both report rows that were put meanwhile; the forward one does not report a row removed meanwhile. *)
Example C46_scan_ex : exists l s i1 j1 i2 j2 res1 res2, ssteps sstart l s /\ misp (cs s) = false /\ abnd (cs s) = false /\ dels (cs s) = true /\
  scanned l i1 j1 1 false 150 true res1 true /\ scanned l i2 j2 2 true 3900 false res2 true /\
  In (680, 680) res1 /\ (forall w, ~ In (1600, w) res1) /\ In (3310, 3310) res2 /\ (forall w, ~ In (3900, w) res2).
Proof. exact scan_example. Qed.

(* Beside gets and puts there is no condition on the tree. *)
Theorem C46_scan_gets_puts_partial : forall l s, ssteps sstart l s -> s_no_removals l -> s_no_giving_up l ->
  forall i j t rv f em res all, scanned l i j t rv f em res all -> scan_true l i j rv f em res all.
Proof. exact conc_scan_norem. Qed.
Print Assumptions C46_scan_gets_puts_partial.
Example C46_scan_gets_puts_ex : exists l s i j res, ssteps sstart l s /\ s_no_removals l /\ s_no_giving_up l /\ scanned l i j 2 true 3900 false res true /\ In (3310, 3310) res /\ In (610, 610) res.
Proof. exact scan_example_P. Qed.

(* Nor beside removals, as long as none deletes a leaf. *)
Theorem C46_scan_no_deletion_partial : forall l s, ssteps sstart l s -> s_undeleted l -> s_no_giving_up l ->
  forall i j t rv f em res all, scanned l i j t rv f em res all -> scan_true l i j rv f em res all.
Proof. exact conc_scan_undeleted. Qed.
Print Assumptions C46_scan_no_deletion_partial.
Example C46_scan_no_deletion_ex : exists l s i j res, ssteps sstart l s /\ s_undeleted l /\ s_no_giving_up l /\ scanned l i j 2 true 3900 false res true /\ In (3310, 3310) res /\ forall w, ~ In (1600, w) res.
Proof. exact scan_example_Q. Qed.
