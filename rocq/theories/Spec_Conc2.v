(* Kinds of runs of one layer, told from their events and states. *)
From Verif Require Import Lib M_Tree M_Stampc M_Conc Spec_Conc.

(* No node is marked deleted (nodeversion.hh mark_deleted) in any state of the run. *)
Definition undeleted (l : list (cevent * cst)) : Prop := forall k a, (k <= length l)%nat -> (a < fr (st l k))%nat -> v_del (ver (nd (st l k) a)) = false.
(* Nobody calls remove. *)
Definition no_removals (l : list (cevent * cst)) : Prop := forall k t y, ~ ev l k (t, Start y ORem).
(* Nobody gives up an insertion after having split (masstree_insert.hh finish_insert with state 0). *)
Definition no_giving_up (l : list (cevent * cst)) : Prop := forall k t, ~ ev l k (t, Abandon).
(* Every operation takes effect at one moment while it runs, the table changes at no other, and no thread gets lost. *)
Definition atomic (l : list (cevent * cst)) (s : cst) : Prop :=
  (forall i j t y o r, finished l i j t y o r -> linearized l i j t y o r) /\ explained l /\
  (forall y, exists r, entry s y r) /\ (forall t, pcs s t <> PCrash).
