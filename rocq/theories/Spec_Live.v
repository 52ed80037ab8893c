(* Progress of the operations of one layer. *)
From Verif Require Import Lib M_Tree M_Stampc M_Conc Spec_Conc.

(* A step of an operation that was started before and is not given up. Marking a leaf twice and searching a leaf again for
   no reason do not count. *)
Definition carries_on (x : choice) : Prop := match x with Start _ _ | FixRoot | Abandon | Mark | Again => False | _ => True end.
(* Operations started before run on; no new one starts. *)
Definition runs_on (m : list (cevent * cst)) : Prop := forall t x s, In ((t, x), s) m -> carries_on x.
Definition all_done (s : cst) : Prop := forall t, pcs s t = Idle.
(* The thread is inside an operation and cannot move. *)
Definition stuck (s : cst) (t : nat) : Prop := pcs s t <> Idle /\ forall x, step s t x = None.
