(* What a scan should report while other threads change the layer, in terms of the table only. *)
From Verif Require Import Lib M_Tree M_Stampc M_Conc Spec_Conc M_ConcScan.

(* A run is its list of events with the state after each; sat l k is the state after k events. *)
Definition sat (l : list (sevent * sstt)) (k : nat) : sstt := nth k (sstart :: map snd l) sstart.
Definition sev (l : list (sevent * sstt)) (k : nat) (e : sevent) : Prop := exists s, nth_error l k = Some (e, s).

(* Thread t starts a scan with event i; after event j it has ended, and its visitor has been given res, in that order.
   all: it was not the visitor that ended it. *)
Definition scanned (l : list (sevent * sstt)) (i j t : nat) (rv : bool) (f : Z) (em : bool) (res : list (Z * Z)) (all : bool) : Prop :=
  sev l i (t, SStart rv f em) /\ (i < j)%nat /\ (j < length l)%nat /\
  sph (sc (sat l (S j)) t) = FDone all /\ res = rev (sout (sc (sat l (S j)) t)) /\
  (forall k rv' f' em', (i < k <= j)%nat -> ~ sev l k (t, SStart rv' f' em')).

(* a comes before b in the direction of the scan. *)
Definition before (rv : bool) (a b : Z) : Prop := if rv then b < a else a < b.
(* The keys the scan has to look at. *)
Definition in_range (rv : bool) (f : Z) (em : bool) (y : Z) : Prop := (before rv f y \/ (em = true /\ y = f)) /\ 0 <= y < 2 ^ 64.
(* Keys are reported in order, without repetition. *)
Fixpoint in_order (rv : bool) (l : list (Z * Z)) : Prop :=
  match l with [] => True | (k, _) :: l' => (forall r, In r l' -> before rv k (fst r)) /\ in_order rv l' end.
(* What the scan says about y. *)
Definition says (res : list (Z * Z)) (y : Z) (r : option Z) : Prop :=
  match r with Some w => In (y, w) res | None => forall w, ~ In (y, w) res end.
(* What a scan that has reported res says is true of every key it has passed: at some moment since event i (which started
   it) and up to event j the table had just that entry for the key. *)
Definition scan_true (l : list (sevent * sstt)) (i j : nat) (rv : bool) (f : Z) (em : bool) (res : list (Z * Z)) (all : bool) : Prop :=
  in_order rv res /\ (forall k w, In (k, w) res -> in_range rv f em k) /\
  forall y, in_range rv f em y -> (all = true \/ exists k w, In (k, w) res /\ (y = k \/ before rv y k)) ->
    exists r k, says res y r /\ (i < k <= j)%nat /\ entry (cs (sat l k)) y r.

(* Kinds of runs. *)
Definition s_no_removals (l : list (sevent * sstt)) : Prop := forall k t y, ~ sev l k (t, SBase (Start y ORem)).
Definition s_no_giving_up (l : list (sevent * sstt)) : Prop := forall k t, ~ sev l k (t, SBase Abandon).
Definition s_undeleted (l : list (sevent * sstt)) : Prop := forall k a, (k <= length l)%nat -> (a < fr (cs (sat l k)))%nat -> v_del (ver (nd (cs (sat l k)) a)) = false.
