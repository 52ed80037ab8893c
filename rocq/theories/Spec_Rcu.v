(* How a program must use deferred reclamation, and what it gets. *)
From Verif Require Import Lib M_Rcu.

(* y can be reached from x by following pointers. *)
Inductive reach (succ : nat -> list nat) : nat -> nat -> Prop :=
| reach_refl x : reach succ x x
| reach_step x y z : In y (succ x) -> reach succ y z -> reach succ x z.

(* No retired object can be reached from x. *)
Definition clean_of (s : rcu) (x : nat) : Prop := forall p, reach (r_succ s) x p -> r_retired s p = None.
(* Stores introduce no new ways to retired objects; an object is retired once. *)
Definition careful (s : rcu) (a : rlabel) : Prop :=
  match a with
  | AWrite _ q ps => forall x, In x ps -> In x (r_succ s q) \/ clean_of s x
  | ARetire _ p => r_retired s p = None
  | _ => True
  end.
(* Objects are unreachable from the shared structure before they are retired. *)
Definition unlinked_first (s : rcu) (a : rlabel) : Prop :=
  careful s a /\ match a with ARetire _ p => ~ reach (r_succ s) root p | _ => True end.
(* Weaker: when the global epoch changes, no retired object is reachable from the shared structure. *)
Definition unlinked_in_epoch (s : rcu) (a : rlabel) : Prop :=
  careful s a /\ match a with ATickStore => clean_of s root | _ => True end.
(* What the code does in places: a thread makes the objects that it retires unreachable before it leaves the critical
   section in which it retired them. *)
Definition unlinked_in_section (s : rcu) (a : rlabel) : Prop :=
  careful s a /\ match a with AStop i | AStartLoad i => Forall (fun x => ~ reach (r_succ s) root (fst x)) (t_q (r_th s i)) | _ => True end.

Fixpoint obeys (rule : rcu -> rlabel -> Prop) (n : nat) (s : rcu) (l : list rlabel) : Prop :=
  match l with [] => True | a :: l' => rule s a /\ match rstep n s a with None => True | Some s1 => obeys rule n s1 l' end end.

(* No thread can get at a released object. *)
Definition no_use_after_free (s : rcu) : Prop :=
  forall i q p, t_pc (r_th s i) = RIn -> In q (t_refs (r_th s i)) -> reach (r_succ s) q p -> r_freed s p = false.
