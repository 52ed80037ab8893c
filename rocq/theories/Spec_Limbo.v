(* What an observer of deferred reclamation may see: a first-in first-out queue whose objects leave it only when the
   active epoch has passed the epoch of their retirement. *)
From Verif Require Import Lib M_Limbo.

(* queue tr q q': the events tr lead from queue q to queue q'. *)
Inductive queue : list event -> list (Z * Z * Z) -> list (Z * Z * Z) -> Prop :=
| queue_nil q : queue [] q q
| queue_hand p t e tr q q' : queue tr (q ++ [(p, t, e)]) q' -> queue (EHand p t e :: tr) q q'
| queue_free p t e a tr q q' : e < a -> queue tr q q' -> queue (EFree p t a :: tr) ((p, t, e) :: q) q'.

(* The number of objects released. *)
Definition releases (tr : list event) : nat := length (filter (fun e => match e with EFree _ _ _ => true | _ => false end) tr).
