(* Objects as lists of keys with values in the order of their insertion. *)
From Verif Require Import Lib.

(* The value of a key. *)
Fixpoint lookup (l : list (list Z * Z)) (k : list Z) : option Z :=
  match l with (k', v) :: l' => if list_eq_dec Z.eq_dec k' k then Some v else lookup l' k | [] => None end.
(* A value set: in its place if the key is there, at the end otherwise. *)
Fixpoint set_spec (l : list (list Z * Z)) (k : list Z) (v : Z) : list (list Z * Z) :=
  match l with (k', w) :: l' => if list_eq_dec Z.eq_dec k' k then (k', v) :: l' else (k', w) :: set_spec l' k v | [] => [(k, v)] end.
(* A key erased. *)
Definition erase_spec (l : list (list Z * Z)) (k : list Z) : list (list Z * Z) := filter (fun p => if list_eq_dec Z.eq_dec (fst p) k then false else true) l.
(* A key inserted with a value if it is not there. *)
Definition insert_spec (l : list (list Z * Z)) (k : list Z) (v : Z) : list (list Z * Z) := match lookup l k with Some _ => l | None => l ++ [(k, v)] end.
(* Calls of the methods of an object. *)
Inductive op := Set_ (k : list Z) (v : Z) | Insert (k : list Z) (v : Z) | Erase (k : list Z).
(* What a call does. *)
Definition op_spec (l : list (list Z * Z)) (o : op) : list (list Z * Z) :=
  match o with Set_ k v => set_spec l k v | Insert k v => insert_spec l k v | Erase k => erase_spec l k end.
(* A sequence of calls on a new object. *)
Definition ops_spec (l : list op) : list (list Z * Z) := fold_left op_spec l [].
