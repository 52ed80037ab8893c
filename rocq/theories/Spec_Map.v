(* Specification: a finite map from byte strings to values, and what each client operation means for it. *)
From Verif Require Import Lib M_Tree.

Definition kmap := list Z -> option Z.
Definition map_empty : kmap := fun _ => None.
Definition key_eqb (a b : list Z) : bool := if list_eq_dec Z.eq_dec a b then true else false.
Definition map_set (m : kmap) (k : list Z) (o : option Z) : kmap := fun k' => if key_eqb k' k then o else m k'.

(* The map after an operation. *)
Definition map_after (m : kmap) (o : top) : kmap :=
  match o with
  | OGet _ | OAbandon _ | OGc _ => m
  | OPut k v => map_set m k (Some v)
  | ORemove k => map_set m k None
  end.
(* What the operation reports: the value present before it. *)
Definition map_reports (m : kmap) (o : top) : option Z :=
  match o with OGet k | OPut k _ | OAbandon k | ORemove k => m k | OGc _ => None end.

Fixpoint map_run (m : kmap) (l : list top) : kmap * list (option Z) :=
  match l with
  | [] => (m, [])
  | o :: l' => let '(m', rs) := map_run (map_after m o) l' in (m', map_reports m o :: rs)
  end.

(* Keys are strings of bytes. *)
Definition op_ok (o : top) : Prop :=
  match o with OGet k | OPut k _ | OAbandon k | ORemove k => bytes_ok k | OGc _ => True end.

(* The effect of one operation on one key: Some o when the operation sets the key to o (None: absent). *)
Definition write_of (o : top) (k : list Z) : option (option Z) :=
  match o with
  | OPut k' v => if key_eqb k k' then Some (Some v) else None
  | ORemove k' => if key_eqb k k' then Some None else None
  | OGet _ | OAbandon _ | OGc _ => None
  end.
(* The most recent write to a key in a history. *)
Fixpoint last_write (ops : list top) (k : list Z) : option (option Z) :=
  match ops with
  | [] => None
  | o :: ops' => match last_write ops' k with Some w => Some w | None => write_of o k end
  end.
Definition present (ops : list top) (k : list Z) : option Z := match last_write ops k with Some o => o | None => None end.
