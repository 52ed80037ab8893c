(* A list of leaves, and how finished operations change it. *)
From Verif Require Import Lib M_Link.

Fixpoint insert_after (n nr : nat) (l : list nat) : list nat :=
  match l with [] => [] | x :: l' => if Nat.eqb x n then x :: nr :: l' else x :: insert_after n nr l' end.
Definition list_after (l : list nat) (d : ldone) : list nat :=
  match d with DLink n nr => insert_after n nr l | DUnlink n => remove Nat.eq_dec n l end.
(* The leaves that are in the list after the given operations, in order. *)
Definition live (ds : list ldone) : list nat := fold_left list_after ds [first].

(* P is what one gets by following next pointers from x to the end. *)
Inductive forward (nx : nat -> link) : option nat -> list nat -> Prop :=
| fw_end : forward nx None []
| fw_step x P : forward nx (fst (nx x)) P -> forward nx (Some x) (x :: P).
(* The same for previous pointers. *)
Inductive backward (pv : nat -> option nat) : option nat -> list nat -> Prop :=
| bw_end : backward pv None []
| bw_step x P : backward pv (pv x) P -> backward pv (Some x) (x :: P).
(* l is P with some elements left out. *)
Inductive sublist {A} : list A -> list A -> Prop :=
| sub_nil : sublist [] []
| sub_keep x l P : sublist l P -> sublist (x :: l) (x :: P)
| sub_skip x l P : sublist l P -> sublist l (x :: P).
Definition idle (s : lstate) : Prop := forall i, l_pc s i = LIdle.
(* A split is in progress. *)
Definition splitting (s : lstate) : Prop := exists i n nr, match l_pc s i with L0 n' nr' | L1 n' nr' | L2 n' nr' _ | L3 n' nr' _ | L4 n' nr' _ | L5 n' nr' => n = n' /\ nr = nr' | _ => False end.
(* Threads only go on with what they have begun. *)
Definition accesses (l : list llabel) : Prop := forall a, In a l -> exists i, a = Access i.
