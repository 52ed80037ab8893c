(* Specification of ordered enumeration: which keys a scan must report, in which order. *)
From Coq Require Import Sorting.Sorted.
From Verif Require Import Lib M_Tree Spec_String Spec_Map.

(* L lists exactly the bindings of m from lo on (lo itself only when incl), keys strictly increasing. *)
Definition enum_up (m : kmap) (lo : list Z) (incl : bool) (L : list (list Z * Z)) : Prop :=
  StronglySorted (fun a b => lex_lt (fst a) (fst b)) L /\
  forall k v, In (k, v) L <-> m k = Some v /\ (lex_lt lo k \/ (k = lo /\ incl = true)).
(* The same downwards. *)
Definition enum_down (m : kmap) (hi : list Z) (incl : bool) (L : list (list Z * Z)) : Prop :=
  StronglySorted (fun a b => lex_lt (fst b) (fst a)) L /\
  forall k v, In (k, v) L <-> m k = Some v /\ (lex_lt k hi \/ (k = hi /\ incl = true)).

(* The visitor is called on the listed bindings in order until it says stop; its final state, and the number of calls. *)
Fixpoint visit_list {A : Type} (vis : A -> list Z -> Z -> A * bool) (a : A) (L : list (list Z * Z)) : A * Z :=
  match L with
  | [] => (a, 0)
  | (k, v) :: L' =>
    let '(a', go) := vis a k v in
    if go then let '(a2, n) := visit_list vis a' L' in (a2, n + 1) else (a', 1)
  end.

(* Inserted keys have at most n bytes. *)
Definition op_short (n : nat) (o : top) : Prop := match o with OPut k _ | OAbandon k => (length k <= n)%nat | OGet _ | ORemove _ | OGc _ => True end.
