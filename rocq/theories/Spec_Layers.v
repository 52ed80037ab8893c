(* What lookups, insertions and removals of keys of any length should do when they run at the same time: some sequence of
   tables explains all of them. Nothing here looks into the layers. *)
From Verif Require Import Lib M_Layers.

Definition table := list Z -> option Z.
(* A run is its list of events with the state after each; st l k is the state after k events. *)
Definition st (l : list (levent * lst)) (k : nat) : lst := nth k (lstart :: map snd l) lstart.
Definition ev (l : list (levent * lst)) (k : nat) (e : levent) : Prop := exists s, nth_error l k = Some (e, s).
(* Thread t starts operation o on y with event i and has result r after event j. *)
Definition finished (l : list (levent * lst)) (i j t : nat) (y : list Z) (o : lop) (r : option Z) : Prop :=
  ev l i (t, LStart y o) /\ (i < j)%nat /\ (j < length l)%nat /\ pcs (st l (S j)) t = LDone y o r /\
  (forall k y' o', (i < k <= j)%nat -> ~ ev l k (t, LStart y' o')).
(* Thread t is still at the operation o on y it started with event i when event k happens. *)
Definition running (l : list (levent * lst)) (i k t : nat) (y : list Z) (o : lop) : Prop :=
  ev l i (t, LStart y o) /\ (i < k)%nat /\ forall k' y' o', (i < k' <= k)%nat -> ~ ev l k' (t, LStart y' o').

(* T k is the table after k events. *)
Section Tables.
  Variables (l : list (levent * lst)) (T : nat -> table).
  Definition sets (k : nat) (y : list Z) (r : option Z) : Prop := T (S k) y = r /\ forall y', y' <> y -> T (S k) y' = T k y'.
  Definition keeps (k : nat) : Prop := forall y, T (S k) y = T k y.
  (* Event k does to the table what o on y has to do. Lookups and collections of layers may not change it. *)
  Definition effect_of (k : nat) (y : list Z) (o : lop) : Prop :=
    match o with LPut w => sets k y (Some w) | LRem => sets k y None | _ => False end.
  Definition writes (o : lop) : Prop := match o with LPut _ | LRem => True | _ => False end.
  (* Every event keeps the table, or is the one by which an operation still running takes effect. *)
  Definition explained : Prop := forall k t x, ev l k (t, x) ->
    keeps k \/ exists i y o, running l i k t y o /\ effect_of k y o /\ forall k' x', (i < k' < k)%nat -> ev l k' (t, x') -> keeps k'.
  (* A finished operation reports what the table held for its key just before the one event of its thread that changed it,
     or, for a lookup, at some moment while it ran; none of its other events changed the table. *)
  Definition linearized (i j t : nat) (y : list Z) (o : lop) (r : option Z) : Prop :=
    exists k, (i < k <= j)%nat /\ T k y = r /\
      (writes o -> (exists x, ev l k (t, x)) /\ effect_of k y o) /\
      (forall k' x', (i < k' <= j)%nat -> ev l k' (t, x') -> ~ writes o \/ k' <> k -> keeps k').
End Tables.
Definition atomic (l : list (levent * lst)) (T : nat -> table) : Prop :=
  (forall y, T O y = None) /\ explained l T /\ forall i j t y o r, finished l i j t y o r -> linearized l T i j t y o r.
