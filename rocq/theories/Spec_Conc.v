(* What lookups, insertions and removals running at the same time in one layer should do, in terms of the table only. *)
From Verif Require Import Lib M_Tree M_Stampc M_Conc.

(* The table: y has value w when some leaf shows it. *)
Definition has (s : cst) (y w : Z) : Prop := exists a, (a < fr s)%nat /\ isl (nd s a) = true /\ row_get y (rws (nd s a)) = Some w.
Definition entry (s : cst) (y : Z) (r : option Z) : Prop := forall w, has s y w <-> r = Some w.

(* A run is its list of events with the state after each; st l k is the state after k events. *)
Definition st (l : list (cevent * cst)) (k : nat) : cst := nth k (start :: map snd l) start.
Definition ev (l : list (cevent * cst)) (k : nat) (e : cevent) : Prop := exists s, nth_error l k = Some (e, s).
(* Thread t starts operation o on y with event i and has result r after event j. *)
Definition finished (l : list (cevent * cst)) (i j t : nat) (y : Z) (o : op) (r : option Z) : Prop :=
  ev l i (t, Start y o) /\ (i < j)%nat /\ (j < length l)%nat /\ pcs (st l (S j)) t = PDone y o r /\
  (forall k y' o', (i < k <= j)%nat -> ~ ev l k (t, Start y' o')).
(* Event k leaves the table as it is, except that y now has entry r. *)
Definition sets (l : list (cevent * cst)) (k : nat) (y : Z) (r : option Z) : Prop :=
  entry (st l (S k)) y r /\ forall y' w, y' <> y -> (has (st l (S k)) y' w <-> has (st l k) y' w).
Definition keeps (l : list (cevent * cst)) (k : nat) : Prop := forall y w, has (st l (S k)) y w <-> has (st l k) y w.

(* The moment an operation takes effect, during its run, with the result it reports. *)
Definition effect_at (l : list (cevent * cst)) (i j t : nat) (y : Z) (o : op) (r : option Z) : Prop :=
  exists k, (i < k <= j)%nat /\ entry (st l k) y r /\
    match o with
    | OGet => True
    | OPut w => (exists x, ev l k (t, x)) /\ sets l k y (Some w)
    | ORem => (exists x, ev l k (t, x)) /\ sets l k y None
    end.
Definition gets_right (l : list (cevent * cst)) : Prop :=
  forall i j t y r, finished l i j t y OGet r -> exists k, (i < k <= j)%nat /\ entry (st l k) y r.

(* Thread t is still at the operation o on y it started with event i when event k happens. *)
Definition running (l : list (cevent * cst)) (i k t : nat) (y : Z) (o : op) : Prop :=
  ev l i (t, Start y o) /\ (i < k)%nat /\ forall k' y' o', (i < k' <= k)%nat -> ~ ev l k' (t, Start y' o').
(* Event k does to the table what o on y has to do. *)
Definition effect_of (l : list (cevent * cst)) (k : nat) (y : Z) (o : op) : Prop :=
  match o with OGet => False | OPut w => sets l k y (Some w) | ORem => sets l k y None end.
(* Every event keeps the table, or is the one by which an operation still running takes effect. *)
Definition explained (l : list (cevent * cst)) : Prop := forall k t x, ev l k (t, x) ->
  keeps l k \/ exists i y o, running l i k t y o /\ effect_of l k y o /\ forall k' x', (i < k' < k)%nat -> ev l k' (t, x') -> keeps l k'.
(* A finished operation reports what the table held for its key just before the one event of its thread that changed it,
   or, for a lookup, at some moment while it ran; none of its other events changed the table. *)
Definition linearized (l : list (cevent * cst)) (i j t : nat) (y : Z) (o : op) (r : option Z) : Prop :=
  exists k, (i < k <= j)%nat /\ entry (st l k) y r /\
    (o <> OGet -> (exists x, ev l k (t, x)) /\ effect_of l k y o) /\
    (forall k' x', (i < k' <= j)%nat -> ev l k' (t, x') -> o = OGet \/ k' <> k -> keeps l k').
