(* Occurrences in strings and the language of glob patterns, as documented in string_base.hh: * any number of bytes, ? one byte,
   [] classes, possibly negated with ^, \ for the next byte itself. *)
From Verif Require Import Lib.

(* x occurs in s at index i. *)
Definition occurs (s x : list Z) (i : Z) : Prop := exists a b, s = a ++ x ++ b /\ len a = i.
(* r is the leftmost index from lo on, or -1 if there is none. *)
Definition leftmost (P : Z -> Prop) (lo r : Z) : Prop := (lo <= r /\ P r /\ forall i, lo <= i < r -> ~ P i) \/ (r = -1 /\ forall i, lo <= i -> ~ P i).
(* r is the rightmost index up to hi, or -1. *)
Definition rightmost (P : Z -> Prop) (hi r : Z) : Prop := (0 <= r <= hi /\ P r /\ forall i, r < i <= hi -> ~ P i) \/ (r = -1 /\ forall i, i <= hi -> ~ P i).

(* What follows a [: whether it begins with ^, and the rest. *)
Definition negated (r : list Z) : bool := match r with x :: _ => x =? 94 | [] => false end.
Definition body (r : list Z) : list Z := if negated r then tl r else r.
(* The strings that match a pattern. A class has at least one member, the first of which may be ]; a [ that is not
   closed and a \ at the end stand for themselves. *)
Inductive glob : list Z -> list Z -> Prop :=
| G_nil : glob [] []
| G_any p c s : glob p s -> glob (63 :: p) (c :: s)
| G_star0 p s : glob p s -> glob (42 :: p) s
| G_star1 p c s : glob (42 :: p) s -> glob (42 :: p) (c :: s)
| G_esc p c s : glob p s -> glob (92 :: c :: p) (c :: s)
| G_esc_end : glob [92] [92]
| G_class r m p c s : m <> [] -> ~ In 93 (tl m) -> body r = m ++ 93 :: p -> (In c m <-> negated r = false) -> glob p s -> glob (91 :: r) (c :: s)
| G_open r s : ~ In 93 (tl (body r)) -> glob r s -> glob (91 :: r) (91 :: s)
| G_char x p s : x <> 63 -> x <> 42 -> x <> 92 -> x <> 91 -> glob p s -> glob (x :: p) (x :: s).
