(* Model of circular_int<T> (circular_int.hh:21-129). Definitions only.
   A circular_int is its unsigned value v_ in [0, 2^n), n = 8*sizeof(T). *)
From Verif Require Import Lib.

Section Circular.
Context (n : Z).

(* value_type arithmetic, circular_int.hh:24: reduction modulo 2^n. *)
Definition ci_wrap (x : Z) : Z := x mod 2 ^ n.
(* difference_type conversion, circular_int.hh:25 (two's complement, as on every supported compiler). *)
Definition ci_signed (x : Z) : Z := if ci_wrap x <? 2 ^ (n - 1) then ci_wrap x else ci_wrap x - 2 ^ n.
(* operator++ and operator+(int), circular_int.hh:38-45, 77-82. *)
Definition ci_add (v : Z) (k : Z) : Z := ci_wrap (v + k).
(* operator-(int), circular_int.hh:91-96. *)
Definition ci_sub (v : Z) (k : Z) : Z := ci_wrap (v - k).
(* operator-(circular_int), circular_int.hh:97-99. *)
Definition ci_diff (a b : Z) : Z := ci_signed (a - b).
(* next_nonzero, circular_int.hh:83-90. *)
Definition ci_next_nonzero (v : Z) : Z :=
  let v' := ci_wrap (v + 1) in ci_wrap (v' + (if v' =? 0 then 1 else 0)).
(* less, less_equal, circular_int.hh:107-112. *)
Definition ci_less (a b : Z) : bool := ci_signed (a - b) <? 0.
Definition ci_less_equal (a b : Z) : bool := ci_signed (a - b) <=? 0.
(* operators < <= >= >, circular_int.hh:113-124. *)
Definition ci_lt (a b : Z) : bool := ci_less a b.
Definition ci_le (a b : Z) : bool := negb (ci_less b a).
Definition ci_ge (a b : Z) : bool := negb (ci_less a b).
Definition ci_gt (a b : Z) : bool := ci_less b a.
End Circular.
