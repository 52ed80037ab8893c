(* Model of stringbag<T> (stringbag.hh). Definitions only.
   b is the number of bits of offset_type T (8 for internal, 16 for external suffix bags, masstree_struct.hh:251-252).
   sb_mem is the memory from s_ on (capacity bytes); the header fields size_, capacity_ and info_ that share its
   first overhead(width) bytes are kept as separate fields, and a write into those bytes is a distinct bad outcome. *)
From Verif Require Import Lib.

Section Bag.
Context (b : Z).

(* offset_type conversion: reduction modulo 2^b. *)
Definition sb_off (x : Z) : Z := x mod 2 ^ b.
(* max_size, stringbag.hh:63-65. *)
Definition sb_max_size : Z := sb_off (-1) + 1.
(* sizeof(offset_type). *)
Definition sb_osize : Z := b / 8.
(* empty_size, overhead, safe_size: stringbag.hh:67-82 (slice_type::size = sizeof(uintptr_t) = 8). *)
Definition sb_empty_size : Z := sb_osize * 2.
Definition sb_overhead (width : nat) : Z := sb_empty_size + Z.of_nat width * (2 * sb_osize).
Definition sb_safe_size (width : nat) (l : Z) : Z := sb_overhead width + l + 8 - 1.

Record sbag := MkBag { sb_size : Z; sb_cap : Z; sb_info : list (Z * Z) (* pos, len *); sb_mem : list Z }.

(* constructor, stringbag.hh:95-103; None: the assertion fails. mem0 is the allocated memory. *)
Definition sb_make (width : nat) (capacity : Z) (mem0 : list Z) : option sbag :=
  let firstpos := sb_overhead width in
  if (firstpos <=? capacity) && (capacity <=? sb_max_size)
  then Some (MkBag (sb_off firstpos) (sb_off (capacity - 1)) (repeat (0, 0) width) mem0)
  else None.

(* capacity, stringbag.hh:106-108. *)
Definition sb_capacity (g : sbag) : Z := sb_cap g + 1.
(* operator[] / get, stringbag.hh:116-125. *)
Definition sb_get (g : sbag) (p : nat) : list Z :=
  let '(pos, l) := nth p (sb_info g) (0, 0) in
  firstn (Z.to_nat l) (skipn (Z.to_nat pos) (sb_mem g)).

Inductive sb_result := SbOk (g : sbag) | SbRefused | SbBad. (* SbBad: the memcpy leaves the string area *)

Fixpoint set_nth {A} (n : nat) (x : A) (l : list A) : list A :=
  match n, l with
  | _, [] => []
  | O, _ :: l' => x :: l'
  | S n', y :: l' => y :: set_nth n' x l'
  end.

(* assign, stringbag.hh:134-148. *)
Definition sb_assign (width : nat) (g : sbag) (p : nat) (s : list Z) : sb_result :=
  let '(ipos, mylen) := nth p (sb_info g) (0, 0) in
  let l := len s in
  let place :=
    if l <=? mylen then Some (ipos, sb_size g)
    else if sb_size g + Z.max l 8 <=? sb_capacity g then Some (sb_size g, sb_off (sb_size g + l))
    else None in
  match place with
  | None => SbRefused
  | Some (pos, size') =>
    if (l =? 0) || ((sb_overhead width <=? pos) && (pos + l <=? len (sb_mem g))) then
      SbOk (MkBag size' (sb_cap g) (set_nth p (sb_off pos, sb_off l) (sb_info g))
                  (firstn (Z.to_nat pos) (sb_mem g) ++ s ++ skipn (Z.to_nat (pos + l)) (sb_mem g)))
    else SbBad
  end.

(* A sequence of assignments; the booleans returned by assign, in order. None: some write was bad. *)
Fixpoint sb_run (width : nat) (g : sbag) (ops : list (nat * list Z)) : option (sbag * list bool) :=
  match ops with
  | [] => Some (g, [])
  | (p, s) :: ops' =>
    match sb_assign width g p s with
    | SbBad => None
    | SbRefused => match sb_run width g ops' with Some (g', r) => Some (g', false :: r) | None => None end
    | SbOk g1 => match sb_run width g1 ops' with Some (g', r) => Some (g', true :: r) | None => None end
    end
  end.
End Bag.
