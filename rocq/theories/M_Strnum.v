(* String_generic::hashcode and to_i, string.cc:257-333, 388-401. Strings are lists of bytes from 0 to 255, words explicit remainders. Not
   modelled: lengths of 2^31 and more. *)
From Verif Require Import Lib.

(* The machine: the x86 processors, for which HAVE_INDIFFERENT_ALIGNMENT is 1 (compiler.hh:55-57), or another, little endian or big
   endian. *)
Inductive machine := X86 | Other (little : bool).
(* A 16-bit load of the machine, get16 of string.cc:271, of the bytes x, y. *)
Definition load16 (m : machine) (x y : Z) : Z := match m with X86 | Other true => x + y * 2 ^ 8 | Other false => x * 2 ^ 8 + y end.
(* get16 for odd addresses, string.cc:285-289: the first definition is taken on all processors but x86. *)
Definition odd16 (m : machine) (x y : Z) : Z := match m with X86 => x + y * 2 ^ 8 | Other _ => x * 2 ^ 8 + y end.
(* Sums of 32-bit words, hash += x. *)
Definition add32 (x y : Z) : Z := (x + y) mod 2 ^ 32.
(* hash << k, string.cc:275, 310-329. *)
Definition shl32 (x k : Z) : Z := Z.shiftl x k mod 2 ^ 32.
(* hash ^= hash << k; hash += hash >> j, as in string.cc:315-316, 320-321, 325-330. *)
Definition mix (k j h : Z) : Z := let h := Z.lxor h (shl32 h k) in add32 h (Z.shiftr h j).
(* One group of four bytes, string.cc:273-276. *)
Definition group (u v h : Z) : Z :=
  let h := add32 h u in let tmp := Z.lxor (shl32 v 11) h in let h := Z.lxor (shl32 h 16) tmp in add32 h (Z.shiftr h 11).
(* The loop, string.cc:272-277 and 291-296, and the end cases, 278-280, 305-322, with w as get16. *)
Fixpoint hash_loop (w : Z -> Z -> Z) (h : Z) (s : list Z) : Z :=
  match s with
  | a :: b :: c :: d :: s' => hash_loop w (group (w a b) (w c d) h) s'
  | [a; b; c] => let h := add32 h (w a b) in let h := Z.lxor h (shl32 h 16) in let h := Z.lxor h (shl32 c 18) in add32 h (Z.shiftr h 11)
  | [a; b] => mix 11 17 (add32 h (w a b))
  | [a] => mix 10 1 (add32 h a)
  | [] => h
  end.
(* hashcode, string.cc:257-333; odd: the address of s is odd; the branch of line 269 exists only without HAVE_INDIFFERENT_ALIGNMENT. *)
Definition hashcode (m : machine) (odd : bool) (s : list Z) : Z :=
  match s with
  | [] => 0
  | _ :: _ =>
    let w := match m with X86 => load16 m | Other _ => if odd then odd16 m else load16 m end in
    mix 25 6 (mix 4 17 (mix 3 5 (hash_loop w (len s mod 2 ^ 32) s)))
  end.

(* isdigit in the C locale, string.cc:395, 398. *)
Definition isdigit (c : Z) : bool := (48 <=? c) && (c <=? 57).
(* The loop of to_i, string.cc:398-399; unsigned long of 64 bits. *)
Fixpoint to_u (x : Z) (s : list Z) : Z := match s with c :: s' => if isdigit c then to_u ((x * 10 + c - 48) mod 2 ^ 64) s' else x | [] => x end.
(* The conversion of unsigned long to long, string.cc:400: the signed number with the same bits. *)
Definition signed64 (x : Z) : Z := if 2 ^ 63 <=? x then x - 2 ^ 64 else x.
(* to_i behind the sign, string.cc:395-400. *)
Definition to_i_rest (neg : bool) (s : list Z) : Z :=
  match s with
  | c :: s' => if isdigit c then let x := to_u (c - 48) s' in signed64 (if neg then (- x) mod 2 ^ 64 else x) else 0
  | [] => 0
  end.
(* to_i, string.cc:388-401. *)
Definition to_i (s : list Z) : Z :=
  match s with
  | c :: s' => if (c =? 45) || (c =? 43) then to_i_rest (c =? 45) s' else to_i_rest false s
  | [] => 0
  end.
