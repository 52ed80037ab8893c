(* Model of kpermuter<W> (kpermuter.hh): the packed key permutation. Definitions only.
   A permuter is its word x_; W is the template parameter (1..15). Positions and sizes are nat. *)
From Verif Require Import Lib.

Section Permuter.
Context (W : nat).

(* Bits of value_type, kpermuter.hh:41-57 and 61: unsigned (32) for W <= 7, uint64_t for 8 <= W <= 15. *)
Definition pbits : Z := if (W <=? 7)%nat then 32 else 64.
(* max_width, kpermuter.hh:64: 2*sizeof(storage_type)-1. *)
Definition pmaxw : nat := if (W <=? 3)%nat then 3 else if (W <=? 7)%nat then 7 else 15.
(* info::initial_value / full_value, kpermuter.hh:44, 49, 54-55. *)
Definition pinit : Z :=
  if (W <=? 3)%nat then 0x0120 else if (W <=? 7)%nat then 0x01234560 else 0x0123456789ABCDE0.
Definition pfull : Z :=
  if (W <=? 3)%nat then 0x2100 else if (W <=? 7)%nat then 0x65432100 else 0xEDCBA98765432100.

(* value_type arithmetic: every result is reduced modulo 2^pbits. *)
Definition pwrap (x : Z) : Z := x mod 2 ^ pbits.
Definition pshl (a : Z) (n : nat) : Z := pwrap (Z.shiftl a (Z.of_nat n)).
Definition pshr (a : Z) (n : nat) : Z := Z.shiftr a (Z.of_nat n).
Definition pnot (a : Z) : Z := pwrap (Z.lnot a).
Definition psub1 (a : Z) : Z := pwrap (a - 1).

(* make_empty, kpermuter.hh:78-81. *)
Definition perm_empty : Z :=
  Z.land (pshr pinit ((pmaxw - W) * 4)) (pnot 15).

(* make_sorted, kpermuter.hh:87-92. *)
Definition perm_make_sorted (n : nat) : Z :=
  let mask := psub1 (if (n =? W)%nat then 0 else pshl 16 (n * 4)) in
  Z.lor (Z.lor (pshl perm_empty (n * 4)) (Z.land pfull mask)) (Z.of_nat n).

(* size, kpermuter.hh:95-97. *)
Definition perm_size (x : Z) : nat := Z.to_nat (Z.land x 15).
(* operator[], kpermuter.hh:103-105. *)
Definition perm_get (x : Z) (i : nat) : nat := Z.to_nat (Z.land (pshr x (i * 4 + 4)) 15).
(* back, kpermuter.hh:106-108. *)
Definition perm_back (x : Z) : nat := perm_get x (W - 1).
(* set_size, kpermuter.hh:116-118. *)
Definition perm_set_size (x : Z) (n : nat) : Z := Z.lor (Z.land x (pnot 15)) (Z.of_nat n).

(* insert_from_back, kpermuter.hh:137-146 (the new word; the returned element is perm_back). *)
Definition perm_insert_from_back (x : Z) (i : nat) : Z :=
  let value := Z.of_nat (perm_back x) in
  Z.lor (Z.lor (Z.land (pwrap (x + 1)) (psub1 (pshl 16 (i * 4))))
               (pshl value (i * 4 + 4)))
        (Z.land (pshl x 4) (pnot (psub1 (pshl 256 (i * 4))))).

(* insert_selected, kpermuter.hh:152-163. *)
Definition perm_insert_selected (x : Z) (di si : nat) : Z :=
  let value := Z.of_nat (perm_get x si) in
  let mask := psub1 (pshl 256 (si * 4)) in
  Z.lor (Z.lor (Z.lor (Z.land (pwrap (x + 1)) (psub1 (pshl 16 (di * 4))))
               (pshl value (di * 4 + 4)))
        (Z.land (Z.land (pshl x 4) mask) (pnot (psub1 (pshl 256 (di * 4))))))
        (Z.land x (pnot mask)).

(* remove, kpermuter.hh:181-195. *)
Definition perm_remove (x : Z) (i : nat) : Z :=
  if (perm_size x =? i + 1)%nat then psub1 x
  else
    let rot_amount := ((perm_size x - i - 1) * 4)%nat in
    let rot_mask := pshl (psub1 (pshl 16 rot_amount)) ((i + 1) * 4) in
    Z.lor (Z.lor (Z.land (psub1 x) (pnot rot_mask))
                 (Z.land (pshr (Z.land x rot_mask) 4) rot_mask))
          (Z.land (pshl (Z.land x rot_mask) rot_amount) rot_mask).

(* remove_to_back, kpermuter.hh:213-223. *)
Definition perm_remove_to_back (x : Z) (i : nat) : Z :=
  let mask := pnot (psub1 (pshl 16 (i * 4))) in
  let x' := Z.land x (psub1 (pshl 16 (W * 4))) in
  Z.lor (Z.lor (Z.land (psub1 x') (pnot mask))
               (Z.land (pshr x' 4) mask))
        (pshl (Z.land x' mask) ((W - i - 1) * 4)).

(* rotate, kpermuter.hh:239-246. *)
Definition perm_rotate (x : Z) (i j : nat) : Z :=
  let mask := psub1 (if (i =? W)%nat then 0 else pshl 16 (i * 4)) in
  let x' := Z.land x (psub1 (pshl 16 (W * 4))) in
  Z.lor (Z.lor (Z.land x' mask) (Z.land (pshr x' ((j - i) * 4)) (pnot mask)))
        (pshl (Z.land x' (pnot mask)) ((W - j) * 4)).

(* exchange, kpermuter.hh:248-251. *)
Definition perm_exchange (x : Z) (i j : nat) : Z :=
  let diff := Z.land (Z.lxor (pshr x (i * 4)) (pshr x (j * 4))) 240 in
  Z.lxor x (Z.lor (pshl diff (i * 4)) (pshl diff (j * 4))).

(* Loop of exchange_values, kpermuter.hh:255-258: k iterations left. The operand -((v==x)|(v==y)) & (x^y)
   is x^y when v is one of the two values and 0 otherwise. *)
Fixpoint perm_xv_loop (k : nat) (a b : nat) (diff p : Z) : Z :=
  match k with
  | O => diff
  | S k' =>
    let v := Z.to_nat (Z.land (pshr p (W * 4)) 15) in
    let c := if (v =? a)%nat || (v =? b)%nat then Z.lxor (Z.of_nat a) (Z.of_nat b) else 0 in
    perm_xv_loop k' a b (pshl (Z.lxor diff c) 4) (pshl p 4)
  end.
(* exchange_values, kpermuter.hh:253-260. *)
Definition perm_exchange_values (x : Z) (a b : nat) : Z := Z.lxor x (perm_xv_loop W a b 0 x).

(* The permutation seen as a list of W slots: the live slots are the first perm_size of them. *)
Definition perm_list (x : Z) : list nat := map (perm_get x) (seq 0 W).

End Permuter.
