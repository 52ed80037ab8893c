(* What byte-range updates of a string mean. A change is an offset and the bytes to put there. *)
From Verif Require Import Lib.

(* The byte that the changes, applied in order, leave at position p, if any of them covers p. *)
Fixpoint covering (ch : list (Z * list Z)) (p : Z) : option Z :=
  match ch with
  | [] => None
  | (off, v) :: later =>
    match covering later p with
    | Some b => Some b
    | None => if (off <=? p) && (p <? off + len v) then Some (nth (Z.to_nat (p - off)) v 0) else None
    end
  end.
(* One more than the last position covered. *)
Definition reach (ch : list (Z * list Z)) : Z := fold_right (fun c n => Z.max (fst c + len (snd c)) n) 0 ch.

(* A change of a string row names an index: the offset in the low 16 bits, a length (used by reads only) above.
   The changes as offsets and bytes: *)
Definition ranges (ch : list (Z * list Z)) : list (Z * list Z) := map (fun c => (fst c mod 2 ^ 16, snd c)) ch.
(* How much of the old row an update keeps: all, unless a change names index 0, which replaces the whole value; the
   last such change counts. *)
Fixpoint kept (ch : list (Z * list Z)) (old : Z) : Z :=
  match ch with [] => old | (idx, v) :: ch' => kept ch' (if idx =? 0 then len v else old) end.
