(* What to_i reads. *)
From Verif Require Import Lib Spec_Natcmp.

(* An optional sign. *)
Inductive sign : list Z -> bool -> Prop := SNone : sign [] false | SPlus : sign [43] false | SMinus : sign [45] true.
(* s begins with the integer v: a sign or none, digits, and no further digit. *)
Definition begins (s : list Z) (v : Z) : Prop :=
  exists g neg d t, s = g ++ d ++ t /\ sign g neg /\ number d /\ ends t /\ v = (if neg then - value d else value d).
