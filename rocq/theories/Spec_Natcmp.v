(* What natural comparison says of numbers. *)
From Verif Require Import Lib.

(* The bytes of the digits 0 to 9. *)
Definition digit (x : Z) : Prop := 48 <= x <= 57.
(* The value of a decimal number. *)
Fixpoint value (l : list Z) : Z := match l with [] => 0 | x :: l' => (x - 48) * 10 ^ len l' + value l' end.
(* A number: one digit or more. *)
Definition number (l : list Z) : Prop := l <> [] /\ Forall digit l.
(* A text that makes the number after it negative: it ends with a minus sign, at its beginning or after white space. *)
Definition signed (p : list Z) : Prop := p = [45] \/ exists q c, p = q ++ [c; 45] /\ (c = 32 \/ 9 <= c <= 13).
(* The order of two numbers behind the same text: by value; of equal values, the one with fewer zeros in front is first. *)
Definition number_before (p a b : list Z) : Prop :=
  value a < value b /\ ~ signed p \/ value b < value a /\ signed p \/ value a = value b /\ len a < len b.

(* Lexicographic order of byte strings. *)
Fixpoint lexlt (a b : list Z) : Prop :=
  match a, b with [], _ :: _ => True | x :: a', y :: b' => x < y \/ x = y /\ lexlt a' b' | _, [] => False end.
(* A letter in lower case. *)
Definition lower (c : Z) : Z := if (65 <=? c) && (c <=? 90) then c + 32 else c.
(* The order of texts without digits: case matters only between texts that are otherwise equal. *)
Definition text_before (a b : list Z) : Prop := lexlt (map lower a) (map lower b) \/ map lower a = map lower b /\ lexlt a b.

(* Zeros at the beginning. *)
Fixpoint lead (l : list Z) : nat := match l with x :: l' => if x =? 48 then S (lead l') else O | [] => O end.
(* 0.f < 0.g for the digits f and g. *)
Definition frac_lt (f g : list Z) : Prop := value f * 10 ^ len g < value g * 10 ^ len f.
(* 0.f = 0.g. *)
Definition frac_eq (f g : list Z) : Prop := value f * 10 ^ len g = value g * 10 ^ len f.
(* The order of i.f and i.g behind the same text: by value; of equal values the one with more digits is farther from zero. *)
Definition fraction_before (p f g : list Z) : Prop :=
  ~ signed p /\ (frac_lt f g \/ frac_eq f g /\ len f < len g) \/ signed p /\ (frac_lt g f \/ frac_eq f g /\ len g < len f).

(* No further digit. *)
Definition ends (t : list Z) : Prop := match t with x :: _ => ~ digit x | [] => True end.
(* A period that does not end a sentence: a byte other than white space follows. *)
Definition dotted (t : list Z) : Prop := exists c r, t = 46 :: c :: r /\ ~ (c = 32 \/ 9 <= c <= 13).
(* A letter of ASCII. *)
Definition letter (c : Z) : Prop := 65 <= c <= 90 \/ 97 <= c <= 122.
