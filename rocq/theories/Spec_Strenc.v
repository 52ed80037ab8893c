(* base64 by bits (RFC 4648 section 4) and percent-encoding (RFC 3986 section 2). *)
From Verif Require Import Lib.

(* The n low bits of v, the highest first, and the number of a list of bits. *)
Definition bits (n : nat) (v : Z) : list bool := map (fun i => Z.testbit v (Z.of_nat (n - 1 - i))) (seq 0 n).
Definition num (l : list bool) : Z := fold_left (fun a b => 2 * a + Z.b2z b) l 0.
(* Groups of six bits, the last filled with zeros; groups of eight bits, the rest dropped. *)
Fixpoint sextets (l : list bool) : list Z :=
  match l with
  | a :: b :: c :: d :: e :: f :: l' => num [a; b; c; d; e; f] :: sextets l'
  | [] => []
  | _ => [num (firstn 6 (l ++ repeat false 6))]
  end.
Fixpoint octets (l : list bool) : list Z :=
  match l with a :: b :: c :: d :: e :: f :: g :: h :: l' => num [a; b; c; d; e; f; g; h] :: octets l' | _ => [] end.
(* A-Z a-z 0-9 + / *)
Definition alphabet (v : Z) : Z := if v <? 26 then 65 + v else if v <? 52 then 97 + (v - 26) else if v <? 62 then 48 + (v - 52) else if v =? 62 then 43 else 47.
Definition value (c : Z) : option Z :=
  if (65 <=? c) && (c <=? 90) then Some (c - 65) else if (97 <=? c) && (c <=? 122) then Some (c - 97 + 26) else if (48 <=? c) && (c <=? 57) then Some (c - 48 + 52)
  else if c =? 43 then Some 62 else if c =? 47 then Some 63 else None.
Fixpoint values (t : list Z) : option (list Z) :=
  match t with [] => Some [] | c :: t' => match value c, values t' with Some v, Some r => Some (v :: r) | _, _ => None end end.
Definition base64 (pad : bool) (s : list Z) : list Z :=
  let t := map alphabet (sextets (flat_map (bits 8) s)) in t ++ (if pad then repeat 61 ((4 - length t mod 4) mod 4) else []).
(* The bytes of a text of the alphabet, without padding; a single last digit has no meaning. *)
Definition unbase64 (t : list Z) : option (list Z) :=
  match values t with Some vs => if (length vs mod 4 =? 1)%nat then None else Some (octets (flat_map (bits 6) vs)) | None => None end.

(* Unreserved characters; a text of these and of % with two digits, and the bytes it stands for. *)
Definition unreserved (c : Z) : Prop := 48 <= c <= 57 \/ 65 <= c <= 90 \/ 97 <= c <= 122 \/ c = 45 \/ c = 95 \/ c = 46 \/ c = 126.
Definition digit (c : Z) (n : Z) : Prop := 0 <= n <= 9 /\ c = 48 + n \/ 10 <= n <= 15 /\ c = 65 + (n - 10).
Inductive percent : list Z -> list Z -> Prop :=
| Pc_nil : percent [] []
| Pc_plain c t s : unreserved c -> percent t s -> percent (c :: t) (c :: s)
| Pc_code c1 c2 h l t s : digit c1 h -> digit c2 l -> ~ unreserved (16 * h + l) -> percent t s -> percent (37 :: c1 :: c2 :: t) (16 * h + l :: s).
