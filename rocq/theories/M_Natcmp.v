(* String_generic::natural_compare, string.cc:146-255. Strings are lists of bytes; the pointers a and b are the rests of the strings
   from there, with the bytes before a in reverse. Not modelled: locales other than C for isdigit, isalpha, isspace and tolower;
   lengths of 2^31 and more. *)
From Verif Require Import Lib.

(* isdigit in the C locale, as used in string.cc:155, 180-181, 194-196, 220-222, 233-235. *)
Definition isdigit (c : Z) : bool := (48 <=? c) && (c <=? 57).
(* isalpha in the C locale, string.cc:234, 236. *)
Definition isalpha (c : Z) : bool := ((65 <=? c) && (c <=? 90)) || ((97 <=? c) && (c <=? 122)).
(* isspace in the C locale, string.cc:165, 199-200. *)
Definition isspace (c : Z) : bool := (c =? 32) || ((9 <=? c) && (c <=? 13)).
(* tolower in the C locale, string.cc:238-239. *)
Definition tolower (c : Z) : Z := if (65 <=? c) && (c <=? 90) then c + 32 else c.
(* Skip '0's, string.cc:170-174: their number and the rest. *)
Fixpoint zeros (a : list Z) : Z * list Z := match a with x :: a' => if x =? 48 then let r := zeros a' in (fst r + 1, snd r) else (0, a) | [] => (0, []) end.
(* a < ae && isdigit( *a), string.cc:180-181. *)
Definition dig (a : list Z) : bool := match a with x :: _ => isdigit x | [] => false end.
(* The walk over digits, string.cc:176-188: the first difference and the rests. *)
Fixpoint walk (dc : Z) (a b : list Z) : Z * (list Z * list Z) :=
  match a, b with
  | x :: a', y :: b' => if isdigit x && isdigit y then walk (if dc =? 0 then x - y else dc) a' b' else (dc, (a, b))
  | _, _ => (dc, (a, b))
  end.
(* The part of an IP address, string.cc:193-200: the digits from here are followed by '.' and a byte that is not white space. *)
Fixpoint ip (a : list Z) : bool :=
  match a with
  | x :: a' => if isdigit x then ip a' else (x =? 46) && match a' with c :: _ => negb (isspace c) | [] => false end
  | [] => false
  end.
(* A fraction follows, string.cc:219-222. *)
Definition frac (a : list Z) : bool := match a with x :: a' => (x =? 46) && dig a' | [] => false end.
(* Two numbers, string.cc:155-216: decided, or equal with the rests and the sign. pd: potential_decimal; rep: the repaired code
   returns according to the sign of longer_zeros in line 203. *)
Inductive nres := Ret (z : Z) | Cont (a b : list Z) (neg : bool).
Definition numbers (rep pd neg apn : bool) (a b : list Z) : nres :=
  let za := zeros a in let zb := zeros b in
  let lz := fst za - fst zb in
  let w := walk 0 (snd za) (snd zb) in
  let dc := fst w in let a2 := fst (snd w) in let b2 := snd (snd w) in
  let dec := pd && (negb (ip a2) && negb (ip b2)) in
  let neg := if dec then apn else neg in
  if dec && negb (lz =? 0) then Ret (if rep then (if xorb (0 <? lz) neg then -1 else 1) else if neg then 1 else -1)
  else
    let ag := if dec && negb (dc =? 0) then dig b2 else dig a2 in
    if negb (Bool.eqb ag (dig b2)) then Ret (if Bool.eqb neg ag then -1 else 1)
    else if negb (dc =? 0) then Ret (if Bool.eqb neg (0 <? dc) then -1 else 1)
    else if negb (lz =? 0) then Ret lz
    else Cont a2 b2 neg.
(* A minus sign before a, at the beginning or after white space, string.cc:160-166; p: the bytes before a, the last one first. *)
Definition minus (p : list Z) : bool := match p with x :: p' => (x =? 45) && match p' with c :: _ => isspace c | [] => true end | [] => false end.
(* The loop and the comparison of the rests, string.cc:154-254. ap: aperiod as a position; None: fuel exhausted. *)
Fixpoint nloop (rep : bool) (fuel : nat) (p : list Z) (a b : list Z) (ap : option nat) (apn : bool) (raw : Z) : option Z :=
  match fuel with
  | O => None
  | S f =>
    match a, b with
    | x :: a', y :: b' =>
      if isdigit x && isdigit y then
        match numbers rep (match ap with Some q => (q =? length p)%nat | None => false end) (minus p) apn a b with
        | Ret z => Some z
        | Cont a2 b2 neg =>
          let p2 := rev (firstn (length a - length a2) a) ++ p in
          match ap with
          | Some _ => nloop rep f p2 a2 b2 ap apn raw
          | None =>
            if negb (Bool.eqb (frac a2) (frac b2)) then Some (if Bool.eqb neg (frac b2) then 1 else -1)
            else if frac a2 then nloop rep f p2 a2 b2 (Some (length p2 + 1)%nat) neg raw
            else nloop rep f p2 a2 b2 None apn raw
          end
        end
      else if isdigit x then Some (if isalpha y then -1 else 1)
      else if isdigit y then Some (if isalpha x then 1 else -1)
      else if negb (tolower x =? tolower y) then Some (tolower x - tolower y)
      else nloop rep f (x :: p) a' b' (if x =? 46 then ap else None) apn (if raw =? 0 then x - y else raw)
    | _, _ => Some (if len a - len b =? 0 then raw else len a - len b)
    end
  end.
(* The whole function, string.cc:146-255, with the locals of lines 148-152. *)
Definition natural_compare (rep : bool) (a b : list Z) : option Z := nloop rep (S (length a)) [] a b None false 0.
