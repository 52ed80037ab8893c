(* Specification vocabulary for the message codec: which values can be sent, and when a decoded value is
   the same as a sent one. *)
From Verif Require Import Lib M_Key M_Msgpack.

(* Values a program can build: integers of the C types, doubles given by their bits, strings and
   containers with int sizes, objects with distinct keys. *)
Inductive json_ok : json -> Prop :=
| ok_null : json_ok JNull
| ok_bool b : json_ok (JBool b)
| ok_int x : - 2 ^ 63 <= x < 2 ^ 63 -> json_ok (JInt x)
| ok_uns x : 0 <= x < 2 ^ 64 -> json_ok (JUns x)
| ok_double d : 0 <= d < 2 ^ 64 -> json_ok (JDouble d)
| ok_str s : bytes_ok s -> len s < 2 ^ 31 -> json_ok (JStr s)
| ok_arr l : len l < 2 ^ 31 -> Forall json_ok l -> json_ok (JArr l)
| ok_obj l : len l < 2 ^ 31 -> NoDup (map fst l) ->
    Forall (fun kv => bytes_ok (fst kv) /\ len (fst kv) < 2 ^ 31 /\ json_ok (snd kv)) l -> json_ok (JObj l).

(* The same value: integers are compared by their value whatever C type holds them, everything else is
   compared structurally, object members in order. *)
Inductive jsame : json -> json -> Prop :=
| same_null : jsame JNull JNull
| same_bool b : jsame (JBool b) (JBool b)
| same_int x : jsame (JInt x) (JInt x)
| same_uns x : jsame (JUns x) (JUns x)
| same_int_uns x : jsame (JInt x) (JUns x)
| same_uns_int x : jsame (JUns x) (JInt x)
| same_double d : jsame (JDouble d) (JDouble d)
| same_str s : jsame (JStr s) (JStr s)
| same_arr l l' : Forall2 jsame l l' -> jsame (JArr l) (JArr l')
| same_obj l l' : Forall2 (fun a b => fst a = fst b /\ jsame (snd a) (snd b)) l l' -> jsame (JObj l) (JObj l').

(* Primitive values, and those whose encoding carries no 8-byte payload. *)
Definition primitive (j : json) : Prop :=
  match j with JNull | JBool _ | JInt _ | JUns _ | JDouble _ | JStr _ => True | JArr _ | JObj _ => False end.
Definition narrow (j : json) : Prop :=
  match j with
  | JNull | JBool _ | JStr _ => True
  | JInt x => - 2 ^ 31 <= x < 2 ^ 31
  | JUns x => 0 <= x < 2 ^ 32
  | JDouble _ | JArr _ | JObj _ => False
  end.

(* The values of a C integer type. *)
Definition fits (t : ctype) (x : Z) : Prop :=
  if ct_signed t then - 2 ^ (ct_bits t - 1) <= x < 2 ^ (ct_bits t - 1) else 0 <= x < 2 ^ ct_bits t.
Definition c_types : list ctype := [c_int; c_unsigned; c_long; c_ulong].

(* The input starts with a binary, string, array or map header with a 4-byte length of 2^31 or more. *)
Definition long_header (s : list Z) : Prop :=
  exists h r, s = h :: r /\ In h [198; 219; 221; 223] /\ 2 ^ 31 <= be_val (firstn 4 r).
