(* base64 and URI component encodings of strings, string_base.hh:579-656. Strings are lists of bytes; the reservations in the output
   buffer are computed as ints, and an overflow there or a byte written beyond one is an outcome of its own. Not modelled: a
   failing reservation, the locale of isalnum (the C locale is taken), String::decode_base64 (string.cc:1376), which returns an
   empty string for a text that is not base64. *)
From Verif Require Import Lib.

(* String_generic::base64_encoding_table, string.cc:88. *)
Definition enc_table : list Z :=
  [65; 66; 67; 68; 69; 70; 71; 72; 73; 74; 75; 76; 77; 78; 79; 80; 81; 82; 83; 84; 85; 86; 87; 88; 89; 90;
   97; 98; 99; 100; 101; 102; 103; 104; 105; 106; 107; 108; 109; 110; 111; 112; 113; 114; 115; 116; 117; 118; 119; 120; 121; 122;
   48; 49; 50; 51; 52; 53; 54; 55; 56; 57; 43; 47].
(* String_generic::base64_decoding_map, string.cc:89-105: value plus one, or 0; with the byte that ends the literal. *)
Definition dec_map : list Z :=
  [0; 0; 0; 0; 0; 0; 0; 0; 0; 0; 0; 0; 0; 0; 0; 0;
   0; 0; 0; 0; 0; 0; 0; 0; 0; 0; 0; 0; 0; 0; 0; 0;
   0; 0; 0; 0; 0; 0; 0; 0; 0; 0; 0; 63; 0; 0; 0; 64;
   53; 54; 55; 56; 57; 58; 59; 60; 61; 62; 0; 0; 0; 0; 0; 0;
   0; 1; 2; 3; 4; 5; 6; 7; 8; 9; 10; 11; 12; 13; 14; 15;
   16; 17; 18; 19; 20; 21; 22; 23; 24; 25; 26; 0; 0; 0; 0; 0;
   0; 27; 28; 29; 30; 31; 32; 33; 34; 35; 36; 37; 38; 39; 40; 41;
   42; 43; 44; 45; 46; 47; 48; 49; 50; 51; 52; 0; 0; 0; 0; 0;
   0; 0; 0; 0; 0; 0; 0; 0; 0; 0; 0; 0; 0; 0; 0; 0;
   0; 0; 0; 0; 0; 0; 0; 0; 0; 0; 0; 0; 0; 0; 0; 0;
   0; 0; 0; 0; 0; 0; 0; 0; 0; 0; 0; 0; 0; 0; 0; 0;
   0; 0; 0; 0; 0; 0; 0; 0; 0; 0; 0; 0; 0; 0; 0; 0;
   0; 0; 0; 0; 0; 0; 0; 0; 0; 0; 0; 0; 0; 0; 0; 0;
   0; 0; 0; 0; 0; 0; 0; 0; 0; 0; 0; 0; 0; 0; 0; 0;
   0; 0; 0; 0; 0; 0; 0; 0; 0; 0; 0; 0; 0; 0; 0; 0;
   0; 0; 0; 0; 0; 0; 0; 0; 0; 0; 0; 0; 0; 0; 0; 0].
(* Outcomes: undefined behaviour, false, or the bytes written. *)
Inductive eres := EUb | ENo | EOk (l : list Z).
(* An element of the table, string_base.hh:585. *)
Definition tab (v : Z) : Z := nth (Z.to_nat v) enc_table 0.
(* The loop and the end of encode_base64, string_base.hh:583-602. *)
Fixpoint enc64 (pad : bool) (s : list Z) : list Z :=
  match s with
  | a :: b :: c :: s' => let x := Z.lor (Z.lor (Z.shiftl a 16) (Z.shiftl b 8)) c in
      tab (Z.shiftr x 18) :: tab (Z.land (Z.shiftr x 12) 63) :: tab (Z.land (Z.shiftr x 6) 63) :: tab (Z.land x 63) :: enc64 pad s'
  | [a; b] => let x := Z.lor (Z.shiftl a 16) (Z.shiftl b 8) in
      [tab (Z.shiftr x 18); tab (Z.land (Z.shiftr x 12) 63); tab (Z.land (Z.shiftr x 6) 63)] ++ (if pad then [61] else [])
  | [a] => let x := Z.shiftl a 16 in [tab (Z.shiftr x 18); tab (Z.land (Z.shiftr x 12) 63)] ++ (if pad then [61; 61] else [])
  | [] => []
  end.
(* encode_base64, string_base.hh:580-604, with its reservation. *)
Definition encode_base64 (pad : bool) (s : list Z) : eres :=
  if 2 ^ 31 <=? (len s + 2) * 4 then EUb else if (len s + 2) * 4 / 3 <? len (enc64 pad s) then EUb else EOk (enc64 pad s).

(* ((unsigned) base64_decoding_map[c]) - 1, string_base.hh:612. *)
Definition sx (c : Z) : Z := (nth (Z.to_nat c) dec_map 0 - 1) mod 2 ^ 32.
(* unsigned << k. *)
Definition shl (x k : Z) : Z := Z.shiftl x k mod 2 ^ 32.
(* (int) x < 0, string_base.hh:616. *)
Definition neg32 (x : Z) : bool := 2 ^ 31 <=? x.
(* (unsigned char) (x >> k), string_base.hh:618-620. *)
Definition out8 (x k : Z) : Z := Z.shiftr x k mod 256.
(* The loop and the end of decode_base64, string_base.hh:611-633; None: returns false. *)
Fixpoint dec64 (s : list Z) : option (list Z) :=
  match s with
  | a :: b :: c :: d :: s' => let x := Z.lor (Z.lor (Z.lor (shl (sx a) 18) (shl (sx b) 12)) (shl (sx c) 6)) (sx d) in
      if neg32 x then None else match dec64 s' with Some r => Some (out8 x 16 :: out8 x 8 :: out8 x 0 :: r) | None => None end
  | [a; b; c] => let x := Z.lor (Z.lor (shl (sx a) 18) (shl (sx b) 12)) (shl (sx c) 6) in if neg32 x then None else Some [out8 x 16; out8 x 8]
  | [a; b] => let x := Z.lor (Z.lor (shl (sx a) 18) (shl (sx b) 12)) 0 in if neg32 x then None else Some [out8 x 16]
  | [a] => None
  | [] => Some []
  end.
(* while (end > s && end[-1] == '='), string_base.hh:609-610, on the reversed text. *)
Fixpoint drop_eq (r : list Z) : list Z := match r with x :: r' => if x =? 61 then drop_eq r' else r | [] => [] end.
(* decode_base64, string_base.hh:606-635, with its reservation. *)
Definition decode_base64 (s : list Z) : eres :=
  if 2 ^ 31 <=? len s * 3 then EUb
  else match dec64 (rev (drop_eq (rev s))) with None => ENo | Some o => if len s * 3 / 4 + 1 <? len o then EUb else EOk o end.

(* isalnum in the C locale or one of - _ . ~, string_base.hh:643. *)
Definition uri_plain (c : Z) : bool :=
  ((48 <=? c) && (c <=? 57)) || ((65 <=? c) && (c <=? 90)) || ((97 <=? c) && (c <=? 122)) || (c =? 45) || (c =? 95) || (c =? 46) || (c =? 126).
(* upper_hex_nibble, string_base.hh:72-74. *)
Definition hex (n : Z) : Z := n + (if 9 <? n then 55 else 48).
(* encode_uri_component, string_base.hh:638-655; pend: the bytes from last to s, not yet appended. *)
Fixpoint uri (pend s : list Z) : list Z :=
  match s with
  | [] => pend
  | c :: s' => if uri_plain c then uri (pend ++ [c]) s' else pend ++ [37; hex (Z.shiftr c 4); hex (Z.land c 15)] ++ uri [] s'
  end.
(* The whole function, string_base.hh:638-656. *)
Definition encode_uri_component (s : list Z) : list Z := uri [] s.
