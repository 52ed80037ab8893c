(* JSON text, after RFC 8259, independent of the code: which texts denote which values.
   With rfc = true this is the RFC's grammar (with distinct names in every object). With rfc = false it is
   the part of it that the parser reads correctly; what is left out is listed at the premises that
   mention rfc. *)
From Verif Require Import Lib M_Msgpack.

(* Unicode scalar values and their UTF-8 encoding. *)
Definition scalar (c : Z) : Prop := 0 <= c < 1114112 /\ ~ (55296 <= c < 57344).
Definition utf8 (c : Z) : list Z :=
  if c <? 128 then [c]
  else if c <? 2048 then [192 + c / 64; 128 + c mod 64]
  else if c <? 65536 then [224 + c / 4096; 128 + c / 64 mod 64; 128 + c mod 64]
  else [240 + c / 262144; 128 + c / 4096 mod 64; 128 + c / 64 mod 64; 128 + c mod 64].

(* Hexadecimal digits. *)
Definition hexdig (c : Z) : option Z :=
  if (48 <=? c) && (c <=? 57) then Some (c - 48)
  else if (65 <=? c) && (c <=? 70) then Some (c - 55)
  else if (97 <=? c) && (c <=? 102) then Some (c - 87) else None.
Definition hex4 (h : list Z) (x : Z) : Prop :=
  exists a b c d a' b' c' d', h = [a; b; c; d] /\ hexdig a = Some a' /\ hexdig b = Some b' /\ hexdig c = Some c'
    /\ hexdig d = Some d' /\ x = 4096 * a' + 256 * b' + 16 * c' + d'.

Definition ws (w : list Z) : Prop := Forall (fun c => c = 32 \/ c = 9 \/ c = 10 \/ c = 13) w.
Definition isdig (c : Z) : Prop := 48 <= c <= 57.
Definition decimal (t : list Z) : Z := fold_left (fun x c => 10 * x + (c - 48)) t 0.

Section Grammar.
Variable rfc : bool.
Variable strtod : list Z -> Z.

(* One character of a string. *)
Inductive jchar : list Z -> Z -> Prop :=
| jc_raw c : scalar c -> 32 <= c -> c <> 34 -> c <> 92 -> jchar (utf8 c) c
| jc_esc e c : In (e, c) [(34, 34); (92, 92); (47, 47); (98, 8); (102, 12); (110, 10); (114, 13); (116, 9)] ->
    jchar [92; e] c
| jc_u h c : hex4 h c -> scalar c ->
    rfc = true \/ 0 < c < 2048 \/ 32768 <= c <= 65533 -> (* not U+0000, U+0800 to U+7FFF, U+FFFE, U+FFFF *)
    jchar (92 :: 117 :: h) c
| jc_pair h1 h2 hi lo : hex4 h1 hi -> 55296 <= hi < 56320 -> hex4 h2 lo -> 56320 <= lo < 57344 ->
    rfc = true \/ Forall (fun c => c <= 70) h2 -> (* the second unit not in lower case *)
    jchar (92 :: 117 :: h1 ++ 92 :: 117 :: h2) (65536 + (hi - 55296) * 1024 + (lo - 56320)).
Inductive jchars : list Z -> list Z -> Prop :=
| jcs_nil : jchars [] []
| jcs_cons t c t' cs : jchar t c -> jchars t' cs -> jchars (t ++ t') (c :: cs).
(* A string with its quotes, and its bytes in UTF-8. *)
Inductive jstring : list Z -> list Z -> Prop :=
| js_quoted t cs : jchars t cs -> jstring (34 :: t ++ [34]) (flat_map utf8 cs).

(* Numbers. *)
Inductive intpart : list Z -> Prop :=
| ip_zero : intpart [48]
| ip_more c t : 49 <= c <= 57 -> Forall isdig t -> intpart (c :: t).
Inductive frac : list Z -> Prop :=
| fr_none : frac []
| fr_some c t : isdig c -> Forall isdig t -> frac (46 :: c :: t).
Inductive expo : list Z -> Prop :=
| ex_none : expo []
| ex_some e s c t : e = 101 \/ e = 69 -> s = [] \/ s = [43] \/ s = [45] -> isdig c -> Forall isdig t ->
    expo (e :: s ++ c :: t).
Inductive jnumber : list Z -> json -> Prop :=
| jn_pos t : intpart t -> rfc = true \/ decimal t < 2 ^ 64 -> jnumber t (JInt (decimal t))
| jn_neg t : intpart t -> rfc = true \/ decimal t < 2 ^ 63 -> jnumber (45 :: t) (JInt (- decimal t))
| jn_real m t f e : m = [] \/ m = [45] -> intpart t -> frac f -> expo e -> f ++ e <> [] ->
    jnumber (m ++ t ++ f ++ e) (JDouble (strtod (m ++ t ++ f ++ e))).

(* Values. *)
Inductive jtext : list Z -> json -> Prop :=
| jt_null : jtext [110; 117; 108; 108] JNull
| jt_true : jtext [116; 114; 117; 101] (JBool true)
| jt_false : jtext [102; 97; 108; 115; 101] (JBool false)
| jt_num t v : jnumber t v -> jtext t v
| jt_str t s : jstring t s -> jtext t (JStr s)
| jt_arr0 w : ws w -> jtext (91 :: w ++ [93]) (JArr [])
| jt_arr t l : jitems t l -> jtext (91 :: t ++ [93]) (JArr l)
| jt_obj0 w : ws w -> jtext (123 :: w ++ [125]) (JObj [])
| jt_obj t l : jmembers t l -> NoDup (map fst l) -> jtext (123 :: t ++ [125]) (JObj l)
with jitems : list Z -> list json -> Prop :=
| ji_one w1 t w2 v : ws w1 -> jtext t v -> ws w2 -> jitems (w1 ++ t ++ w2) [v]
| ji_more w1 t w2 v t' l : ws w1 -> jtext t v -> ws w2 -> jitems t' l -> jitems (w1 ++ t ++ w2 ++ 44 :: t') (v :: l)
with jmembers : list Z -> list (list Z * json) -> Prop :=
| jm_one w1 tk w2 w3 t w4 k v : ws w1 -> jstring tk k -> ws w2 -> ws w3 -> jtext t v -> ws w4 ->
    jmembers (w1 ++ tk ++ w2 ++ 58 :: w3 ++ t ++ w4) [(k, v)]
| jm_more w1 tk w2 w3 t w4 k v t' l : ws w1 -> jstring tk k -> ws w2 -> ws w3 -> jtext t v -> ws w4 ->
    jmembers t' l -> jmembers (w1 ++ tk ++ w2 ++ 58 :: w3 ++ t ++ w4 ++ 44 :: t') ((k, v) :: l).

(* A document: a value between white space. *)
Inductive jdoc : list Z -> json -> Prop :=
| jd_doc w1 t w2 v : ws w1 -> jtext t v -> ws w2 ->
    rfc = true \/ (length w2 <= 1)%nat -> (* at most one byte of white space at the end *)
    jdoc (w1 ++ t ++ w2) v.
End Grammar.

(* The same value, whichever of the two integer types holds a number (operator==, json.cc:545-551). *)
Fixpoint canon (j : json) : json :=
  match j with
  | JUns x => JInt x
  | JArr l => JArr (map canon l)
  | JObj l => JObj (map (fun kv => (fst kv, canon (snd kv))) l)
  | _ => j
  end.
Definition same_value (a b : json) : Prop := canon a = canon b.

(* How deep arrays and objects are nested. *)
Fixpoint nesting (j : json) : Z :=
  match j with
  | JArr l => 1 + fold_right (fun x m => Z.max (nesting x) m) 0 l
  | JObj l => 1 + fold_right (fun kv m => Z.max (nesting (snd kv)) m) 0 l
  | _ => 0
  end.

(* Values without doubles, with distinct keys, whose strings and integers are as given. *)
Fixpoint good (str : list Z -> Prop) (int : Z -> Prop) (j : json) : Prop :=
  match j with
  | JNull | JBool _ => True
  | JInt x => int x
  | JUns x => 0 <= x < 2 ^ 64
  | JDouble _ => False
  | JStr s => str s
  | JArr l => fold_right (fun x P => good str int x /\ P) True l
  | JObj l => NoDup (map fst l) /\ fold_right (fun kv P => (str (fst kv) /\ good str int (snd kv)) /\ P) True l
  end.
(* All strings of UTF-8, all integers of their types. *)
Definition utf8_string (s : list Z) : Prop := exists cs, s = flat_map utf8 cs /\ Forall scalar cs.
Definition plain : json -> Prop := good utf8_string (fun x => - 2 ^ 63 <= x < 2 ^ 63).
(* What the writer and the parser agree on: without U+0000, U+2028, U+2029 and the smallest integer. *)
Definition clean_string (s : list Z) : Prop :=
  exists cs, s = flat_map utf8 cs /\ Forall (fun c => scalar c /\ c <> 0 /\ c <> 8232 /\ c <> 8233) cs.
Definition clean : json -> Prop := good clean_string (fun x => - 2 ^ 63 < x < 2 ^ 63).

(* A piece of text that ends in one of the bytes E0, ED, F0, F4. *)
Definition lead (c : Z) : Prop := c = 224 \/ c = 237 \/ c = 240 \/ c = 244.
Definition badend (s : list Z) : Prop := exists a c, s = a ++ [c] /\ lead c.
(* A text with a minus sign and digits whose value is 2^63 modulo 2^64. *)
Definition int_min (s : list Z) : Prop :=
  exists a ds t, s = a ++ 45 :: ds ++ t /\ Forall isdig ds /\ decimal ds mod 2 ^ 64 = 2 ^ 63.
