(* The texts that the parser accepts, as a grammar: JSON as in Spec_JsonText, and what it takes besides. *)
From Verif Require Import Lib M_Msgpack Spec_JsonText.

(* One character of a string, and its bytes. *)
Inductive lchar : list Z -> list Z -> Prop :=
| lc_json t c : jchar false t c -> lchar t (utf8 c)
(* escapes of U+0800 to U+7FFF give two bytes that are no UTF-8 *)
| lc_garbled h c : hex4 h c -> 2048 <= c < 32768 ->
    lchar (92 :: 117 :: h) [Z.lor 192 (c / 64) mod 256; 128 + c mod 64].
Inductive lchars : list Z -> list Z -> Prop :=
| lcs_nil : lchars [] []
| lcs_cons t b t' bs : lchar t b -> lchars t' bs -> lchars (t ++ t') (b ++ bs).
Inductive lstring : list Z -> list Z -> Prop :=
| ls_quoted t s : lchars t s -> lstring (34 :: t ++ [34]) s.

(* Of two values for one name the second is appended to the first, if that is an array, and replaces it otherwise. *)
Definition merge (old v : json) : json := match old with JArr l => JArr (l ++ [v]) | _ => v end.
Fixpoint add (l : list (list Z * json)) (k : list Z) (v : json) : list (list Z * json) :=
  match l with
  | [] => [(k, v)]
  | (k', x) :: l' => if list_eq_dec Z.eq_dec k k' then (k', merge x v) :: l' else (k', x) :: add l' k v
  end.
Definition members (l : list (list Z * json)) : list (list Z * json) :=
  fold_left (fun l kv => add l (fst kv) (snd kv)) l [].

Section Grammar.
Variable strtod : list Z -> Z.
(* Numbers. Integers may be held in either type. *)
Inductive lnumber : list Z -> json -> Prop :=
| ln_json t v v' : jnumber false strtod t v -> same_value v' v -> lnumber t v'
| ln_wrap t : intpart t -> 2 ^ 64 <= decimal t -> lnumber t (JUns (decimal t mod 2 ^ 64))
| ln_wrap_neg t x : intpart t -> 2 ^ 63 < decimal t -> - 2 ^ 63 < x < 2 ^ 63 -> (x + decimal t) mod 2 ^ 64 = 0 ->
    lnumber (45 :: t) (JInt x)
(* no digit need follow the minus sign, if there is a fraction or an exponent *)
| ln_minus f e : frac f -> expo e -> f ++ e <> [] -> lnumber (45 :: f ++ e) (JDouble (strtod (45 :: f ++ e))).

Inductive ltext : list Z -> json -> Prop :=
| lt_null : ltext [110; 117; 108; 108] JNull
| lt_true : ltext [116; 114; 117; 101] (JBool true)
| lt_false : ltext [102; 97; 108; 115; 101] (JBool false)
| lt_num t v : lnumber t v -> ltext t v
| lt_str t s : lstring t s -> ltext t (JStr s)
| lt_arr0 w : ws w -> ltext (91 :: w ++ [93]) (JArr [])
| lt_arr t l : litems t l -> ltext (91 :: t ++ [93]) (JArr l)
| lt_obj0 w : ws w -> ltext (123 :: w ++ [125]) (JObj [])
| lt_obj t l : lmembers t l -> ltext (123 :: t ++ [125]) (JObj (members l))
with litems : list Z -> list json -> Prop :=
| li_one w1 t w2 v : ws w1 -> ltext t v -> ws w2 -> litems (w1 ++ t ++ w2) [v]
| li_more w1 t w2 v t' l : ws w1 -> ltext t v -> ws w2 -> litems t' l -> litems (w1 ++ t ++ w2 ++ 44 :: t') (v :: l)
with lmembers : list Z -> list (list Z * json) -> Prop :=
| lm_one w1 tk w2 w3 t w4 k v : ws w1 -> lstring tk k -> ws w2 -> ws w3 -> ltext t v -> ws w4 ->
    lmembers (w1 ++ tk ++ w2 ++ 58 :: w3 ++ t ++ w4) [(k, v)]
| lm_more w1 tk w2 w3 t w4 k v t' l : ws w1 -> lstring tk k -> ws w2 -> ws w3 -> ltext t v -> ws w4 ->
    lmembers t' l -> lmembers (w1 ++ tk ++ w2 ++ 58 :: w3 ++ t ++ w4 ++ 44 :: t') ((k, v) :: l).
Inductive ldoc : list Z -> json -> Prop :=
| ld_doc w1 t w2 v : ws w1 -> ltext t v -> ws w2 -> (length w2 <= 1)%nat -> ldoc (w1 ++ t ++ w2) v.
End Grammar.
