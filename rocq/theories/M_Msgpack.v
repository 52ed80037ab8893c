(* Model of the msgpack encoder and decoders (msgpack.hh, msgpack.cc). Definitions only.
   Strings are byte lists. A decoder's position is the list of bytes from it to the end of the input. *)
From Coq Require Import Decimal DecimalZ.
From Verif Require Import Lib M_Key.

(* Values: lcdf::Json, json.hh:46-50 (json_type) and 93-100. The representation's reference counting
   (copy on write, json.cc:230-300) is modelled by value semantics. JInt is j_int (int64_t), JUns is
   j_unsigned (uint64_t), JDouble carries the 64 bits of the double. Objects keep their items in insertion order (json.hh:440-480, os_). *)
Inductive json :=
| JNull | JBool (b : bool) | JInt (x : Z) | JUns (x : Z) | JDouble (bits : Z)
| JStr (s : list Z) | JArr (l : list json) | JObj (l : list (list Z * json)).

(* Two's complement reading of a k-bit unsigned value, e.g. the casts to int8_t, int32_t. *)
Definition to_signed (k : Z) (x : Z) : Z :=
  if x mod 2 ^ k <? 2 ^ (k - 1) then x mod 2 ^ k else x mod 2 ^ k - 2 ^ k.

(* write_in_net_order<T>, compiler.hh:950-957, for a T of n bytes. *)
Definition net (n : nat) (x : Z) : list Z := be_bytes n (x mod 2 ^ (8 * Z.of_nat n)).

(* sized_writer<4>::write_unsigned, msgpack.hh:69-83. *)
Definition write_unsigned4 (x : Z) : list Z :=
  if x <? 128 then [x]
  else if x <? 256 then [204; x]
  else if x <? 65536 then 205 :: net 2 x
  else 206 :: net 4 x.
(* sized_writer<4>::write_signed, msgpack.hh:84-98; the comparisons are on uint32_t. *)
Definition write_signed4 (x : Z) : list Z :=
  if (x + 32) mod 2 ^ 32 <? 160 then [x mod 256]
  else if (x + 128) mod 2 ^ 32 <? 256 then [208; x mod 256]
  else if (x + 32768) mod 2 ^ 32 <? 65536 then 209 :: net 2 x
  else 210 :: net 4 x.
(* sized_writer<8>::write_unsigned, msgpack.hh:101-108. *)
Definition write_unsigned8 (x : Z) : list Z :=
  if x <? 4294967296 then write_unsigned4 x else 207 :: net 8 x.
(* sized_writer<8>::write_signed, msgpack.hh:109-116; the comparison is on uint64_t. *)
Definition write_signed8 (x : Z) : list Z :=
  if (x + 2147483648) mod 2 ^ 64 <? 4294967296 then write_signed4 (to_signed 32 x) else 211 :: net 8 x.
(* write_wide_int64, msgpack.hh:138-145. *)
Definition write_wide_u (x : Z) : list Z := 207 :: net 8 x.
Definition write_wide_i (x : Z) : list Z := 211 :: net 8 x.
(* write_null, write_bool, write_float, write_double, msgpack.hh:58-65, 146-153; a float or double is
   given by its bits. *)
Definition write_null : list Z := [192].
Definition write_bool (b : bool) : list Z := [if b then 195 else 194].
Definition write_float (bits : Z) : list Z := 202 :: net 4 bits.
Definition write_double (bits : Z) : list Z := 203 :: net 8 bits.
(* write_string, msgpack.hh:154-170. *)
Definition write_string (s : list Z) : list Z :=
  (if len s <? 32 then [160 + len s]
   else if len s <? 256 then [217; len s]
   else if len s <? 65536 then 218 :: net 2 (len s)
   else 219 :: net 4 (len s)) ++ s.
(* write_array_header, write_map_header, msgpack.hh:178-201. *)
Definition write_array_header (n : Z) : list Z :=
  if n <? 16 then [144 + n] else if n <? 65536 then 220 :: net 2 n else 221 :: net 4 n.
Definition write_map_header (n : Z) : list Z :=
  if n <? 16 then [128 + n] else if n <? 65536 then 222 :: net 2 n else 223 :: net 4 n.

(* unparser<T>::operator<<(const Json&), msgpack.hh:545-579, and unparse, msgpack.hh:581-585. *)
Fixpoint unparse (j : json) : list Z :=
  match j with
  | JNull => write_null
  | JBool b => write_bool b
  | JUns x => write_unsigned8 x
  | JInt x => write_signed8 x
  | JDouble d => write_double d
  | JStr s => write_string s
  | JArr l => write_array_header (len l) ++ flat_map unparse l
  | JObj l => write_map_header (len l)
              ++ flat_map (fun kv => write_string (fst kv) ++ unparse (snd kv)) l
  end.

(* ------------------------------------------------------------------ byte classes *)
(* in_range, in_wrapped_range and the classes, msgpack.hh:35-56. *)
Definition in_range (x low n : Z) : bool := (x - low) mod 2 ^ 32 <? n.
Definition is_fixint (x : Z) : bool := (to_signed 8 x - (-32)) mod 2 ^ 32 <? 160.
Definition is_null_or_bool (x : Z) : bool := in_range x 192 4.
Definition is_bool (x : Z) : bool := in_range x 194 2.
Definition is_fixstr (x : Z) : bool := in_range x 160 32.
Definition is_fixarray (x : Z) : bool := in_range x 144 16.
Definition is_fixmap (x : Z) : bool := in_range x 128 16.

(* nbytes, msgpack.cc:5-16: header sizes of the formats 0xC0-0xDF, 0 for unsupported ones. *)
Definition nbytes : list Z :=
  [0;0;0;0; 2;3;5; 0;0;0; 5; 9; 2;3;5;9; 2;3;5;9; 0;0;0;0;0; 2;3;5; 3;5; 3;5].

(* Conversion of a float, given by its 32 bits, to the double of the same value, as in *jx = float at
   msgpack.cc:105-106 (exact for every finite value; a NaN keeps its payload and becomes quiet). *)
Definition float_to_double (b : Z) : Z :=
  let s := b / 2 ^ 31 in let e := (b / 2 ^ 23) mod 256 in let m := b mod 2 ^ 23 in
  s * 2 ^ 63
  + (if e =? 255 then 2047 * 2 ^ 52 + (if m =? 0 then 0 else Z.lor m (2 ^ 22) * 2 ^ 29)
     else if e =? 0 then
       if m =? 0 then 0
       else let k := Z.log2 m in (874 + k) * 2 ^ 52 + (m - 2 ^ k) * 2 ^ (52 - k)
     else (e + 896) * 2 ^ 52 + m * 2 ^ 29).

(* ------------------------------------------------------------------ streaming parser *)
(* What the bytes at the current position are: the decision tree of streaming_parser::consume,
   msgpack.cc:60-160, up to the labels map, array, raw, error and the return for an incomplete header.
   Lengths are converted to int n (msgpack.cc:24), so a 32-bit length of 2^31 or more is negative. *)
Inductive token := TVal (v : json) | TMap (n : Z) | TArr (n : Z) | TRaw (n : Z) | TShort | TErr.

Definition header_token (b : Z) (body : list Z) : token :=
  if b =? 202 then TVal (JDouble (float_to_double (be_val body)))
  else if b =? 203 then TVal (JDouble (be_val body))
  else if b =? 204 then TVal (JInt (be_val body))
  else if b =? 205 then TVal (JInt (be_val body))
  else if b =? 206 then TVal (JUns (be_val body))
  else if b =? 207 then TVal (JUns (be_val body))
  else if b =? 208 then TVal (JInt (to_signed 8 (be_val body)))
  else if b =? 209 then TVal (JInt (to_signed 16 (be_val body)))
  else if b =? 210 then TVal (JInt (to_signed 32 (be_val body)))
  else if b =? 211 then TVal (JInt (to_signed 64 (be_val body)))
  else if (b =? 196) || (b =? 217) then TRaw (be_val body)
  else if (b =? 197) || (b =? 218) then TRaw (be_val body)
  else if (b =? 198) || (b =? 219) then TRaw (to_signed 32 (be_val body))
  else if b =? 220 then TArr (be_val body)
  else if b =? 221 then TArr (to_signed 32 (be_val body))
  else if b =? 222 then TMap (be_val body)
  else if b =? 223 then TMap (to_signed 32 (be_val body))
  else TErr.

Definition next_token (s : list Z) : token * list Z :=
  match s with
  | [] => (TShort, s)
  | b :: s' =>
    if is_fixint b then (TVal (JInt (to_signed 8 b)), s')
    else if b =? 192 then (TVal JNull, s')
    else if is_bool b then (TVal (JBool (negb (b - 194 =? 0))), s')
    else if is_fixmap b then (TMap (b - 128), s')
    else if is_fixarray b then (TArr (b - 144), s')
    else if is_fixstr b then (TRaw (b - 160), s')
    else let nb := nth (Z.to_nat (b - 192)) nbytes 0 in
         if nb =? 0 then (TErr, s)
         else if len s <? nb then (TShort, s)
         else (header_token b (firstn (Z.to_nat (nb - 1)) s'), skipn (Z.to_nat (nb - 1)) s')
  end.

(* A Json* held by the parser (selem::jp, msgpack.hh:355-358): &jokey_, element i of the array below, the
   value of a key in the object below, or the null pointer of a pending string. "Below" is the container
   that the next lower stack element points to, or json_. The code's pointers stay valid because a
   container is not changed while a pointer into it is on the stack. *)
Inductive jptr := PKey | PIdx (i : nat) | PMem (k : list Z) | PNull.
Record selem := MkSelem { se_jp : jptr; se_size : Z }.

(* state_ together with str_ where str_ is live, msgpack.hh:351-354, 360-362. *)
Inductive pstate := StFinal | StError | StNormal | StPartial (str : list Z) | StString (str : list Z).

(* class streaming_parser, msgpack.hh:328-365; the head of the list is stack_.back(). *)
Record sparser := MkSp { sp_state : pstate; sp_stack : list selem; sp_json : json; sp_jokey : json }.

(* streaming_parser::streaming_parser and reset, msgpack.hh:618-625; reset keeps json_ and jokey_. *)
Definition sp_init : sparser := MkSp StNormal [] JNull JNull.
Definition sp_reset (p : sparser) : sparser := MkSp StNormal [] (sp_json p) (sp_jokey p).
(* done, success, error, msgpack.hh:631-641. *)
Definition sp_done (p : sparser) : bool := match sp_state p with StFinal | StError => true | _ => false end.
Definition sp_success (p : sparser) : bool := match sp_state p with StFinal => true | _ => false end.
Definition sp_error (p : sparser) : bool := match sp_state p with StError => true | _ => false end.

Definition set_state (p : sparser) (s : pstate) := MkSp s (sp_stack p) (sp_json p) (sp_jokey p).
Definition set_stack (p : sparser) (s : list selem) := MkSp (sp_state p) s (sp_json p) (sp_jokey p).
Definition set_json (p : sparser) (j : json) := MkSp (sp_state p) (sp_stack p) j (sp_jokey p).
Definition set_jokey (p : sparser) (j : json) := MkSp (sp_state p) (sp_stack p) (sp_json p) j.

(* ObjectJson::find, json.hh:459-470, and find_insert with a null value, json.hh:471-476 and json.cc:137-160: the
   hash table is modelled by an association list with unique keys in insertion order. *)
Fixpoint bytes_eqb (a b : list Z) : bool :=
  match a, b with
  | [], [] => true
  | x :: a', y :: b' => (x =? y) && bytes_eqb a' b'
  | _, _ => false
  end.
Fixpoint obj_get (k : list Z) (l : list (list Z * json)) : option json :=
  match l with [] => None | (k', v) :: l' => if bytes_eqb k k' then Some v else obj_get k l' end.
Fixpoint obj_set (k : list Z) (v : json) (l : list (list Z * json)) : option (list (list Z * json)) :=
  match l with
  | [] => None
  | (k', v') :: l' =>
    if bytes_eqb k k' then Some ((k', v) :: l')
    else match obj_set k v l' with Some l'' => Some ((k', v') :: l'') | None => None end
  end.
Definition obj_get_insert (k : list Z) (l : list (list Z * json)) : list (list Z * json) :=
  match obj_get k l with Some _ => l | None => l ++ [(k, JNull)] end.
Fixpoint arr_set (i : nat) (v : json) (l : list json) : option (list json) :=
  match l, i with
  | [], _ => None
  | _ :: l', O => Some (v :: l')
  | x :: l', S i' => match arr_set i' v l' with Some l'' => Some (x :: l'') | None => None end
  end.

(* Dereferencing and assigning through a chain of pointers; None is an access through a pointer that
   points nowhere. *)
Fixpoint jget (p : list jptr) (j : json) : option json :=
  match p with
  | [] => Some j
  | PIdx i :: p' => match j with
                    | JArr l => match nth_error l i with Some x => jget p' x | None => None end
                    | _ => None end
  | PMem k :: p' => match j with
                    | JObj l => match obj_get k l with Some x => jget p' x | None => None end
                    | _ => None end
  | _ :: _ => None
  end.
Fixpoint jput (p : list jptr) (v : json) (j : json) : option json :=
  match p with
  | [] => Some v
  | PIdx i :: p' => match j with
                    | JArr l => match nth_error l i with
                                | Some x => match jput p' v x with
                                            | Some x' => match arr_set i x' l with
                                                         | Some l' => Some (JArr l') | None => None end
                                            | None => None end
                                | None => None end
                    | _ => None end
  | PMem k :: p' => match j with
                    | JObj l => match obj_get k l with
                                | Some x => match jput p' v x with
                                            | Some x' => match obj_set k x' l with
                                                         | Some l' => Some (JObj l') | None => None end
                                            | None => None end
                                | None => None end
                    | _ => None end
  | _ :: _ => None
  end.

(* The Json that jx points to: jx = stack_.empty() ? &json_ : stack_.back().jp, msgpack.cc:44, 54. *)
Inductive jloc := LKey | LAt (p : list jptr).
Definition path_of (st : list selem) : list jptr := rev (map se_jp st).
Definition cur_loc (st : list selem) : jloc :=
  match st with
  | e :: _ => match se_jp e with PKey => LKey | _ => LAt (path_of st) end
  | [] => LAt []
  end.
Definition load (p : sparser) (l : jloc) : option json :=
  match l with LKey => Some (sp_jokey p) | LAt q => jget q (sp_json p) end.
Definition store (p : sparser) (l : jloc) (v : json) : option sparser :=
  match l with
  | LKey => Some (set_jokey p v)
  | LAt q => match jput q v (sp_json p) with Some j => Some (set_json p j) | None => None end
  end.

(* Json::resize on an array, json.cc:374-382; make_array_reserve(n) gives an empty array, json.hh:1629-1634. *)
Definition arr_resize (n : nat) (l : list json) : list json := firstn n l ++ repeat JNull (n - length l).

(* String(int64_t), String(uint64_t) as used by Json::to_s, json.cc:490-512: decimal digits. *)
Fixpoint uint_chars (d : Decimal.uint) : list Z :=
  match d with
  | Decimal.Nil => [] | Decimal.D0 d => 48 :: uint_chars d | Decimal.D1 d => 49 :: uint_chars d
  | Decimal.D2 d => 50 :: uint_chars d | Decimal.D3 d => 51 :: uint_chars d | Decimal.D4 d => 52 :: uint_chars d
  | Decimal.D5 d => 53 :: uint_chars d | Decimal.D6 d => 54 :: uint_chars d | Decimal.D7 d => 55 :: uint_chars d
  | Decimal.D8 d => 56 :: uint_chars d | Decimal.D9 d => 57 :: uint_chars d
  end.
Definition int_chars (z : Z) : list Z :=
  match Z.to_int z with Decimal.Pos d => uint_chars d | Decimal.Neg d => 45 :: uint_chars d end.

(* Result of running a piece of the decoder: continue at a position, return at a position, or undefined
   behaviour (negative length handed to String or resize, pointer that points nowhere, int underflow). *)
Inductive pres := RCont (p : sparser) (s : list Z) | RRet (p : sparser) (s : list Z) | RUndef.

(* while (!stack_.empty() && stack_.back().size == 0) stack_.pop_back(), msgpack.cc:178-179. *)
Fixpoint pop_done (st : list selem) : list selem :=
  match st with
  | e :: st' => if se_size e =? 0 then pop_done st' else st
  | [] => []
  end.

(* The else branch of the code below label next, msgpack.cc:177-191. *)
Definition finish_value (p : sparser) (s : list Z) : pres :=
  match pop_done (sp_stack p) with
  | [] => RRet (MkSp StFinal [] (sp_json p) (sp_jokey p)) s
  | top :: below =>
    if se_size top =? - 2 ^ 31 then RUndef
    else match jget (path_of below) (sp_json p) with
         | Some (JArr _) =>
           match se_jp top with
           | PIdx i => RCont (set_stack p (MkSelem (PIdx (S i)) (se_size top - 1) :: below)) s
           | _ => RUndef
           end
         | Some _ => RCont (set_stack p (MkSelem PKey (se_size top - 1) :: below)) s
         | None => RUndef
         end
  end.

(* The code from label next to the end of the loop body, msgpack.cc:162-191; l is jx. *)
Definition after_value (p : sparser) (l : jloc) (n : Z) (s : list Z) : pres :=
  match l with
  | LKey =>
    let insert k :=
      match sp_stack p with
      | top :: below =>
        match jget (path_of below) (sp_json p) with
        | Some (JObj m) =>
          match jput (path_of below) (JObj (obj_get_insert k m)) (sp_json p) with
          | Some j => RCont (set_stack (set_json p j) (MkSelem (PMem k) (se_size top) :: below)) s
          | None => RUndef
          end
        | _ => RUndef
        end
      | [] => RUndef
      end in
    match sp_jokey p with
    | JStr k => insert k
    | JInt x => insert (int_chars x)
    | JUns x => insert (int_chars x)
    | _ => RRet (set_state p StError) s
    end
  | LAt q =>
    match jget q (sp_json p) with
    | Some (JArr a) =>
      if n =? 0 then finish_value p s
      else RCont (set_stack p (MkSelem (PIdx 0) (n - 1) :: sp_stack p)) s
    | Some (JObj _) =>
      if n =? 0 then finish_value p s
      else if n =? - 2 ^ 31 then RUndef
      else RCont (set_stack p (MkSelem PKey (n - 1) :: sp_stack p)) s
    | Some _ => finish_value p s
    | None => RUndef
    end
  end.

(* One iteration of the loop of streaming_parser::consume, msgpack.cc:53-191, at a non-empty input.
   The two ways of building the string at msgpack.cc:88-93 give the same string. *)
Definition step (p : sparser) (s : list Z) : pres :=
  let l := cur_loc (sp_stack p) in
  match next_token s with
  | (TShort, s') => RRet (set_state p (StPartial s')) []
  | (TErr, s') => RRet (set_state p StError) s'
  | (TVal v, s') =>
    match store p l v with Some p' => after_value p' l 0 s' | None => RUndef end
  | (TMap n, s') =>
    match store p l (JObj []) with Some p' => after_value p' l n s' | None => RUndef end
  | (TArr n, s') =>
    if n <? 0 then RUndef else
    match load p l with
    | Some old =>
      let a := match old with JArr a => a | _ => [] end in
      match store p l (JArr (arr_resize (Z.to_nat n) a)) with
      | Some p' => after_value p' l n s'
      | None => RUndef
      end
    | None => RUndef
    end
  | (TRaw n, s') =>
    if n <? 0 then RUndef
    else if len s' <? n then
      RRet (MkSp (StString s') (MkSelem PNull n :: sp_stack p) (sp_json p) (sp_jokey p)) []
    else match store p l (JStr (firstn (Z.to_nat n) s')) with
         | Some p' => after_value p' l n (skipn (Z.to_nat n) s')
         | None => RUndef
         end
  end.

(* The loop, msgpack.cc:53-195. Every iteration consumes a byte, so the length of the input is enough
   fuel; running out is RUndef. *)
Fixpoint run (fuel : nat) (p : sparser) (s : list Z) : pres :=
  match s with
  | [] => RRet (set_state p StNormal) []
  | _ => match fuel with
         | O => RUndef
         | S f => match step p s with
                  | RCont p' s' => run f p' s'
                  | r => r
                  end
         end
  end.
Definition run_all (p : sparser) (s : list Z) : pres := run (length s) p s.

(* streaming_parser::consume, msgpack.cc:19-200. The recursive call at msgpack.cc:48 has state_ st_normal,
   so it is the loop applied to str_. At goto next (msgpack.cc:46) the code leaves state_ at st_string; it
   is not read before it is assigned again, and the model sets it to st_normal there. *)
Definition consume (p : sparser) (s : list Z) : pres :=
  match sp_state p with
  | StFinal | StError => RRet p s
  | StNormal => run_all p s
  | StPartial str =>
    let nneed := nth (Z.to_nat (nth 0 str 0 - 192)) nbytes 0 in
    let k := nneed - len str in
    if len s <? k then RRet (set_state p (StPartial (str ++ s))) []
    else
      let s' := skipn (Z.to_nat k) s in
      match run_all (set_state p StNormal) (str ++ firstn (Z.to_nat k) s) with
      | RRet p' _ => match sp_state p' with StNormal => run_all p' s' | _ => RRet p' s' end
      | r => r
      end
  | StString str =>
    match sp_stack p with
    | [] => RUndef
    | e :: below =>
      let k := se_size e - len str in
      if len s <? k then RRet (set_state p (StString (str ++ s))) []
      else
        let l := cur_loc below in
        let s' := skipn (Z.to_nat k) s in
        match store (set_state (set_stack p below) StNormal) l (JStr (str ++ firstn (Z.to_nat k) s)) with
        | None => RUndef
        | Some p' =>
          match after_value p' l 0 s' with
          | RCont p'' s'' => run_all p'' s''
          | r => r
          end
        end
    end
  end.

(* conn::receive, mtd.cc:484-494 and mtclient.hh:166-178: call consume until the parser is done or the
   bytes at hand are used up. Each call uses a byte, so the length is enough fuel. *)
Fixpoint feed (fuel : nat) (p : sparser) (s : list Z) : pres :=
  if sp_done p then RRet p s
  else match s with
       | [] => RRet p []
       | _ => match fuel with
              | O => RUndef
              | S f => match consume p s with
                       | RRet p' s' => feed f p' s'
                       | r => r
                       end
              end
       end.
Definition feed_all (p : sparser) (s : list Z) : pres := feed (length s) p s.
(* The same with the input arriving in pieces (conn::check and hard_check, mtd.cc:496-500, refill the buffer only when
   everything in it has been consumed). The result position is what remains of all the input. *)
Fixpoint feed_pieces (p : sparser) (pieces : list (list Z)) : pres :=
  match pieces with
  | [] => RRet p []
  | s :: pieces' =>
    match feed_all p s with
    | RRet p' rest => if sp_done p' then RRet p' (rest ++ concat pieces') else feed_pieces p' pieces'
    | r => r
    end
  end.

(* parser::operator>>(Json&), msgpack.hh:665-673: repeatedly offers a window of 4096 bytes to a fresh
   parser. The bytes behind the position are all of the memory from there on, so the window is 4096 bytes
   unless the input ends. *)
Definition window : nat := 64 * 64.
Fixpoint read_windows (fuel : nat) (p : sparser) (s : list Z) : pres :=
  if sp_done p then RRet p s
  else match s with
       | [] => RRet p []
       | _ => match fuel with
              | O => RUndef
              | S f => match consume p (firstn window s) with
                       | RRet p' s' => read_windows f p' (s' ++ skipn window s)
                       | r => r
                       end
              end
       end.
Definition parser_read_json (s : list Z) : pres := read_windows (length s) sp_init s.

(* parse(const char*, const char* ), parse(const String&), msgpack.hh:675-691: the value, or null. None is
   undefined behaviour. *)
Definition msgpack_parse (s : list Z) : option json :=
  match consume sp_init s with
  | RRet p _ => Some (if sp_success p then sp_json p else JNull)
  | _ => None
  end.

(* udpgo, mtd.cc:1198-1216: the datagram overwrites the front of a 4096-byte buffer and the whole buffer
   is given to the parser, not only the bytes received. Result: the request executed, if any. *)
Definition udp_receive (buf dgram : list Z) : list Z := dgram ++ skipn (length dgram) buf.
Definition udp_request (p : sparser) (buf : list Z) : option json :=
  match consume (sp_reset p) buf with
  | RRet p' _ => if sp_success p' then match sp_json p' with JArr l => Some (JArr l) | _ => None end else None
  | _ => None
  end.

(* ------------------------------------------------------------------ class parser *)
(* The readers of class parser, msgpack.hh:376-540 and msgpack.cc:202-235. None: the assertion fails or
   the bytes read lie outside the input. *)

(* take n bytes starting k bytes behind the position. *)
Definition bytes_at (s : list Z) (k n : nat) : option (list Z) :=
  if (length s <? k + n)%nat then None else Some (firstn n (skipn k s)).

(* Integer types: bits and signedness. *)
Record ctype := MkCtype { ct_bits : Z; ct_signed : bool }.
Definition c_int := MkCtype 32 true.
Definition c_unsigned := MkCtype 32 false.
Definition c_long := MkCtype 64 true.
Definition c_ulong := MkCtype 64 false.
(* Conversion to an integer type on assignment (modulo 2^bits, as on the supported compilers). *)
Definition c_conv (t : ctype) (x : Z) : Z :=
  if ct_signed t then to_signed (ct_bits t) x else x mod 2 ^ ct_bits t.

(* read_int and hard_read_int, msgpack.hh:405-415, 507-541. *)
Definition read_int (t : ctype) (s : list Z) : option (Z * list Z) :=
  match s with
  | [] => None
  | b :: s' =>
    if is_fixint b then Some (c_conv t (to_signed 8 b), s')
    else
      let rd n f := match bytes_at s 1 n with
                    | Some d => Some (c_conv t (f (be_val d)), skipn (1 + n) s)
                    | None => None end in
      if b =? 204 then rd 1%nat (fun x => x)
      else if b =? 205 then rd 2%nat (fun x => x)
      else if b =? 206 then rd 4%nat (fun x => x)
      else if b =? 207 then rd 8%nat (fun x => x)
      else if b =? 208 then rd 1%nat (to_signed 8)
      else if b =? 209 then rd 2%nat (to_signed 16)
      else if b =? 210 then rd 4%nat (to_signed 32)
      else if b =? 211 then rd 8%nat (to_signed 64)
      else None
  end.

(* write_int for the integer types, msgpack.hh:118-137. *)
Definition write_int (t : ctype) (x : Z) : list Z :=
  if ct_bits t =? 32 then (if ct_signed t then write_signed4 x else write_unsigned4 x)
  else (if ct_signed t then write_signed8 x else write_unsigned8 x).

(* operator>>(bool&), operator>>(double&), msgpack.hh:434-445. *)
Definition read_bool (s : list Z) : option (bool * list Z) :=
  match s with b :: s' => if is_bool b then Some (negb (b - 194 =? 0), s') else None | [] => None end.
Definition read_double (s : list Z) : option (Z * list Z) :=
  match s with
  | b :: _ => if b =? 203 then match bytes_at s 1 8 with
                               | Some d => Some (be_val d, skipn 9 s) | None => None end
              else None
  | [] => None
  end.

(* operator>>(Str&), operator>>(String&), msgpack.cc:202-235. *)
Definition read_str (s : list Z) : option (list Z * list Z) :=
  match s with
  | [] => None
  | b :: s' =>
    let body h n := match bytes_at s h n with Some d => Some (d, skipn (h + n) s) | None => None end in
    let rd k := match bytes_at s 1 k with Some d => body (1 + k)%nat (Z.to_nat (be_val d)) | None => None end in
    if is_fixstr b then body 1%nat (Z.to_nat (b - 160))
    else if (b =? 196) || (b =? 217) then rd 1%nat
    else if (b =? 197) || (b =? 218) then rd 2%nat
    else if (b =? 198) || (b =? 219) then rd 4%nat
    else None
  end.

(* read_array_header and skip_array_size, msgpack.hh:448-461, 490-501. *)
Definition read_array_header (s : list Z) : option (Z * list Z) :=
  match s with
  | [] => None
  | b :: s' =>
    if is_fixarray b then Some (b - 144, s')
    else if b =? 220 then match bytes_at s 1 2 with Some d => Some (be_val d, skipn 3 s) | None => None end
    else if b =? 221 then match bytes_at s 1 4 with Some d => Some (be_val d, skipn 5 s) | None => None end
    else None
  end.
Definition skip_array_size (s : list Z) : option (list Z) :=
  match read_array_header s with Some (_, s') => Some s' | None => None end.

(* Advance the position by n bytes; None if that is beyond the input. *)
Definition advance (s : list Z) (n : Z) : option (list Z) :=
  if len s <? n then None else Some (skipn (Z.to_nat n) s).

(* One round of skip_primitives, msgpack.hh:465-485. A byte of no listed class leaves the position. *)
Definition skip1 (s : list Z) : option (list Z) :=
  match s with
  | [] => None
  | b :: _ =>
    let rd k := match bytes_at s 1 k with Some d => Some (be_val d) | None => None end in
    if is_fixint b || is_null_or_bool b then advance s 1
    else if is_fixstr b then advance s (1 + (b - 160))
    else if (b =? 204) || (b =? 208) then advance s 2
    else if (b =? 205) || (b =? 209) then advance s 3
    else if (b =? 206) || (b =? 210) || (b =? 202) then advance s 5
    else if (b =? 217) || (b =? 196) then match rd 1%nat with Some n => advance s (2 + n) | None => None end
    else if (b =? 218) || (b =? 197) then match rd 2%nat with Some n => advance s (3 + n) | None => None end
    else if (b =? 219) || (b =? 198) then match rd 4%nat with Some n => advance s (5 + n) | None => None end
    else Some s
  end.
Fixpoint skip_primitives (n : nat) (s : list Z) : option (list Z) :=
  match n with
  | O => Some s
  | S n' => match skip1 s with Some s' => skip_primitives n' s' | None => None end
  end.

(* onego, Cmd_Put with a logger, mtd.cc:976-980: the part of the request that is written to the log. *)
Definition put_changeset (request : list Z) : option (list Z) :=
  match skip_array_size request with Some s => skip_primitives 3 s | None => None end.
