(* Model of the JSON text writer and the streaming JSON text parser (json.cc:566-1231, json.hh:2698-2930).
   Definitions only. Text is a list of bytes; a position in a chunk is the list of bytes from it to the
   chunk's end. Values are M_Msgpack.json. Doubles: strtod and sprintf("%.12g") are parameters. *)
From Verif Require Import Lib M_Msgpack.

(* ------------------------------------------------------------------ writing *)
(* upper_hex_nibble, string_base.hh:72-74. *)
Definition upper_hex (n : Z) : Z := n + (if 9 <? n then 65 - 10 else 48).
(* The escapes of encode_json_partial, string_base.hh:533-568; c is a control character, one of the three
   escaped characters, 0x2028 or 0x2029. *)
Definition escape (c : Z) : list Z :=
  92 ::
  (if c =? 8 then [98] else if c =? 12 then [102] else if c =? 10 then [110] else if c =? 13 then [114]
   else if c =? 9 then [116] else if (c =? 92) || (c =? 34) || (c =? 47) then [c]
   else [117; upper_hex (c / 2 ^ 12); upper_hex (c / 2 ^ 8 mod 16); upper_hex (c / 2 ^ 4 mod 16); upper_hex (c mod 16)]).
(* encode_json and encode_json_partial, string_base.hh:517-578. The copying of unescaped stretches in one
   go is modelled byte by byte; k bytes are still to be skipped (s += 2, line 564). *)
Fixpoint encode_json (k : nat) (s : list Z) : list Z :=
  match s with
  | [] => []
  | c :: r =>
    match k with
    | S k' => encode_json k' r
    | O =>
      match (if c =? 226 then r else []) with
      | 128 :: d :: _ =>
        if Z.lor d 1 =? 169 then escape (8232 + d mod 2) ++ encode_json 2 r else c :: encode_json 0 r
      | _ =>
        if (32 <=? c) && negb (c =? 92) && negb (c =? 34) && negb (c =? 47) then c :: encode_json 0 r
        else escape c ++ encode_json 0 r
      end
    end
  end.

(* unparse_manipulator, json.hh:2698-2744. *)
Record manip := MkManip { indent_depth : Z; tab_width : Z; newline_terminator : bool; space_separator : bool }.
(* default_manipulator, json.cc:568 and json.hh:2700-2703. *)
Definition default_manip : manip := MkManip 0 0 false false.

(* Json::empty and is_primitive, json.hh:1740-1750. *)
Definition j_empty (j : json) : bool :=
  match j with JNull => true | JArr [] => true | JObj [] => true | _ => false end.
Definition j_primitive (j : json) : bool :=
  match j with JNull | JArr _ | JObj _ => false | _ => true end.
(* unparse_is_complex, json.cc:570-592. For a string Json without a memo, empty() reads four bytes of the
   characters as a size (json.hh:1747-1749); what it answers does not matter, since is_primitive is tested
   too; the read itself is not modelled. Object items that were erased are not in the list. *)
Fixpoint arr_complex (i : Z) (l : list json) : bool :=
  match l with
  | [] => false
  | j :: l' =>
    (negb (j_empty j)
     && (negb (j_primitive j) || match j with JStr s => (4 <=? i) && (40 <? len s) | _ => false end))
    || arr_complex (i + 1) l'
  end.
Definition is_complex (j : json) : bool :=
  match j with
  | JObj l => (5 <? len l) || existsb (fun kv => negb (j_empty (snd kv)) && negb (j_primitive (snd kv))) l
  | JArr l => (1024 <? len l) || arr_complex 0 l
  | _ => false
  end.
(* unparse_indent, json.cc:594-600. Overflow of the int and negative tab widths are not modelled. *)
Definition indent (m : manip) (depth : Z) : list Z :=
  let d := depth * (if tab_width m =? 0 then 8 else tab_width m) in
  10 :: repeat 9 (Z.to_nat (d / 8)) ++ repeat 32 (Z.to_nat (d mod 8)).
(* upx_normal, upx_expanded, upx_separated and their choice, json.cc:602-618. *)
Definition upx (m : manip) (expanded : bool) : list Z * list Z :=
  if expanded then ([58; 32], [44]) else if space_separator m then ([58; 32], [44; 32]) else ([58], [44]).

Section Unparse.
Variable dshow : Z -> list Z. (* sa << double, straccum.cc:315-322, sprintf("%.12g") *)
(* hard_unparse, json.cc:608-678, except the final newline. A container without a representation
   (u_.x.x null) and an empty one print the same. Integers: straccum.cc:265-312, sprintf("%ld"), "%lu". *)
Fixpoint jt_unparse (m : manip) (depth : Z) (j : json) : list Z :=
  match j with
  | JObj l =>
    let expanded := (depth <? indent_depth m) && is_complex j in
    let fix items (rest : bool) (l : list (list Z * json)) : list Z :=
      match l with
      | [] => []
      | (k, v) :: l' =>
        (if rest then snd (upx m expanded) else []) ++ (if expanded then indent m (depth + 1) else [])
        ++ 34 :: encode_json 0 k ++ 34 :: fst (upx m expanded) ++ jt_unparse m (depth + 1) v ++ items true l'
      end in
    123 :: items false l ++ (if expanded then indent m depth else []) ++ [125]
  | JArr l =>
    let expanded := (depth <? indent_depth m) && is_complex j in
    let fix items (rest : bool) (l : list json) : list Z :=
      match l with
      | [] => []
      | v :: l' =>
        (if rest then snd (upx m expanded) else []) ++ (if expanded then indent m (depth + 1) else [])
        ++ jt_unparse m (depth + 1) v ++ items true l'
      end in
    91 :: items false l ++ (if expanded then indent m depth else []) ++ [93]
  | JNull => [110; 117; 108; 108]
  | JStr s => 34 :: encode_json 0 s ++ [34]
  | JBool b => if b then [116; 114; 117; 101] else [102; 97; 108; 115; 101]
  | JInt x => int_chars x
  | JUns x => int_chars x
  | JDouble d => dshow d
  end.
(* Json::unparse(m), json.hh:2768-2772; the newline is json.cc:676-677. *)
Definition json_unparse (m : manip) (j : json) : list Z :=
  jt_unparse m 0 j ++ (if newline_terminator m then [10] else []).
End Unparse.

(* ------------------------------------------------------------------ parsing strings *)
(* in_range(x, low, high), json.cc:697-703: (unsigned) x - low < high - low. For the x it is used with
   (bytes, and ints from 0 to 65535) and 0 <= low <= high < 2^16 this is low <= x < high. *)
Definition within (x low high : Z) : bool := (low <=? x) && (x <? high).

(* append_utf8, straccum.hh:523-531, and append_utf8_hard, straccum.cc:203-224: None when it returns false.
   The bound 0x8000 in line 206 is as in the code. *)
Definition chr (x : Z) : Z := x mod 256.
Definition append_utf8 (ch : Z) : option (list Z) :=
  if ch <=? 0 then None
  else if ch <=? 127 then Some [ch]
  else if ch <? 32768 then Some [chr (Z.lor 192 (ch / 2 ^ 6)); chr (Z.lor 128 (ch mod 64))]
  else if ch <? 65536 then
    if ((55296 <=? ch) && (ch <? 57344)) || (65533 <? ch) then None
    else Some [chr (Z.lor 224 (ch / 2 ^ 12)); chr (Z.lor 128 (ch / 2 ^ 6 mod 64)); chr (Z.lor 128 (ch mod 64))]
  else if ch <? 1114112 then
    Some [chr (Z.lor 240 (ch / 2 ^ 18)); chr (Z.lor 128 (ch / 2 ^ 12 mod 64)); chr (Z.lor 128 (ch / 2 ^ 6 mod 64));
          chr (Z.lor 128 (ch mod 64))]
  else None.

(* One character of a string: it decodes to some bytes and takes n bytes; the closing quote; an error; the
   chunk ends inside the character; undefined behaviour (a byte behind the chunk is read). *)
Inductive tok := TOk (b : list Z) (n : nat) | TQuote | TErr | TInc | TUB.

(* The hexadecimal digit tests of consume_backslash, json.cc:1029-1036 for the first unit and 1055-1062 for
   the second, where line 1059 tests for upper case again, so that lower case digits are errors. *)
Definition hex_first (c : Z) : option Z :=
  if within c 48 58 then Some (c - 48) else if within c 65 71 then Some (c - 65 + 10)
  else if within c 97 103 then Some (c - 97 + 10) else None.
Definition hex_second (c : Z) : option Z :=
  if within c 48 58 then Some (c - 48) else if within c 65 71 then Some (c - 65 + 10)
  else if within c 65 71 then Some (c - 97 + 10) else None.
(* The loops json.cc:1026-1037 and 1052-1063: n digits are left. *)
Inductive hres := HOk (ch : Z) | HErr | HInc.
Fixpoint hex (digit : Z -> option Z) (n : nat) (ch : Z) (s : list Z) : hres :=
  match n with
  | O => HOk ch
  | S n' =>
    match s with
    | [] => HInc
    | c :: r => match digit c with Some d => hex digit n' (16 * ch + d) r | None => HErr end
    end
  end.
(* json.cc:1071-1073: the decoded character, after n bytes. *)
Definition append_ch (ch : Z) (n : nat) : tok :=
  match append_utf8 ch with Some b => TOk b n | None => TErr end.
(* consume_backslash, json.cc:1004-1079; s is what follows the backslash. *)
Definition backslash (s : list Z) : tok :=
  match s with
  | [] => TInc
  | c :: r =>
    if (c =? 34) || (c =? 92) || (c =? 47) then append_ch c 2
    else if c =? 98 then append_ch 8 2
    else if c =? 102 then append_ch 12 2
    else if c =? 110 then append_ch 10 2
    else if c =? 114 then append_ch 13 2
    else if c =? 116 then append_ch 9 2
    else if c =? 117 then
      match hex hex_first 4 0 r with
      | HErr => TErr
      | HInc => TInc
      | HOk ch =>
        if within ch 55296 57344 then
          if 56320 <=? ch then TErr
          else match skipn 4 r with
          | [] => TInc
          | a :: r1 =>
            if negb (a =? 92) then TErr
            else match r1 with
            | [] => TInc
            | u :: r2 =>
              if negb (u =? 117) then TErr
              else match hex hex_second 4 0 r2 with
              | HErr => TErr
              | HInc => TInc
              | HOk ch2 =>
                if negb (within ch2 56320 57344) then TErr
                else append_ch (65536 + (ch - 55296) * 1024 + (ch2 - 56320)) 12
              end
            end
          end
        else append_ch ch 6
      end
    else TErr
  end.

(* The multibyte characters of consume_string, json.cc:927-948; c is first[0], s what follows. For a chunk
   that ends after c, the tests of lines 934-937 read first[1], which is behind the chunk. *)
Definition bad_second (c d : Z) : bool :=
  ((c =? 224) && (d <? 160)) || ((c =? 237) && (160 <=? d)) || ((c =? 240) && (d <? 144)) || ((c =? 244) && (144 <=? d)).
Definition multibyte (c : Z) (s : list Z) : tok :=
  if negb (within c 194 245) then TErr
  else
    let want := (2 + (if (224 <=? c)%Z then 1 else 0) + (if (240 <=? c)%Z then 1 else 0))%nat in
    match s with
    | [] => if (c =? 224) || (c =? 237) || (c =? 240) || (c =? 244) then TUB else TInc
    | d :: r =>
      if negb (within d 128 192) || ((224 <=? c) && bad_second c d) then TErr
      else if (want =? 2)%nat then TOk [c; d] 2
      else match r with
      | [] => TInc
      | e :: r' =>
        if negb (within e 128 192) then TErr
        else if (want =? 3)%nat then TOk [c; d; e] 3
        else match r' with
        | [] => TInc
        | f :: _ => if negb (within f 128 192) then TErr else TOk [c; d; e; f] 4
        end
      end
    end.
(* One turn of the loop of consume_string, json.cc:917-950. *)
Definition string_char (c : Z) (s : list Z) : tok :=
  if within c 32 128 && negb (c =? 92) && negb (c =? 34) then TOk [c] 1
  else if c =? 92 then backslash s
  else if c =? 34 then TQuote
  else multibyte c s.

(* The result of consume_string: the string and what follows the closing quote; an error; the chunk ended,
   with str_ and the partial length; undefined behaviour. *)
Inductive sres := SDone (str : list Z) (rest : list Z) | SErr | SPart (str : list Z) (part : nat) | SUB.
(* The loop and the end of consume_string, json.cc:916-967. acc is sa followed by [prev, first); skip bytes
   of the current character are still to be passed. Taking a substring of the chunk instead of copying
   (line 957) is not modelled. *)
Fixpoint string_loop (skip : nat) (acc : list Z) (s : list Z) : sres :=
  match s with
  | [] => SPart acc 0
  | c :: r =>
    match skip with
    | S k => string_loop k acc r
    | O =>
      match string_char c r with
      | TOk b n => string_loop (n - 1) (acc ++ b) r
      | TQuote => SDone acc r
      | TErr => SErr
      | TInc => SPart (acc ++ s) (length s)
      | TUB => SUB
      end
    end
  end.
(* isxdigit in the C locale. *)
Definition isxdigit (c : Z) : bool :=
  ((48 <=? c) && (c <=? 57)) || ((65 <=? c) && (c <=? 70)) || ((97 <=? c) && (c <=? 102)).
(* consume_stringpart, json.cc:970-1002, followed by the rest of consume_string. part is the partial length;
   the last part bytes of acc are the beginning of a character. The recursive call on the completed bytes
   (line 993) is string_loop; that it ends with a closing quote cannot happen and is given as SUB. *)
Fixpoint string_part (acc : list Z) (part : nat) (s : list Z) : sres :=
  match part with
  | O => string_loop 0 acc s
  | _ =>
    match s with
    | [] => SPart acc part
    | c :: r =>
      let tag := nth (length acc - part) acc 0 in
      if (negb (tag =? 92) && negb (Z.land c 192 =? 128))
         || ((tag =? 92) && (part =? 6)%nat && negb (c =? 92))
         || ((tag =? 92) && (part =? 7)%nat && negb (c =? 117))
         || ((tag =? 92) && negb (part =? 1)%nat && negb (part =? 6)%nat && negb (part =? 7)%nat && negb (isxdigit c))
      then SErr
      else if (negb (tag =? 92) && (part =? 1 + (if (224 <=? tag)%Z then 1 else 0) + (if (240 <=? tag)%Z then 1 else 0))%nat)
              || ((tag =? 92) && ((part =? 1)%nat || (part =? 5)%nat || (part =? 11)%nat))
      then
        match string_loop 0 (firstn (length acc - part) acc) (skipn (length acc - part) acc ++ [c]) with
        | SPart acc' part' => string_part acc' part' r
        | SErr => SErr
        | _ => SUB
        end
      else string_part (acc ++ [c]) (S part) r
    end
  end.

(* ------------------------------------------------------------------ parsing the other primitives *)
(* consume_primitive, json.cc:1081-1108: t + n is the list left of the current word. *)
Definition t_words : list Z := [110; 117; 108; 108; 0; 102; 97; 108; 115; 101; 0; 116; 114; 117; 101; 0].
Inductive prres := PrErr | PrPart (n : nat) | PrDone (n : nat) (rest : list Z).
Fixpoint primitive (n : nat) (s : list Z) : prres :=
  if nth n t_words 0 =? 0 then PrDone n s
  else match s with
  | [] => PrPart n
  | c :: r => if nth n t_words 0 =? c then primitive (S n) r else PrErr
  end.
Definition primitive_value (n : nat) : json :=
  if (n =? 4)%nat then JNull else if (n =? 10)%nat then JBool false else JBool true.

(* consume_number, json.cc:1110-1183: the cases of the switch, each with what it takes, the position it ends
   in and what is left. *)
Definition digit (c : Z) : bool := within c 48 58.
Definition nres := (Z * (list Z * list Z))%type.
Definition take (c : Z) (x : nres) : nres := (fst x, (c :: fst (snd x), snd (snd x))).
Fixpoint digits (k : list Z -> nres) (s : list Z) : nres :=
  match s with
  | c :: r => if digit c then take c (digits k r) else k s
  | [] => k []
  end.
Definition case9 (s : list Z) : nres := digits (fun r => (9, ([], r))) s.
Definition case8 (s : list Z) : nres :=
  match s with c :: r => if digit c then take c (case9 r) else (8, ([], s)) | [] => (8, ([], [])) end.
Definition case6 (s : list Z) : nres :=
  match s with
  | [] => (6, ([], []))
  | c :: r => if (c =? 43) || (c =? 45) then take c (case8 r) else case8 s
  end.
Definition maybe_exponent (position : Z) (s : list Z) : nres :=
  match s with
  | c :: r => if (c =? 101) || (c =? 69) then take c (case6 r) else (position, ([], s))
  | [] => (position, ([], []))
  end.
Definition case5 (s : list Z) : nres := digits (maybe_exponent 5) s.
Definition case4 (s : list Z) : nres :=
  match s with c :: r => if digit c then take c (case5 r) else (4, ([], s)) | [] => (4, ([], [])) end.
Definition case3 (position : Z) (s : list Z) : nres :=
  match s with
  | c :: r => if c =? 46 then take c (case4 r) else maybe_exponent position s
  | [] => (position, ([], []))
  end.
Definition case1 (s : list Z) : nres := digits (case3 1) s.
Definition case2 (s : list Z) : nres :=
  match s with
  | c :: r => if c =? 48 then take c (case3 3 r) else if within c 49 58 then take c (case1 r) else case3 2 s
  | [] => case3 2 []
  end.
Definition case0 (s : list Z) : nres :=
  match s with c :: r => if c =? 45 then take c (case2 r) else case2 s | [] => case2 [] end.
Definition number_scan (position : Z) (s : list Z) : nres :=
  if position =? 0 then case0 s else if position =? 1 then case1 s else if position =? 2 then case2 s
  else if position =? 3 then case3 3 s else if position =? 4 then case4 s else if position =? 5 then case5 s
  else if position =? 6 then case6 s else if position =? 8 then case8 s else if position =? 9 then case9 s
  else (position, ([], s)).

(* The value of a number, json.cc:1194-1213. None: the negation of INT64_MIN in line 1205. *)
Definition digits_value (s : list Z) : Z := fold_left (fun x c => (x * 10 + c - 48) mod 2 ^ 64) s 0.
Section Parse.
Variable strtod : list Z -> Z. (* json.cc:1211, with the bits of the double *)
Definition number_value (position : Z) (text : list Z) : option json :=
  match text with
  | [c] => Some (JInt (c - 48))
  | c :: r =>
    if position <? 4 then
      if c =? 45 then
        let x := to_signed 64 (digits_value r) in
        if x =? - 2 ^ 63 then None else Some (JInt (- x))
      else Some (JUns (digits_value text))
    else Some (JDouble (strtod text))
  | [] => Some (JDouble (strtod text))
  end.

(* ------------------------------------------------------------------ the streaming parser *)
(* state_, json.hh:2810-2827: final, error, or one of the states with the partial bits: inside a string,
   primitive or number, with the partial length. *)
Inductive jbase := BInitial | BArrInitial | BArrValue | BObjValue | BArrDelim | BObjDelim | BObjInitial | BObjKey | BObjColon.
Inductive jpart := PNone | PString (n : nat) | PPrimitive (n : nat) | PNumber (n : Z).
Inductive jstate := JFinal | JError | JRun (b : jbase) (p : jpart).
Definition max_depth : Z := 2048.

(* The pointer stack stack_ (json.hh:2830) and json_: the focus is what current() points to, an entry of
   the stack leads from it to what the entry below points to, and the last one to json_. An entry is a
   list of containers with a hole, innermost first; a hole in an array is its last item. *)
Inductive frame := FArr (l : list json) | FObj (l1 : list (list Z * json)) (k : list Z) (l2 : list (list Z * json)).
Definition plug1 (f : frame) (x : json) : json :=
  match f with FArr l => JArr (l ++ [x]) | FObj l1 k l2 => JObj (l1 ++ (k, x) :: l2) end.
Definition plug (fs : list frame) (x : json) : json := fold_left (fun x f => plug1 f x) fs x.
(* streaming_parser, json.hh:2810-2833: state_, stack_, current(), str_. *)
Record parser := MkP { ps : jstate; pstk : list (list frame); pfoc : json; pstr : list Z }.
(* json_, by result(), json.hh:2883-2885. *)
Definition result (p : parser) : json := fold_left (fun x fs => plug fs x) (pstk p) (pfoc p).
(* streaming_parser(), json.hh:2843-2845; reset() keeps json_, json.hh:2847-2850. *)
Definition p_init : parser := MkP (JRun BInitial PNone) [] JNull [].
Definition p_reset (p : parser) : parser := MkP (JRun BInitial PNone) [] (result p) (pstr p).
Definition with_state (p : parser) (s : jstate) : parser := MkP s (pstk p) (pfoc p) (pstr p).
Definition is_a (j : json) : bool := match j with JArr _ => true | _ => false end.
Definition is_o (j : json) : bool := match j with JObj _ => true | _ => false end.

(* What a step of consume gives: the loop goes on, consume returns, undefined behaviour. *)
Inductive lres := LGo (p : parser) (s : list Z) | LRet (p : parser) (s : list Z) | LUB.
(* error_at, json.cc:705-708. The reported position is not modelled (the rest of the chunk is given as it
   was before the character or word). *)
Definition p_error (p : parser) (s : list Z) : lres := LRet (with_state p JError) s.

(* The label value, json.cc:865-888, in state b. *)
Definition on_value (b : jbase) (j : json) (p : parser) (s : list Z) : lres :=
  let initial := match b with BInitial => true | _ => false end in
  (* jp: the frames from the value up to current(), and the value *)
  let jp := match pfoc p with JArr l => if initial then [] else [FArr l] | _ => [] end in
  let next := if is_a j then BArrInitial else BObjInitial in
  match b with
  | BObjValue =>
    match pstk p with
    | [] => LUB (* pop_back on an empty vector: does not happen *)
    | fs :: st =>
      if is_a j || is_o j then LGo (MkP (JRun next PNone) ((jp ++ fs) :: st) j []) s
      else LGo (MkP (JRun BObjDelim PNone) st (plug (jp ++ fs) j) []) s
    end
  | BInitial =>
    if is_a j || is_o j then LGo (MkP (JRun next PNone) (pstk p) j []) s
    else LRet (MkP JFinal (pstk p) j []) s
  | _ =>
    if is_a j || is_o j then LGo (MkP (JRun next PNone) (jp :: pstk p) j []) s
    else match b with
    | BArrInitial | BArrValue => LGo (MkP (JRun BArrDelim PNone) (pstk p) (plug jp j) []) s
    | _ => LRet (MkP JFinal (pstk p) (plug jp j) []) s
    end
  end.
(* The label close_value, json.cc:890-898. *)
Definition on_close (p : parser) (s : list Z) : lres :=
  match pstk p with
  | [] => LRet (with_state p JFinal) s
  | fs :: st =>
    let j := plug fs (pfoc p) in
    LGo (MkP (JRun (if is_a j then BArrDelim else BObjDelim) PNone) st j (pstr p)) s
  end.
(* get_insert, json.cc:162-185 and json.hh:2105-2108, and the push of the slot, json.cc:822: the slot's
   frame and its value. *)
Fixpoint slot (k : list Z) (l : list (list Z * json)) : list (list Z * json) * json * list (list Z * json) :=
  match l with
  | [] => ([], JNull, [])
  | (k', v) :: l' =>
    if bytes_eqb k k' then ([], v, l')
    else match slot k l' with (l1, x, l2) => ((k', v) :: l1, x, l2) end
  end.
Definition on_key (k : list Z) (p : parser) (s : list Z) : lres :=
  match pfoc p with
  | JObj l =>
    match slot k l with
    | (l1, x, l2) => LGo (MkP (JRun BObjColon PNone) ([FObj l1 k l2] :: pstk p) x []) s
    end
  | _ => LUB (* does not happen: the current value is an object *)
  end.
(* The labels string_value and string_object_key, json.cc:809-824, from a result of consume_string. *)
Definition on_string (b : jbase) (x : sres) (p : parser) (s : list Z) : lres :=
  match x with
  | SUB => LUB
  | SErr => p_error p s
  | SPart str n => LGo (MkP (JRun b (PString n)) (pstk p) (pfoc p) str) []
  | SDone str r => match b with BObjColon => on_key str p r | _ => on_value b (JStr str) p r end
  end.
(* The label primitive, json.cc:833-837. *)
Definition on_primitive (b : jbase) (x : prres) (p : parser) (s : list Z) : lres :=
  match x with
  | PrErr => p_error p s
  | PrPart n => LGo (with_state p (JRun b (PPrimitive n))) []
  | PrDone n r => on_value b (primitive_value n) p r
  end.
(* The label number, json.cc:853-857, and the end of consume_number, json.cc:1185-1231. before is what
   str_ holds of the number. *)
Definition on_number (complete : bool) (b : jbase) (before : list Z) (x : nres) (p : parser) (s : list Z) : lres :=
  let '(position, (taken, r)) := x in
  match r, complete with
  | [], false => LGo (MkP (JRun b (PNumber position)) (pstk p) (pfoc p) (before ++ taken)) []
  | _, _ =>
    if Z.even position then p_error p s
    else match number_value position (before ++ taken) with
    | Some j => on_value b j p r
    | None => LUB
    end
  end.
(* state_ <= st_object_value, json.hh:2815-2818. *)
Definition wants_value (b : jbase) : bool :=
  match b with BInitial | BArrInitial | BArrValue | BObjValue => true | _ => false end.
(* One turn of the loop of consume, json.cc:733-899, at the byte c, in state b. Runs of white space are
   taken byte by byte. Reusing the container in json_ (lines 768-770, 789-791) is not modelled. *)
Definition consume_step (complete : bool) (b : jbase) (p : parser) (c : Z) (r : list Z) : lres :=
  let s := c :: r in
  if (c =? 32) || (c =? 10) || (c =? 13) || (c =? 9) then LGo p r
  else if c =? 44 then
    match b with
    | BArrDelim => LGo (with_state p (JRun BArrValue PNone)) r
    | BObjDelim => LGo (with_state p (JRun BObjKey PNone)) r
    | _ => p_error p s
    end
  else if c =? 58 then
    match b with BObjColon => LGo (with_state p (JRun BObjValue PNone)) r | _ => p_error p s end
  else if c =? 123 then
    if wants_value b && negb (len (pstk p) =? max_depth) then on_value b (JObj []) p r else p_error p s
  else if c =? 125 then
    match b with BObjInitial | BObjDelim => on_close p r | _ => p_error p s end
  else if c =? 91 then
    if wants_value b && negb (len (pstk p) =? max_depth) then on_value b (JArr []) p r else p_error p s
  else if c =? 93 then
    match b with BArrInitial | BArrDelim => on_close p r | _ => p_error p s end
  else if c =? 34 then
    if wants_value b then on_string b (string_loop 0 [] r) p s
    else match b with
    | BObjInitial | BObjKey => on_string BObjColon (string_loop 0 [] r) p s
    | _ => p_error p s
    end
  else if (c =? 110) || (c =? 102) || (c =? 116) then
    if wants_value b then on_primitive b (primitive (if c =? 110 then 1 else if c =? 102 then 6 else 12) r) p s
    else p_error p s
  else if (c =? 45) || within c 48 58 then
    if wants_value b then on_number complete b [] (number_scan 0 s) p s else p_error p s
  else p_error p s.

(* consume, json.cc:714-902. CFuel does not occur (P_JsonText1). *)
Inductive cres := CRet (p : parser) (s : list Z) | CUB | CFuel.
Fixpoint consume_loop (complete : bool) (fuel : nat) (p : parser) (s : list Z) : cres :=
  match ps p, s with
  | JRun b PNone, c :: r =>
    match fuel with
    | O => CFuel
    | S fuel' =>
      match consume_step complete b p c r with
      | LGo p' s' => consume_loop complete fuel' p' s'
      | LRet p' s' => CRet p' s'
      | LUB => CUB
      end
    end
  | _, _ => CRet p s
  end.
Definition consume_on (complete : bool) (x : lres) : cres :=
  match x with
  | LGo p s => consume_loop complete (length s) p s
  | LRet p s => CRet p s
  | LUB => CUB
  end.
(* The jumps into the loop are json.cc:722-731. *)
Definition consume (complete : bool) (p : parser) (s : list Z) : cres :=
  match ps p with
  | JRun b (PString n) => consume_on complete (on_string b (string_part (pstr p) n s) p s)
  | JRun b (PPrimitive n) => consume_on complete (on_primitive b (primitive n s) p s)
  | JRun b (PNumber n) => consume_on complete (on_number complete b (pstr p) (number_scan n s) p s)
  | _ => consume_loop complete (length s) p s
  end.

(* assign_parse, json.cc:681-695. *)
Inductive pout := PValue (j : json) | PRefused | PUndefined.
Definition is_ws (c : Z) : bool := (c =? 32) || (c =? 10) || (c =? 13) || (c =? 9).
Definition assign_parse (s : list Z) : pout :=
  match consume true p_init s with
  | CRet p r =>
    match ps p, (match r with c :: r' => if is_ws c then r' else r | [] => [] end) with
    | JFinal, [] => PValue (result p)
    | _, _ => PRefused
    end
  | _ => PUndefined
  end.

(* The use of the streaming parser: the text arrives in pieces, the last one is announced as complete;
   what a finished parser has not consumed is kept. *)
Fixpoint feed (p : parser) (pieces : list (list Z)) : cres :=
  match pieces with
  | [] => CRet p []
  | [s] => consume true p s
  | s :: more =>
    match consume false p s with
    | CRet p' r =>
      match ps p' with
      | JRun _ _ => feed p' more
      | _ => CRet p' (r ++ concat more)
      end
    | x => x
    end
  end.
End Parse.

(* What the user of the streaming parser sees: done(), success(), error() and result(), json.hh:2852-2885. *)
Inductive outcome := Accepted (v : json) (rest : list Z) | Unfinished | Refused | Undefined.
Definition outcome_of (x : cres) : outcome :=
  match x with
  | CRet p r => match ps p with JFinal => Accepted (result p) r | JError => Refused | JRun _ _ => Unfinished end
  | _ => Undefined
  end.
