(** The String class with its reference-counted buffers, and StringAccum, which builds
    such a buffer and gives it away (string.hh, string.cc, straccum.hh, straccum.cc).

    Memory is a heap of blocks.  An address once used is never used again, so that every
    use of freed memory is seen.  Whatever the code must not do (touch freed memory, leave
    a block, overflow a signed int, call memcpy on overlapping ranges) is the outcome
    [Bad].  Not modelled: running out of memory (so no string is "out of memory"),
    HAVE_STRING_PROFILING, several threads on one buffer. *)

From Coq Require Import List ZArith Bool.
Import ListNotations.
Open Scope Z_scope.

Inductive res (A : Type) := Fine (a : A) | Bad.
Arguments Fine {A} a.
Arguments Bad {A}.

Definition bind {A B} (x : res A) (f : A -> res B) : res B :=
  match x with Fine a => f a | Bad => Bad end.

Notation "'do' x <- e ; f" := (bind e (fun x => f))
  (at level 200, x pattern, e at level 100, f at level 200, right associativity).

(** A condition the code relies on, or asserts. *)
Definition need (b : bool) : res unit := if b then Fine tt else Bad.

(** A result of signed int arithmetic: overflow is undefined behaviour. *)
Definition int_of (x : Z) : res Z :=
  do _ <- need (((- 2 ^ 31) <=? x) && (x <? 2 ^ 31));
  Fine x.

(** Arithmetic of uint32_t. *)
Definition u32 (x : Z) : Z := x mod 2 ^ 32.

(** ** Memory *)

(** string.hh:236-281 [memo_type]: reference count, capacity and dirty, then the
    characters.  A buffer of a StringAccum is such a block whose header is not in use
    (straccum.hh:137-139 [memo_space], straccum.cc:101). *)
Record memo := { m_refs : Z; m_cap : Z; m_dirty : Z; m_buf : list Z }.

(** A block is [None] once it is freed. *)
Definition heap := list (option memo).

(** [PM b o]: offset [o] in the characters of block [b].  [PS s o]: offset [o] in memory
    [s] that stays as it is, such as a string literal or a buffer of the caller. *)
Inductive ptr := PM (b : nat) (o : Z) | PS (s : list Z) (o : Z).

Definition len (l : list Z) : Z := Z.of_nat (length l).

(** [n] elements from position [o]. *)
Definition sub (l : list Z) (o n : Z) : list Z := firstn (Z.to_nat n) (skipn (Z.to_nat o) l).

(** [l] with [s] written over it from position [o]. *)
Definition splice (l : list Z) (o : Z) (s : list Z) : list Z :=
  firstn (Z.to_nat o) l ++ s ++ skipn (Z.to_nat o + length s) l.

Fixpoint put {A} (l : list A) (i : nat) (a : A) : list A :=
  match l, i with
  | [], _ => []
  | _ :: t, O => a :: t
  | x :: t, S i => x :: put t i a
  end.

Definition block (h : heap) (b : nat) : res memo :=
  match nth_error h b with Some (Some x) => Fine x | _ => Bad end.

(** What fresh memory holds: not a byte, so that it cannot pass for one. *)
Definition junk : Z := -1.

(** [new char[...]] and string.hh:357-364 [memo_type::initialize], string.cc:510-518
    [create_memo]. *)
Definition alloc (h : heap) (cap dirty : Z) : res (heap * nat) :=
  do _ <- int_of (cap + 12);
  do _ <- need ((0 <? cap) && (dirty <=? cap));
  Fine (h ++ [Some {| m_refs := 1; m_cap := cap; m_dirty := dirty;
                      m_buf := repeat junk (Z.to_nat cap) |}], length h).

(** [delete[]]. *)
Definition free (h : heap) (b : nat) : res heap :=
  do _ <- block h b;
  Fine (put h b None).

Definition load (h : heap) (p : ptr) (n : Z) : res (list Z) :=
  match p with
  | PM b o =>
    do x <- block h b;
    do _ <- need ((0 <=? o) && (0 <=? n) && (o + n <=? len (m_buf x)));
    Fine (sub (m_buf x) o n)
  | PS s o =>
    do _ <- need ((0 <=? o) && (0 <=? n) && (o + n <=? len s));
    Fine (sub s o n)
  end.

Definition store (h : heap) (b : nat) (o : Z) (s : list Z) : res heap :=
  do x <- block h b;
  do _ <- need ((0 <=? o) && (o + len s <=? len (m_buf x)));
  Fine (put h b (Some {| m_refs := m_refs x; m_cap := m_cap x; m_dirty := m_dirty x;
                         m_buf := splice (m_buf x) o s |})).

(** Do [n] characters at [p] and at offset [o] of block [b] overlap? *)
Definition overlap (p : ptr) (b : nat) (o n : Z) : bool :=
  match p with
  | PM b' o' => Nat.eqb b b' && (o' <? o + n) && (o <? o' + n)
  | PS _ _ => false
  end.

(** [memcpy] to offset [o] of block [b]. *)
Definition copy (h : heap) (b : nat) (o : Z) (p : ptr) (n : Z) : res heap :=
  do s <- load h p n;
  do _ <- need (negb (overlap p b o n));
  store h b o s.

(** ** String *)

(** string.hh:176-234 [rep_type]; [memo_offset] is here the block itself, [None] for 0. *)
Record rep := { data : ptr; length_ : Z; memo_ : option nat }.

(** string.hh:367-370, string_base.hh [empty_data]. *)
Definition empty_rep : rep := {| data := PS [0] 0; length_ := 0; memo_ := None |}.

(** string.hh:181-184 [ref], 265-268 [incref]. *)
Definition ref (h : heap) (r : rep) : res heap :=
  match memo_ r with
  | None => Fine h
  | Some b =>
    do x <- block h b;
    Fine (put h b (Some {| m_refs := u32 (m_refs x + 1); m_cap := m_cap x;
                           m_dirty := m_dirty x; m_buf := m_buf x |}))
  end.

(** string.hh:185-188 [deref], 269-273 [decref], string.cc:520-527 [delete_memo]. *)
Definition deref (h : heap) (r : rep) : res heap :=
  match memo_ r with
  | None => Fine h
  | Some b =>
    do x <- block h b;
    let n := u32 (m_refs x - 1) in
    if n =? 0 then
      do _ <- need ((0 <? m_cap x) && (m_dirty x <=? m_cap x));
      free h b
    else
      Fine (put h b (Some {| m_refs := n; m_cap := m_cap x; m_dirty := m_dirty x;
                             m_buf := m_buf x |}))
  end.

(** Is [p] with [n] characters behind it inside the memo [m] points to?  The comparison
    of pointers in string.cc:695-697 and 801-803.  Different blocks are disjoint. *)
Definition inside (h : heap) (m : option nat) (p : ptr) (n : Z) : res bool :=
  match m with
  | None => Fine false
  | Some b =>
    do x <- block h b;
    match p with
    | PM b' o => Fine (Nat.eqb b b' && (0 <=? o) && (o + n <=? m_cap x))
    | PS _ _ => Fine false
    end
  end.

(** string.cc:682-722 [String::assign(s, len, need_deref)], for [len >= 0]. *)
Definition str_assign (h : heap) (r : rep) (p : ptr) (n : Z) (need_deref : bool)
  : res (heap * rep) :=
  do i <- (if need_deref then inside h (memo_ r) p n else Fine false);
  if i : bool then Fine (h, {| data := p; length_ := n; memo_ := memo_ r |})
  else
    do h <- (if need_deref then deref h r else Fine h);
    if n =? 0 then Fine (h, empty_rep)
    else
      do c <- int_of (n + 15 + 12);
      let c := c / 16 * 16 in
      do (h, b) <- alloc h (c - 12) n;
      do h <- copy h b 0 p n;
      Fine (h, {| data := PM b 0; length_ := n; memo_ := Some b |}).

(** string.cc:761-766, the loop that doubles. *)
Fixpoint double (fuel : nat) (c want : Z) : res Z :=
  match fuel with
  | O => Bad
  | S f => if c <? want then do c <- int_of (c * 2); double f c want else Fine c
  end.

(** string.cc:758-766. *)
Definition memo_capacity (n : Z) : res Z :=
  do want <- int_of (n + 12);
  if want <=? 1024 then Fine ((want + 15) / 16 * 16) else double 32 2048 want.

(** string.cc:729-780 [String::append_uninitialized].  The result is the block and the
    offset where the new characters go, [None] for the null pointer. *)
Definition append_uninitialized (h : heap) (r : rep) (n : Z)
  : res (heap * rep * option (nat * Z)) :=
  if n <=? 0 then Fine (h, r, None)
  else
    do fits <- match memo_ r with
               | None => Fine None
               | Some b =>
                 do x <- block h b;
                 if u32 (m_dirty x + n) <? m_cap x then
                   match data r with
                   | PM b' o =>
                     if Nat.eqb b b' && (o + length_ r =? m_dirty x) then Fine (Some (b, x))
                     else Fine None
                   | PS _ _ => Fine None
                   end
                 else Fine None
               end;
    match fits with
    | Some (b, x) =>
      do l <- int_of (length_ r + n);
      Fine (put h b (Some {| m_refs := m_refs x; m_cap := m_cap x;
                             m_dirty := u32 (m_dirty x + n); m_buf := m_buf x |}),
            {| data := data r; length_ := l; memo_ := memo_ r |}, Some (b, m_dirty x))
    | None =>
      do l <- int_of (length_ r + n);
      do c <- memo_capacity l;
      do (h, b) <- alloc h (c - 12) l;
      do h <- copy h b 0 (data r) (length_ r);
      do h <- deref h r;
      Fine (h, {| data := PM b 0; length_ := l; memo_ := Some b |}, Some (b, length_ r))
    end.

(** The last parameter of [String::append] (string.hh:331, 335-337). *)
Inductive memo_arg := Null | Absent | Memo (b : nat).

(** [x._r.memo()], string.hh:717-719. *)
Definition arg_of (m : option nat) : memo_arg :=
  match m with None => Null | Some b => Memo b end.

(** string.cc:782-812 [String::append(s, len, memo)], for [len >= 0]. *)
Definition str_append (h : heap) (r : rep) (p : ptr) (n : Z) (m : memo_arg)
  : res (heap * rep) :=
  if n =? 0 then Fine (h, r)
  else
    match length_ r =? 0, m with
    | true, Memo b =>
      do h <- deref h r;
      let r := {| data := p; length_ := n; memo_ := Some b |} in
      do h <- ref h r;
      Fine (h, r)
    | _, _ =>
      do i <- inside h (memo_ r) p n;
      if i : bool then
        do h <- ref h r;
        do (h, r', s) <- append_uninitialized h r n;
        do h <- match s with Some (b, o) => copy h b o p n | None => Fine h end;
        do h <- deref h r;
        Fine (h, r')
      else
        do (h, r', s) <- append_uninitialized h r n;
        do h <- match s with Some (b, o) => copy h b o p n | None => Fine h end;
        Fine (h, r')
    end.

(** string.cc:814-820 [String::append_fill], with its assertion. *)
Definition str_fill (h : heap) (r : rep) (c n : Z) : res (heap * rep) :=
  do _ <- need (0 <=? n);
  do (h, r', s) <- append_uninitialized h r n;
  do h <- match s with
          | Some (b, o) => store h b o (repeat c (Z.to_nat n))
          | None => Fine h
          end;
  Fine (h, r').

(** string.hh:557-581 [String::c_str], string.cc:840-859 [hard_c_str]; the pointer it
    returns is [data] of the result. *)
Definition str_c_str (h : heap) (r : rep) : res (heap * rep) :=
  do past <- match memo_ r, data r with
             | Some b, PM _ o =>
               do x <- block h b;
               Fine (m_dirty x <=? o + length_ r)
             | Some _, PS _ _ => Bad
             | None, _ => Fine false
             end;
  do add <- (if past : bool then Fine true
             else
               do z <- match data r with
                       | PM b o => load h (PM b (o + length_ r)) 1
                       | PS s o => load h (PS s (o + length_ r)) 1
                       end;
               match z with [0] => Fine false | _ => Fine true end);
  if add : bool then
    do (h, r', s) <- append_uninitialized h r 1;
    match s with
    | Some (b, o) =>
      do h <- store h b o [0];
      Fine (h, {| data := data r'; length_ := length_ r' - 1; memo_ := memo_ r' |})
    | None => Fine (h, r')
    end
  else Fine (h, r).

(** string.hh:782-786 [String::is_shared], 274-276 [refunique].  The code answers true
    for a unique reference, that is [fixed = false]; [fixed = true] is what the comment
    of the function says. *)
Definition is_shared (fixed : bool) (h : heap) (r : rep) : res bool :=
  match memo_ r with
  | None => Fine true
  | Some b =>
    do x <- block h b;
    Fine (if fixed then negb (m_refs x =? 1) else m_refs x =? 1)
  end.

(** string.cc:822-838 [String::mutable_data]; the pointer it returns is [data] of the
    result. *)
Definition str_mutable (fixed : bool) (h : heap) (r : rep) : res (heap * rep) :=
  do s <- is_shared fixed h r;
  if negb s then Fine (h, r)
  else
    do h <- ref h r;
    do h <- deref h r;
    do (h, r') <- str_assign h r (data r) (length_ r) false;
    do h <- deref h r;
    Fine (h, r').

Definition move (p : ptr) (n : Z) : ptr :=
  match p with PM b o => PM b (o + n) | PS s o => PS s (o + n) end.

(** string.cc:886-911 [String::substr(pos, len)]. *)
Definition str_substr (h : heap) (r : rep) (pos n : Z) : res (heap * rep) :=
  let l := length_ r in
  do pos <- (if pos <? 0 then int_of (pos + l) else Fine pos);
  do pos2 <- (if n <? 0 then int_of (l + n)
              else if (0 <=? pos) && (l <=? n) then Fine l
              else int_of (pos + n));
  let pos := if pos <? 0 then 0 else pos in
  let pos2 := if l <? pos2 then l else pos2 in
  if pos2 <=? pos then Fine (h, empty_rep)
  else
    do h <- ref h r;
    Fine (h, {| data := move (data r) pos; length_ := pos2 - pos; memo_ := memo_ r |}).

(** string.hh:793-802 [String::unique]. *)
Definition str_unique (h : heap) (r : rep) : res (heap * rep) :=
  do keep <- match memo_ r with
             | None => Fine true
             | Some b => do x <- block h b; Fine (m_refs x =? 1)
             end;
  if keep : bool then do h <- ref h r; Fine (h, r)
  else str_assign h empty_rep (data r) (length_ r) false.

(** string.hh:804-812 [String::shrink_to_fit]: a temporary String is made and moved into
    this one (string.hh:654-658). *)
Definition str_shrink (h : heap) (r : rep) : res (heap * rep) :=
  do copy <- match memo_ r with
             | None => Fine false
             | Some b =>
               do x <- block h b;
               Fine (negb (m_refs x =? 1) && (u32 (length_ r + 256) <? m_cap x))
             end;
  if copy : bool then
    do (h, r') <- str_assign h empty_rep (data r) (length_ r) false;
    do h <- deref h r;
    Fine (h, r')
  else Fine (h, r).

(** ** StringAccum *)

(** straccum.hh:141-151 [rep_t]; no block while [cap] is 0. *)
Record acc := { a_blk : option nat; a_len : Z; a_cap : Z }.

(** straccum.hh:145-148. *)
Definition empty_acc : acc := {| a_blk := None; a_len := 0; a_cap := 0 |}.

(** The pointer [r_.s]. *)
Definition a_ptr (a : acc) (o : Z) : ptr :=
  match a_blk a with Some b => PM b o | None => PS [0] o end.

(** straccum.hh:225-228 [~StringAccum], straccum.cc:104. *)
Definition acc_free (h : heap) (a : acc) : res heap :=
  if 0 <? a_cap a then match a_blk a with Some b => free h b | None => Bad end else Fine h.

(** straccum.cc:85-92, the new capacity. *)
Definition acc_capacity (cap ncap : Z) : res Z :=
  if ncap <? 128 then Fine 128
  else if (cap <? 2 ^ 20) && (ncap <? (cap + 12) * 2 - 12) then Fine ((cap + 12) * 2 - 12)
  else if 2 ^ 20 <=? cap then
    do c <- int_of (cap + 2 ^ 19);
    Fine (if ncap <? c then c else ncap)
  else Fine ncap.

(** straccum.cc:78-110 [StringAccum::grow]. *)
Definition acc_grow (h : heap) (a : acc) (ncap : Z) : res (heap * acc) :=
  if ncap <? a_cap a then Fine (h, a)
  else
    do c <- acc_capacity (a_cap a) ncap;
    do (h, b) <- alloc h c 0;
    do h <- (if 0 <? a_cap a then
               do h <- copy h b 0 (a_ptr a 0) (a_len a);
               acc_free h a
             else Fine h);
    Fine (h, {| a_blk := Some b; a_len := a_len a; a_cap := c |}).

(** Write at the end of the characters in the buffer and add to the length. *)
Definition acc_put (h : heap) (a : acc) (s : list Z) : res (heap * acc) :=
  match a_blk a with
  | None => do _ <- need (len s =? 0); Fine (h, a)
  | Some b =>
    do h <- store h b (a_len a) s;
    Fine (h, {| a_blk := Some b; a_len := a_len a + len s; a_cap := a_cap a |})
  end.

(** The same from elsewhere in memory by [memcpy]. *)
Definition acc_copy (h : heap) (a : acc) (p : ptr) (n : Z) : res (heap * acc) :=
  do s <- load h p n;
  do _ <- need (negb match a_blk a with Some b => overlap p b (a_len a) n | None => false end);
  acc_put h a s.

(** Is [p] in the buffer, straccum.cc:184? *)
Definition acc_inside (a : acc) (p : ptr) : bool :=
  match a_blk a, p with
  | Some b, PM b' o => Nat.eqb b b' && (0 <=? o) && (o <? a_cap a)
  | _, _ => false
  end.

(** straccum.hh:470-481 [StringAccum::append(s, len)] and straccum.cc:171-197
    [hard_append]; [extend] on the empty rep is straccum.cc:126-137 [hard_extend]. *)
Definition acc_append (h : heap) (a : acc) (p : ptr) (n : Z) : res (heap * acc) :=
  do l <- int_of (a_len a + n);
  if l <=? a_cap a then acc_copy h a p n
  else if negb (acc_inside a p) then
    do (h, a) <- acc_grow h a l;
    acc_copy h a p n
  else
    do (h, a') <- acc_grow h empty_acc l;
    do (h, a') <- acc_copy h a' (a_ptr a 0) (a_len a);
    do (h, a') <- acc_copy h a' p n;
    do h <- acc_free h a;
    Fine (h, a').

(** straccum.hh:456-459 [StringAccum::append(char)]. *)
Definition acc_char (h : heap) (a : acc) (c : Z) : res (heap * acc) :=
  do (h, a) <- (if a_len a <? a_cap a then Fine (h, a) else acc_grow h a (a_len a));
  acc_put h a [c].

(** straccum.cc:156-162 [StringAccum::c_str]. *)
Definition acc_c_str (h : heap) (a : acc) : res (heap * acc) :=
  do (h, a) <- (if a_len a <? a_cap a then Fine (h, a) else acc_grow h a (a_len a));
  match a_blk a with
  | None => Bad
  | Some b =>
    do h <- store h b (a_len a) [0];
    Fine (h, a)
  end.

(** straccum.cc:235-253 [StringAccum::take_string]. *)
Definition acc_take (h : heap) (a : acc) : res (heap * acc * rep) :=
  if (0 <? a_len a) && (0 <? a_cap a) then
    match a_blk a with
    | None => Bad
    | Some b =>
      do x <- block h b;
      Fine (put h b (Some {| m_refs := 1; m_cap := a_cap a; m_dirty := a_len a;
                             m_buf := m_buf x |}),
            empty_acc, {| data := PM b 0; length_ := a_len a; memo_ := Some b |})
    end
  else Fine (h, a, empty_rep).

(** straccum.cc:139-148 [StringAccum::transfer_from] on a fresh StringAccum, as in
    straccum.hh:219-223 [StringAccum(String&&)] and 230-236 [make_transfer]; the String is
    empty afterwards. *)
Definition acc_transfer (fixed : bool) (h : heap) (r : rep) : res (heap * acc) :=
  do s <- is_shared fixed h r;
  match s, memo_ r, data r with
  | false, Some b, PM _ 0 =>
    do x <- block h b;
    Fine (h, {| a_blk := Some b; a_len := length_ r; a_cap := m_cap x |})
  | _, _, _ =>
    do (h, a) <- (if length_ r =? 0 then Fine (h, empty_acc)
                  else acc_append h empty_acc (data r) (length_ r));
    do h <- deref h r;
    Fine (h, a)
  end.

(** ** Programs *)

(** Variables are numbered in the order they are made; [None] once destroyed. *)
Record state := { hp : heap; strs : list (option rep); accs : list (option acc) }.

(** Where the characters of an operation come from: memory of the caller, or [n]
    characters at position [i] of a variable. *)
Inductive src := SOut (l : list Z) | SStr (w : nat) (i n : Z) | SAcc (a : nat) (i n : Z).

Inductive op :=
| New (s : src)                       (* String x(s, len) *)
| Stable (l : list Z) (z : Z)         (* String::make_stable(s, len), [z] is s[len] *)
| Copy (w : nat)                      (* String x(w) *)
| MoveNew (w : nat)                   (* String x(std::move(w)) *)
| Assign (v w : nat)                  (* v = w *)
| MoveTo (v w : nat)                  (* v = std::move(w) *)
| Swap (v w : nat)                    (* v.swap(w) *)
| AssignChars (v : nat) (s : src)     (* v.assign(first, last) *)
| Append (v w : nat)                  (* v.append(w) *)
| AppendChars (v : nat) (s : src)     (* v.append(s, len) *)
| Fill (v : nat) (c n : Z)            (* v.append_fill(c, n) *)
| Substr (w : nat) (pos n : Z)        (* String x = w.substr(pos, n) *)
| CStr (v : nat)                      (* v.c_str() *)
| Poke (v : nat) (i c : Z)            (* v.mutable_data()[i] = c *)
| Unique (w : nat)                    (* String x = w.unique() *)
| Shrink (v : nat)                    (* v.shrink_to_fit() *)
| Read (v : nat)                      (* look at the characters of v *)
| Destroy (v : nat)                   (* end of v *)
| ANew                                (* StringAccum a *)
| AAppend (a : nat) (s : src)         (* a.append(s, len) *)
| AChar (a : nat) (c : Z)             (* a.append(c) *)
| AClear (a : nat)                    (* a.clear() *)
| APop (a : nat) (n : Z)              (* a.pop_back(n) *)
| ACStr (a : nat)                     (* a.c_str() *)
| ATake (a : nat)                     (* String x = a.take_string() *)
| ATransfer (w : nat)                 (* StringAccum a = StringAccum::make_transfer(w) *)
| ARead (a : nat)                     (* look at the characters of a *)
| ADestroy (a : nat).                 (* end of a *)

Definition str (st : state) (v : nat) : res rep :=
  match nth_error (strs st) v with Some (Some r) => Fine r | _ => Bad end.

Definition acc_at (st : state) (a : nat) : res acc :=
  match nth_error (accs st) a with Some (Some r) => Fine r | _ => Bad end.

(** The pointer and the length an operation is given. *)
Definition source (st : state) (s : src) : res (ptr * Z) :=
  match s with
  | SOut l => Fine (PS l 0, len l)
  | SStr w i n => do r <- str st w; Fine (move (data r) i, n)
  | SAcc a i n => do x <- acc_at st a; Fine (a_ptr x i, n)
  end.

Definition add_str (st : state) (h : heap) (r : rep) : state :=
  {| hp := h; strs := strs st ++ [Some r]; accs := accs st |}.
Definition set_str (st : state) (h : heap) (v : nat) (r : option rep) : state :=
  {| hp := h; strs := put (strs st) v r; accs := accs st |}.
Definition add_acc (st : state) (h : heap) (a : acc) : state :=
  {| hp := h; strs := strs st; accs := accs st ++ [Some a] |}.
Definition set_acc (st : state) (h : heap) (i : nat) (a : option acc) : state :=
  {| hp := h; strs := strs st; accs := put (accs st) i a |}.

(** string.hh:189-191 [reset_ref]: what a String is after its value was moved away. *)
Definition moved (r : rep) : rep := {| data := data r; length_ := length_ r; memo_ := None |}.

(** One statement of the user's program; the output is what it lets the user see. *)
Definition step (fixed : bool) (st : state) (o : op) : res (state * option (list Z)) :=
  match o with
  | New s =>
    (* string.hh:431-433 *)
    do (p, n) <- source st s;
    do (h, r) <- str_assign (hp st) empty_rep p n false;
    Fine (add_str st h r, None)
  | Stable l z =>
    (* string.hh:498-519, string.cc:660-666 *)
    Fine (add_str st (hp st) {| data := PS (l ++ [z]) 0; length_ := len l; memo_ := None |},
          None)
  | Copy w =>
    (* string.hh:373-376 *)
    do r <- str st w;
    do h <- ref (hp st) r;
    Fine (add_str st h r, None)
  | MoveNew w =>
    (* string.hh:379-382 *)
    do r <- str st w;
    Fine (add_str (set_str st (hp st) w (Some (moved r))) (hp st) r, None)
  | Assign v w =>
    (* string.hh:636-651 *)
    do rv <- str st v;
    do rw <- str st w;
    do h <- ref (hp st) rw;
    do h <- deref h rv;
    Fine (set_str st h v (Some rw), None)
  | MoveTo v w =>
    (* string.hh:654-664 *)
    do rv <- str st v;
    do rw <- str st w;
    do h <- deref (hp st) rv;
    let st := set_str st h v (Some rw) in
    do rw <- str st w;
    Fine (set_str st h w (Some (moved rw)), None)
  | Swap v w =>
    (* string.hh:711-714 *)
    do rv <- str st v;
    do rw <- str st w;
    Fine (set_str (set_str st (hp st) v (Some rw)) (hp st) w (Some rv), None)
  | AssignChars v s =>
    (* string.hh:706-708 *)
    do r <- str st v;
    do (p, n) <- source st s;
    do (h, r) <- str_assign (hp st) r p n true;
    Fine (set_str st h v (Some r), None)
  | Append v w =>
    (* string.hh:717-719 *)
    do rv <- str st v;
    do rw <- str st w;
    do (h, r) <- str_append (hp st) rv (data rw) (length_ rw) (arg_of (memo_ rw));
    Fine (set_str st h v (Some r), None)
  | AppendChars v s =>
    (* string.hh:735-737 *)
    do r <- str st v;
    do (p, n) <- source st s;
    do (h, r) <- str_append (hp st) r p n Absent;
    Fine (set_str st h v (Some r), None)
  | Fill v c n =>
    do r <- str st v;
    do (h, r) <- str_fill (hp st) r c n;
    Fine (set_str st h v (Some r), None)
  | Substr w pos n =>
    do r <- str st w;
    do (h, r) <- str_substr (hp st) r pos n;
    Fine (add_str st h r, None)
  | CStr v =>
    (* the user sees the characters and the one behind them *)
    do r <- str st v;
    do (h, r) <- str_c_str (hp st) r;
    do l <- load h (data r) (length_ r + 1);
    Fine (set_str st h v (Some r), Some l)
  | Poke v i c =>
    do r <- str st v;
    do (h, r) <- str_mutable fixed (hp st) r;
    do h <- match move (data r) i with PM b o => store h b o [c] | PS _ _ => Bad end;
    Fine (set_str st h v (Some r), None)
  | Unique w =>
    do r <- str st w;
    do (h, r) <- str_unique (hp st) r;
    Fine (add_str st h r, None)
  | Shrink v =>
    do r <- str st v;
    do (h, r) <- str_shrink (hp st) r;
    Fine (set_str st h v (Some r), None)
  | Read v =>
    (* string.hh:529-540 [data], [length] *)
    do r <- str st v;
    do l <- load (hp st) (data r) (length_ r);
    Fine (st, Some l)
  | Destroy v =>
    (* string.hh:467-469 *)
    do r <- str st v;
    do h <- deref (hp st) r;
    Fine (set_str st h v None, None)
  | ANew =>
    (* straccum.hh:178-179 *)
    Fine (add_acc st (hp st) empty_acc, None)
  | AAppend a s =>
    do x <- acc_at st a;
    do (p, n) <- source st s;
    do (h, x) <- acc_append (hp st) x p n;
    Fine (set_acc st h a (Some x), None)
  | AChar a c =>
    do x <- acc_at st a;
    do (h, x) <- acc_char (hp st) x c;
    Fine (set_acc st h a (Some x), None)
  | AClear a =>
    (* straccum.hh:378-382 *)
    do x <- acc_at st a;
    Fine (set_acc st (hp st) a (Some {| a_blk := a_blk x; a_len := 0; a_cap := a_cap x |}),
          None)
  | APop a n =>
    (* straccum.hh:449-452 *)
    do x <- acc_at st a;
    do _ <- need ((0 <=? n) && (n <=? a_len x));
    Fine (set_acc st (hp st) a
            (Some {| a_blk := a_blk x; a_len := a_len x - n; a_cap := a_cap x |}), None)
  | ACStr a =>
    do x <- acc_at st a;
    do (h, x) <- acc_c_str (hp st) x;
    do l <- load h (a_ptr x 0) (a_len x + 1);
    Fine (set_acc st h a (Some x), Some l)
  | ATake a =>
    do x <- acc_at st a;
    do (h, x, r) <- acc_take (hp st) x;
    Fine (add_str (set_acc st h a (Some x)) h r, None)
  | ATransfer w =>
    do r <- str st w;
    do (h, x) <- acc_transfer fixed (hp st) r;
    Fine (add_acc (set_str st h w (Some empty_rep)) h x, None)
  | ARead a =>
    (* straccum.hh:241-264 [data], [length] *)
    do x <- acc_at st a;
    do l <- load (hp st) (a_ptr x 0) (a_len x);
    Fine (st, Some l)
  | ADestroy a =>
    do x <- acc_at st a;
    do h <- acc_free (hp st) x;
    Fine (set_acc st h a None, None)
  end.

Definition start : state := {| hp := []; strs := []; accs := [] |}.

(** A whole program, with what the user saw. *)
Fixpoint run (fixed : bool) (st : state) (os : list op)
  : res (state * list (option (list Z))) :=
  match os with
  | [] => Fine (st, [])
  | o :: os =>
    do (st, x) <- step fixed st o;
    do (st, xs) <- run fixed st os;
    Fine (st, x :: xs)
  end.
