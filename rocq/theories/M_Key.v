(* Model of string slices and Masstree keys. Definitions only. *)
From Verif Require Import Lib.

(* Little-endian interpretation of a byte list: the value of a word whose in-memory bytes are given
   (the code targets little-endian machines for the byte-swapping paths; compiler.hh:736-805). *)
Fixpoint le_val (l : list Z) : Z :=
  match l with [] => 0 | b :: l' => b + 256 * le_val l' end.

(* In-memory (little-endian) bytes of an n-byte word. *)
Fixpoint le_bytes (n : nat) (x : Z) : list Z :=
  match n with O => [] | S n' => (x mod 256) :: le_bytes n' (x / 256) end.

(* Big-endian (network order) interpretation of a byte list; be_val (read_in_net_order),
   compiler.hh:961-967. *)
Fixpoint be_val_acc (acc : Z) (l : list Z) : Z :=
  match l with [] => acc | b :: l' => be_val_acc (acc * 256 + b) l' end.
Definition be_val (l : list Z) : Z := be_val_acc 0 l.

(* Network-order bytes of an n-byte word; write_in_net_order, compiler.hh:950-957. *)
Definition be_bytes (n : nat) (x : Z) : list Z := rev (le_bytes n x).

(* host_to_net_order / net_to_host_order on n-byte words (byte swap), compiler.hh:768-805, 893-897. *)
Definition bswap (n : nat) (x : Z) : Z := le_val (rev (le_bytes n x)).

(* key<I>::ikey_size, masstree_key.hh:42, with I = uint64_t. *)
Definition ikey_size : nat := 8%nat.

(* string_slice<T>::make, string_slice.hh:42-54: memcpy of min(len,size) bytes into a zeroed union.
   The length argument is the length of the list. *)
Definition slice_make (s : list Z) : Z :=
  let u := firstn ikey_size s in
  le_val (u ++ repeat 0 (ikey_size - length u)).

(* string_slice<T>::make_comparable, string_slice.hh:63-65. *)
Definition slice_make_comparable (s : list Z) : Z := bswap ikey_size (slice_make s).

(* string_slice<T>::make_sloppy, string_slice.hh:74-94, little-endian branch with unaligned access.
   [before] are the bytes that precede the string in memory (nearest last; at least size-1 of them, as the
   precondition of line 68 demands); for len < size the word ending at s+len is loaded and shifted right. *)
Definition slice_make_sloppy (before s : list Z) : Z :=
  let n := length s in
  if Nat.leb ikey_size n then le_val (firstn ikey_size s)
  else if Nat.eqb n 0 then 0
  else
    let mem := skipn (length before - (ikey_size - n)) before ++ s in
    Z.shiftr (le_val mem) (8 * Z.of_nat (ikey_size - n)).

(* string_slice<T>::make_comparable_sloppy, string_slice.hh:103-105. *)
Definition slice_make_comparable_sloppy (before s : list Z) : Z := bswap ikey_size (slice_make_sloppy before s).

(* string_slice<T>::unparse_comparable(buf, buflen, value, len), string_slice.hh:132-137:
   the first min(len,8,buflen) network-order bytes of value. *)
Definition unparse_comparable_len (buflen : Z) (value : Z) (l : Z) : list Z :=
  firstn (Z.to_nat (Z.min (Z.min l 8) buflen)) (le_bytes ikey_size (bswap ikey_size value)).

(* string_slice<T>::unparse_comparable(buf, buflen, value), string_slice.hh:115-124:
   like the above with trailing NULs removed. *)
Fixpoint strip_zeros_rev (l : list Z) : list Z :=
  match l with b :: l' => if b =? 0 then strip_zeros_rev l' else l | [] => [] end.
Definition unparse_comparable (buflen : Z) (value : Z) : list Z :=
  firstn (Z.to_nat buflen) (rev (strip_zeros_rev (rev (le_bytes ikey_size (bswap ikey_size value))))).

(* memcmp(a, b, n) == 0. *)
Fixpoint memcmp_eq (n : nat) (a b : list Z) : bool :=
  match n with
  | O => true
  | S n' => match a, b with x :: a', y :: b' => (x =? y) && memcmp_eq n' a' b' | _, _ => false end
  end.

(* A key object, masstree_key.hh:230-234. [k_buf] is the memory starting at first_, [k_off] = s_ - first_. *)
Record mkey := MkKey { k_ikey : Z; k_len : Z; k_buf : list Z; k_off : nat }.

(* key(Str s), masstree_key.hh:48-51. *)
Definition key_make (s : list Z) : mkey := MkKey (slice_make_comparable s) (len s) s 0.

(* key(ikey, len), masstree_key.hh:69-72 (no string attached; s_ = first_ = 0). *)
Definition key_make_ikey (ikey : Z) (l : Z) : mkey := MkKey ikey (Z.min l 8) [] 0.

(* key::has_suffix, masstree_key.hh:92-94. *)
Definition key_has_suffix (k : mkey) : bool := 8 <? k_len k.

(* key::suffix, masstree_key.hh:97-99. *)
Definition key_suffix (k : mkey) : list Z :=
  firstn (Z.to_nat (k_len k - 8)) (skipn (k_off k + 8) (k_buf k)).

(* key::shift, masstree_key.hh:108-112. The bytes before s_ are the shifted-over bytes of the buffer. *)
Definition key_shift (k : mkey) : mkey :=
  let off := (k_off k + 8)%nat in
  let l := k_len k - 8 in
  MkKey (slice_make_comparable_sloppy (firstn off (k_buf k)) (firstn (Z.to_nat l) (skipn off (k_buf k))))
        l (k_buf k) off.

(* key::is_shifted, masstree_key.hh:121-123. *)
Definition key_is_shifted (k : mkey) : bool := negb (Nat.eqb (k_off k) 0).

(* key::unshift_all, masstree_key.hh:125-131. *)
Definition key_unshift_all (k : mkey) : mkey :=
  if Nat.eqb (k_off k) 0 then k
  else
    let l := k_len k + Z.of_nat (k_off k) in
    MkKey (slice_make_comparable (firstn (Z.to_nat l) (k_buf k))) l (k_buf k) 0.

(* string_slice<T>::equals_sloppy, string_slice.hh:150-167, little-endian branch with unaligned access.
   [a], [b] are the bytes at the two addresses; at least 8 of them are readable (precondition, line 145). *)
Definition equals_sloppy (a b : list Z) (l : Z) : bool :=
  if l <=? 8 then
    if l <=? 0 then true
    else
      let delta := Z.lxor (le_val (firstn 8 a)) (le_val (firstn 8 b)) in
      Z.shiftl delta (8 * (8 - l)) mod 2 ^ 64 =? 0
  else memcmp_eq (Z.to_nat l) a b.

(* compare(a,b) on unsigned integers, compiler.hh:984-990: -1, 0 or 1. *)
Definition icompare (a b : Z) : Z := match a ?= b with Lt => -1 | Eq => 0 | Gt => 1 end.

(* key::compare(ikey, keylenx), masstree_key.hh:133-143. Stored keylenx values are 0..8, or larger than 8
   (64 for a suffix, 128 for a layer; masstree_struct.hh:260-264). *)
Definition key_compare (ik l : Z) (ikey keylenx : Z) : Z :=
  let cmp := icompare ik ikey in
  if cmp =? 0 then
    if 8 <? l then (if keylenx <=? 8 then 1 else 0) else l - keylenx
  else cmp.

(* key::compare(key), masstree_key.hh:144-146. *)
Definition key_compare_key (a b : mkey) : Z := key_compare (k_ikey a) (k_len a) (k_ikey b) (k_len b).

(* String_generic::compare, string.cc:135-144 (memcmp on the common length, then length difference; the
   a != b pointer shortcut of line 137 is not modelled). *)
Fixpoint memcmp (n : nat) (a b : list Z) : Z :=
  match n with
  | O => 0
  | S n' =>
    match a, b with
    | x :: a', y :: b' => if x =? y then memcmp n' a' b' else x - y
    | _, _ => 0
    end
  end.
Definition str_compare (a b : list Z) : Z :=
  let lencmp := len a - len b in
  let cmp := memcmp (Nat.min (length a) (length b)) a b in
  if cmp =? 0 then lencmp else cmp.

(* Layer-by-layer comparison of two keys: compare the current slices, and while both are equal and both have
   suffixes shift both keys to the next layer. This is the loop of make_new_layer, masstree_insert.hh:54-90
   (oka.compare(ka_), then shift both), run until the keys differ or one ends; None when out of fuel. *)
Fixpoint key_compare_layers (fuel : nat) (a b : mkey) : option Z :=
  match fuel with
  | O => None
  | S f =>
    let c := key_compare_key a b in
    if c =? 0 then
      if key_has_suffix a then key_compare_layers f (key_shift a) (key_shift b) else Some 0
    else Some c
  end.
