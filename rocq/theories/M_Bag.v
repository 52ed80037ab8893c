(* Rows of type value_bag<uint16_t>, the default row type (kvrow.hh:24-37), value_bag.hh.
   A row is its timestamp and its memory from d_.s_ on. The memory is byte exact: the union bagdata puts the
   number of columns at bytes 0-1, the offset table from byte 2 on, the column data behind it; offsets count
   from d_.s_. Little-endian. Not modelled: print, the memory accounting of deallocate. *)
From Verif Require Import Lib M_Key.

(* Memory of one allocation: None is a byte not yet written. The results None of the functions below stand
   for undefined behaviour: an access outside an allocation, or use of a byte never written. *)
Definition mem := list (option Z).

(* memcpy into m. *)
Definition wr (m : mem) (off : Z) (bs : mem) : option mem :=
  if (0 <=? off) && (off + len bs <=? len m)
  then Some (firstn (Z.to_nat off) m ++ bs ++ skipn (Z.to_nat (off + len bs)) m) else None.
(* The n bytes at off. *)
Definition rd (m : mem) (off n : Z) : option mem :=
  if (0 <=? off) && (0 <=? n) && (off + n <=? len m)
  then Some (firstn (Z.to_nat n) (skipn (Z.to_nat off) m)) else None.
(* Written bytes. *)
Fixpoint init (m : mem) : option (list Z) :=
  match m with
  | [] => Some []
  | Some b :: m' => match init m' with Some l => Some (b :: l) | None => None end
  | None :: _ => None
  end.
Definition rd_bytes (m : mem) (off n : Z) : option (list Z) :=
  match rd m off n with Some b => init b | None => None end.
(* Load and store of an offset_type (uint16_t); stores truncate. *)
Definition rd16 (m : mem) (off : Z) : option Z :=
  match rd_bytes m off 2 with Some b => Some (le_val b) | None => None end.
Definition wr16 (m : mem) (off v : Z) : option mem := wr m off (map Some (le_bytes 2 (v mod 2 ^ 16))).

Notation "x <- e ; f" := (match e with Some x => f | None => None end) (at level 61, e at next level, right associativity).

(* class value_bag: ts_ and d_.s_, value_bag.hh:79-81. *)
Record bag := MkBag { bg_ts : Z; bg_s : mem }.

(* sizeof(bagdata), value_bag.hh:30-36, and sizeof(offset_type), sizeof(kvtimestamp_t). *)
Definition sz_bagdata : Z := 4.
Definition sz_off : Z := 2.
Definition sz_ts : Z := 8.

(* d_.ncol_ and d_.pos_[i]; a union member pos_[i] may lie behind the declared pos_[1]. value_bag.hh:30-36. *)
Definition ld_ncol (b : bag) : option Z := rd16 (bg_s b) 0.
Definition ld_pos (b : bag) (i : Z) : option Z := rd16 (bg_s b) (2 + 2 * i).

(* value_bag::value_bag, value_bag.hh:84-89. *)
Definition bag_empty : bag := MkBag 0 (map Some (le_bytes 2 0 ++ le_bytes 2 sz_bagdata)).

(* timestamp, size, ncol, column_length, value_bag.hh:91-110. *)
Definition bag_timestamp (b : bag) : Z := bg_ts b.
Definition bag_size (b : bag) : option Z := n <- ld_ncol b; p <- ld_pos b n; Some (sz_ts + p).
Definition bag_ncol (b : bag) : option Z := ld_ncol b.
Definition column_length (b : bag) (i : Z) : option Z :=
  p1 <- ld_pos b (i + 1); p0 <- ld_pos b i; Some ((p1 - p0) mod 2 ^ 16).

(* col, value_bag.hh:112-118: the bytes of the Str returned; i is an int. *)
Definition bag_col (b : bag) (i : Z) : option (list Z) :=
  n <- ld_ncol b;
  if i mod 2 ^ 32 <? n then p <- ld_pos b i; l <- column_length b i; rd_bytes (bg_s b) p l
  else Some [].

(* row_string, value_bag.hh:120-123. *)
Definition bag_row_string (b : bag) : option (list Z) := n <- ld_ncol b; p <- ld_pos b n; rd_bytes (bg_s b) 0 p.

(* A change set: pairs of a column (unsigned) and a value, the Json array [first, last) of value_bag.hh:135-137. *)
Definition changes := list (Z * list Z).

(* The first loop of update, value_bag.hh:144-151: sz is a size_t, ncol an unsigned. *)
Fixpoint upd_sizes (b : bag) (n0 : Z) (ch : changes) (sz ncol : Z) : option (Z * Z) :=
  match ch with
  | [] => Some (sz, ncol)
  | (idx, v) :: ch' =>
    let sz := (sz + len v) mod 2 ^ 64 in
    if idx <? n0 then l <- column_length b idx; upd_sizes b n0 ch' ((sz - l) mod 2 ^ 64) ncol
    else upd_sizes b n0 ch' sz ((idx + 1) mod 2 ^ 32)
  end.

(* The loop of value_bag.hh:182-183, n = end_col - col iterations. *)
Fixpoint copy_pos (b : bag) (m : mem) (i : Z) (n : nat) (delta : Z) : option mem :=
  match n with
  | O => Some m
  | S n' => p <- ld_pos b i; m' <- wr16 m (2 + 2 * i) (p + delta); copy_pos b m' (i + 1) n' delta
  end.
(* The loop of value_bag.hh:191-194. It ends only at col == this_col; if this_col is smaller it writes until it
   leaves the row, so the fuel (the size of the row) never decides the result. *)
Fixpoint pad_pos (fuel : nat) (m : mem) (col this_col sz : Z) : option (mem * Z) :=
  if col =? this_col then Some (m, col)
  else match fuel with
       | O => None
       | S f => m' <- wr16 m (2 + 2 * col) sz; pad_pos f m' ((col + 1) mod 2 ^ 32) this_col sz
       end.

(* Copying a run of old columns, value_bag.hh:175-189. Result: row memory, sz, col. *)
Definition copy_run (b : bag) (n0 : Z) (m : mem) (sz col this_col : Z) : option (mem * Z * Z) :=
  if negb (col =? this_col) && (col <? n0) then
    let end_col := Z.min this_col n0 in
    pc <- ld_pos b col;
    let delta := sz - pc in
    m1 <- (if delta =? 0
           then src <- rd (bg_s b) (2 + 2 * col) (2 * (end_col - col)); wr m (2 + 2 * col) src
           else copy_pos b m col (Z.to_nat (end_col - col)) delta);
    pe <- ld_pos b end_col;
    src <- rd (bg_s b) pc (pe - pc);
    m2 <- wr m1 sz src;
    Some (m2, sz + (pe - pc), end_col)
  else Some (m, sz, col).

(* The while (1) loop, value_bag.hh:172-205. Each round but the last uses up one change. *)
Fixpoint upd_loop (b : bag) (n0 ncol : Z) (ch : changes) (m : mem) (sz col : Z) : option (mem * Z) :=
  let this_col := match ch with [] => ncol | (idx, _) :: _ => idx end in
  r <- copy_run b n0 m sz col this_col;
  let '(m, sz, col) := r in
  r <- pad_pos (length m) m col this_col sz;
  let '(m, col) := r in
  if col =? ncol then Some (m, sz)
  else match ch with
       | [] => None (* col == this_col == ncol *)
       | (_, v) :: ch' =>
         m1 <- wr16 m (2 + 2 * col) sz;
         m2 <- wr m1 sz (map Some v);
         upd_loop b n0 ncol ch' m2 (sz + len v) ((col + 1) mod 2 ^ 32)
       end.

(* update, value_bag.hh:135-209. *)
Definition bag_update (b : bag) (ch : changes) (ts : Z) : option bag :=
  n0 <- ld_ncol b;
  size <- bag_size b;
  r <- upd_sizes b n0 ch size n0;
  let '(sz, ncol) := r in
  let sz := if n0 <? ncol then (sz + (ncol - n0) * sz_off) mod 2 ^ 64 else sz in
  let row := repeat None (Z.to_nat (sz - sz_ts)) in
  let slow :=
    m <- wr16 row 0 ncol;
    r <- upd_loop b n0 ncol ch m (sz_bagdata + ncol * sz_off) 0;
    let '(m, sz) := r in
    m <- wr16 m (2 + 2 * ncol) sz;
    Some (MkBag ts m) in
  match ch with
  | [(idx, v)] =>
    if (ncol =? n0) && (sz =? size) && (len v <=? 16) then
      src <- rd (bg_s b) 0 (sz - sz_ts);
      m <- wr row 0 src;
      p <- ld_pos b idx;
      m <- wr m p (map Some v);
      Some (MkBag ts m)
    else slow
  | _ => slow
  end.

(* update of one column, value_bag.hh:211-216; create and create1, value_bag.hh:218-235. *)
Definition bag_update1 (b : bag) (col : Z) (v : list Z) (ts : Z) : option bag := bag_update b [(col, v)] ts.
Definition bag_create (ch : changes) (ts : Z) : option bag := bag_update bag_empty ch ts.
Definition bag_create1 (v : list Z) (ts : Z) : option bag :=
  let row := repeat None (Z.to_nat (sz_bagdata + sz_off + len v)) in
  m <- wr16 row 0 1;
  m <- wr16 m 2 (sz_bagdata + sz_off);
  m <- wr16 m 4 (sz_bagdata + sz_off + len v);
  p <- ld_pos (MkBag ts m) 0;
  m <- wr m p (map Some v);
  Some (MkBag ts m).

(* The string written by checkpoint_write, value_bag.hh:259-262, and the row checkpoint_read makes of it,
   value_bag.hh:247-257. *)
Definition bag_checkpoint_write (b : bag) : option (list Z) := bag_row_string b.
Definition bag_checkpoint_read (v : list Z) (ts : Z) : bag := MkBag ts (map Some v).
