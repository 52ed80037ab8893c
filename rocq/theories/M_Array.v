(* Rows of types value_array and value_versioned_array (value_array.hh/.cc, value_versioned_array.hh/.cc).
   A column is a separately allocated string; the heap of columns records every string allocated and every
   release (deallocate or deallocate_rcu of a column, in order). A released string must not be used by a
   later operation of the same thread; reading one is undefined behaviour here. Results None stand for
   undefined behaviour: an index outside a row's array, or a released string.
   Simplified: the row objects themselves are not put into the heap; the version word of versioned arrays
   and the retry loop of snapshot are not modelled (one thread). *)
From Verif Require Import Lib M_Bag.

Record cheap := MkCheap { ch_strings : list (list Z); ch_released : list nat }.
Definition cheap_empty : cheap := MkCheap [] [].

(* Conversion to short. *)
Definition int16 (x : Z) : Z := let r := x mod 2 ^ 16 in if r <? 2 ^ 15 then r else r - 2 ^ 16.

(* make_column, value_array.hh:94-103: null for an empty string. *)
Definition make_column (h : cheap) (v : list Z) : cheap * option nat :=
  match v with
  | [] => (h, None)
  | _ => (MkCheap (ch_strings h ++ [v]) (ch_released h), Some (length (ch_strings h)))
  end.
(* deallocate_column and deallocate_column_rcu, value_array.hh:105-115. *)
Definition release (h : cheap) (c : option nat) : cheap :=
  match c with None => h | Some p => MkCheap (ch_strings h) (ch_released h ++ [p]) end.
(* The string of a column pointer. *)
Definition load (h : cheap) (p : nat) : option (list Z) :=
  if existsb (Nat.eqb p) (ch_released h) then None else nth_error (ch_strings h) p.

(* class value_array, value_array.hh:56-59; va_cols is the allocated array. *)
Record varr := MkVarr { va_ts : Z; va_ncol : Z; va_cols : list (option nat) }.
(* value_array::value_array, value_array.hh:66-68. *)
Definition va_empty : varr := MkVarr 0 0 [].

(* cols_[i]. *)
Definition cols_at (cols : list (option nat)) (i : Z) : option (option nat) :=
  if 0 <=? i then nth_error cols (Z.to_nat i) else None.
Fixpoint cols_set (cols : list (option nat)) (i : nat) (c : option nat) : option (list (option nat)) :=
  match cols, i with
  | _ :: l, O => Some (c :: l)
  | x :: l, S i' => l' <- cols_set l i' c; Some (x :: l')
  | [], _ => None
  end.
(* col, value_array.hh:78-83; the same text is at value_versioned_array.hh:147-152. ncol_ converts to unsigned. *)
Definition arr_col (h : cheap) (ncol : Z) (cols : list (option nat)) (i : Z) : option (list Z) :=
  if i mod 2 ^ 32 <? ncol mod 2 ^ 32 then
    c <- cols_at cols (i mod 2 ^ 32);
    match c with Some p => load h p | None => Some [] end
  else Some [].
Definition va_col (h : cheap) (r : varr) (i : Z) : option (list Z) := arr_col h (va_ncol r) (va_cols r) i.

(* The loop of update, value_array.cc:41-42. *)
Fixpoint va_store (h : cheap) (cols : list (option nat)) (ch : changes) : option (cheap * list (option nat)) :=
  match ch with
  | [] => Some (h, cols)
  | (idx, v) :: ch' =>
    let '(h', c) := make_column h v in
    cols' <- cols_set cols (Z.to_nat idx) c; va_store h' cols' ch'
  end.
(* last[-2].as_i(): the last column named. An empty change set would read before the array. *)
Definition last_index (ch : changes) : option Z := match rev ch with [] => None | (i, _) :: _ => Some i end.

(* update, value_array.cc:31-44. Columns from 2^31 - 1 on overflow an int. *)
Definition va_update (h : cheap) (r : varr) (ch : changes) (ts : Z) : option (cheap * varr) :=
  last <- last_index ch;
  if 2 ^ 31 - 1 <=? last then None else
  let ncol := Z.max (va_ncol r) (last + 1) in
  if va_ncol r <? 0 then None else
  let cols := firstn (Z.to_nat (va_ncol r)) (va_cols r) ++ repeat None (Z.to_nat (ncol - va_ncol r)) in
  x <- va_store h cols ch;
  let '(h', cols') := x in
  Some (h', MkVarr ts (int16 ncol) cols').

(* create and create1, value_array.hh:117-129. *)
Definition va_create (h : cheap) (ch : changes) (ts : Z) : option (cheap * varr) := va_update h va_empty ch ts.
Definition va_create1 (h : cheap) (v : list Z) (ts : Z) : cheap * varr :=
  let '(h', c) := make_column h v in (h', MkVarr ts 1 [c]).

(* deallocate, deallocate_rcu, value_array.cc:46-56 (the versions for versioned arrays at
   value_versioned_array.cc:88-98 release the same columns). *)
Definition release_all (h : cheap) (ncol : Z) (cols : list (option nat)) : cheap :=
  fold_left release (firstn (Z.to_nat ncol) cols) h.
Definition va_deallocate (h : cheap) (r : varr) : cheap := release_all h (va_ncol r) (va_cols r).

(* deallocate_rcu_after_update, value_array.cc:58-62. *)
Fixpoint va_release_updated (h : cheap) (r : varr) (ch : changes) : option cheap :=
  match ch with
  | [] => Some h
  | (idx, _) :: ch' =>
    if idx <? va_ncol r mod 2 ^ 32 then c <- cols_at (va_cols r) idx; va_release_updated (release h c) r ch'
    else Some h
  end.

(* What apply_put and apply_replace do to a row that is present, kvrow.hh:178-208, 222-242: the new row is made and the
   old one's memory released. *)
Definition va_put (h : cheap) (r : varr) (ch : changes) (ts : Z) : option (cheap * varr) :=
  x <- va_update h r ch ts;
  let '(h', r') := x in
  h'' <- va_release_updated h' r ch;
  Some (h'', r').
Definition va_replace (h : cheap) (r : varr) (v : list Z) (ts : Z) : cheap * varr := va_create1 (va_deallocate h r) v ts.

(* ------------------------------------------------------------------ versioned arrays *)
(* class value_versioned_array, value_versioned_array.hh:114-119, without ver_. *)
Record vver := MkVver { vv_ts : Z; vv_ncol : Z; vv_cap : Z; vv_cols : list (option nat) }.
Definition vv_empty : vver := MkVver 0 0 0 [].
Definition vv_col (h : cheap) (r : vver) (i : Z) : option (list Z) := arr_col h (vv_ncol r) (vv_cols r) i.

(* The loop of update, value_versioned_array.cc:76-80. *)
Fixpoint vv_store (h : cheap) (cols : list (option nat)) (ch : changes) : option (cheap * list (option nat)) :=
  match ch with
  | [] => Some (h, cols)
  | (idx, v) :: ch' =>
    c <- cols_at cols idx;
    let '(h', c') := make_column (release h c) v in
    cols' <- cols_set cols (Z.to_nat idx) c'; vv_store h' cols' ch'
  end.

(* update, value_versioned_array.cc:52-86. The flag of the result: a new row was made (row != this). In place the
   timestamp stays. *)
Definition vv_update (h : cheap) (r : vver) (ch : changes) (ts : Z) (always_copy : bool) : option (cheap * vver * bool) :=
  last <- last_index ch;
  if 2 ^ 31 - 1 <=? last then None else
  let ncol := last + 1 in
  if (vv_cap r <? ncol) || always_copy then
    if (vv_ncol r <? 0) || (ncol <? vv_ncol r) then None else
    let cols := firstn (Z.to_nat (vv_ncol r)) (vv_cols r) ++ repeat None (Z.to_nat (ncol - vv_ncol r)) in
    let ncol_ := int16 ncol in
    x <- vv_store h cols ch;
    let '(h', cols') := x in
    Some (h', MkVver ts ncol_ ncol_ cols', true)
  else
    let cols := if vv_ncol r <? ncol
                then firstn (Z.to_nat (vv_ncol r)) (vv_cols r) ++ repeat None (Z.to_nat (ncol - vv_ncol r)) ++ skipn (Z.to_nat ncol) (vv_cols r)
                else vv_cols r in
    let ncol_ := if vv_ncol r <? ncol then int16 ncol else vv_ncol r in
    x <- vv_store h cols ch;
    let '(h', cols') := x in
    Some (h', MkVver (vv_ts r) ncol_ (vv_cap r) cols', false).

(* create and create1, value_versioned_array.hh:162-174. *)
Definition vv_create (h : cheap) (ch : changes) (ts : Z) : option (cheap * vver) :=
  x <- vv_update h vv_empty ch ts true; let '(h', r, _) := x in Some (h', r).
Definition vv_create1 (h : cheap) (v : list Z) (ts : Z) : cheap * vver :=
  let '(h', c) := make_column h v in (h', MkVver ts 1 1 [c]).
Definition vv_deallocate (h : cheap) (r : vver) : cheap := release_all h (vv_ncol r) (vv_cols r).

(* As va_put and va_replace; deallocate_rcu_after_update releases no column, value_versioned_array.hh:176-178. *)
Definition vv_put (h : cheap) (r : vver) (ch : changes) (ts : Z) : option (cheap * vver) :=
  x <- vv_update h r ch ts false; let '(h', r', _) := x in Some (h', r').
Definition vv_replace (h : cheap) (r : vver) (v : list Z) (ts : Z) : cheap * vver := vv_create1 (vv_deallocate h r) v ts.

(* snapshot, value_versioned_array.cc:29-49: storage is the snapshot row kept by the query object between calls, f the
   requested columns. *)
Definition vv_snapshot (h : cheap) (r : vver) (storage : option vver) (f : list Z) : option (cheap * vver) :=
  let '(h, st) :=
    match storage with
    | Some st => if vv_cap st <? vv_ncol r
                 then (vv_deallocate h st, MkVver (vv_ts r) (vv_ncol r) (vv_ncol r) (repeat None (Z.to_nat (vv_ncol r))))
                 else (h, st)
    | None => (h, MkVver (vv_ts r) (vv_ncol r) (vv_ncol r) (repeat None (Z.to_nat (vv_ncol r))))
    end in
  match f with
  | [i] =>
    c <- cols_at (vv_cols r) i;
    cols <- cols_set (vv_cols st) (Z.to_nat i) c;
    Some (h, MkVver (vv_ts st) (vv_ncol r) (vv_cap st) cols)
  | _ =>
    let n := Z.to_nat (vv_ncol r) in
    Some (h, MkVver (vv_ts st) (vv_ncol r) (vv_cap st) (firstn n (vv_cols r) ++ skipn n (vv_cols st)))
  end.
