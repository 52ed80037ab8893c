(* Checkpoints of the table: checkpoint.hh, checkpoint.cc, query_masstree.cc findpivots, mtd.cc conc_checkpointer and
   read_checkpoint. Definitions only.
   Simplifications: no update runs while a checkpoint is taken, so the has_changed branches are absent; each record is
   inserted by a loading thread in one step; rows are value_bag rows; a value in the tree is the address of a row in a row
   memory; files are written and read back as they are. *)
From Verif Require Import Lib M_Key M_Permuter M_Tree M_Scan M_Msgpack M_Kvio M_Bag.

(* ---- choosing the boundaries ---- *)
(* findpv, query_masstree.cc:93-150, from the root of the top layer on (the first loop is climb). The offsets are C ints;
   with fewer than 2^13 threads no product overflows. An internode's null child is dereferenced on the next iteration
   (line 107): BadPtr. A key index below 0 would be read outside the node: BadAssert. *)
Fixpoint findpv (fuel : nat) (h : heap) (a : addr) (nbranch branchid pvi npv : Z) : res (list Z) :=
  match fuel with
  | O => Err Stuck
  | S f =>
    n <- hget h a ;;
    let size := match n with NLeaf l => Z.of_nat (perm_size (lf_perm l)) | NInter i => Z.of_nat (in_nkeys i) + 1 end in
    if size =? 0 then Ok []
    else
      let total := nbranch * size in
      let first := branchid * size in
      let off := pvi * total / npv - first in
      match n with
      | NInter i =>
        if total <? npv then
          let o := Z.min (Z.max off 0) (size - 1) in
          c <- deref (in_child i (Z.to_nat o)) ;; findpv f h c total (first + o) pvi npv
        else
          let o := Z.min (Z.max off 0) (size - 2) in
          _ <- ensure (0 <=? o) ;; Ok (unparse_comparable 8 (in_keys i (Z.to_nat o)))
      | NLeaf l =>
        let o := Z.min (Z.max off 0) (size - 1) in
        Ok (unparse_comparable 8 (lf_ikey l (perm_get (lf_perm l) (Z.to_nat o))))
      end
  end.
(* findpivots, query_masstree.cc:154-163, called with one more pivot than there are threads (mtd.cc:1654). The last pivot
   is not used (mtd.cc:1662) and is left out: one start key for each thread. *)
Definition findpivots (h : heap) (root : addr) (nthreads : nat) : res (list (list Z)) :=
  r <- climb (hfuel h) h root ;;
  (fix go (l : list nat) : res (list (list Z)) :=
     match l with
     | [] => Ok []
     | i :: l' => p <- (if (i =? 0)%nat then Ok [] else findpv (hfuel h) h r 1 0 (Z.of_nat i) (Z.of_nat nthreads)) ;; ps <- go l' ;; Ok (p :: ps)
     end) (seq 0 nthreads).

(* ---- writing ---- *)
(* ckstate::visit_value, checkpoint.cc:20-30; row_is_marker, kvproto.hh:52-55. None: undefined behaviour in the row or the
   buffer. An empty endkey is false as a condition (string_base.hh:133-135). *)
Definition ck_ops (key : list Z) (ts : Z) (s : list Z) : list kop :=
  [KReserve (5 + len key) (write_string key); KReserve 9 (write_wide_u ts); KReserve (5 + len s) (write_string s)].
Definition ck_visit (junk : nat -> Z) (rows : Z -> bag) (endkey : list Z) (c : option (kvout * Z)) (key : list Z) (v : Z) : option (kvout * Z) * bool :=
  match c with
  | None => (None, false)
  | Some (kv, count) =>
    if negb (len endkey =? 0) && (0 <=? str_compare key endkey) then (c, false)
    else if Z.odd (bag_timestamp (rows v)) then (c, true)
    else match bag_checkpoint_write (rows v) with
         | None => (None, false)
         | Some s =>
           match krun junk [] (ck_ops key (bag_timestamp (rows v)) s) kv with
           | KOk (kv', _) => (Some (kv', count + 1), true)
           | KErr _ => (None, false)
           end
         end
  end.
(* The names of the header's members, mtd.cc:1512-1514. *)
Definition n_generation : list Z := [103; 101; 110; 101; 114; 97; 116; 105; 111; 110].
Definition n_size : list Z := [115; 105; 122; 101].
Definition n_firstkey : list Z := [102; 105; 114; 115; 116; 107; 101; 121].
(* writecheckpoint, mtd.cc:1500-1532: the file. *)
Definition ck_header (gen count : Z) (startkey : list Z) : json := JObj [(n_generation, JUns gen); (n_size, JUns count); (n_firstkey, JStr startkey)].
Definition ck_file (gen count : Z) (startkey : list Z) (kv : kvout) : list Z := unparse (ck_header gen count startkey) ++ kv_held kv.
(* What uninitialised memory holds: bytes added by realloc, the new buffer of 256 bytes (kvio.cc:46-57), the scan's key buffer. *)
Record scratch := MkScr { sc_junk : nat -> Z; sc_buf : list Z; sc_key : list Z }.
(* conc_filecheckpoint, mtd.cc:1534-1548. *)
Definition ck_part (fuel : nat) (e : scratch) (gen : Z) (t : table) (rows : Z -> bag) (startkey endkey : list Z) : option (list Z) :=
  match tree_scan fuel (t_heap t) (t_root t) Fwd startkey true (sc_key e) (ck_visit (sc_junk e) rows endkey) (Some (new_kvout false (sc_buf e), 0)) with
  | Ok (Some (kv, count), _) => Some (ck_file gen count startkey kv)
  | _ => None
  end.
(* All threads' files: the range of a thread ends where the next one's starts, mtd.cc:1660-1663. e: the scratch memory of
   each thread. *)
Fixpoint ck_files (fuel : nat) (e : nat -> scratch) (i : nat) (gen : Z) (t : table) (rows : Z -> bag) (starts : list (list Z)) : option (list (list Z)) :=
  match starts with
  | [] => Some []
  | s :: rest =>
    match ck_part fuel (e i) gen t rows s (hd [] rest), ck_files fuel e (S i) gen t rows rest with
    | Some f, Some fs => Some (f :: fs)
    | _, _ => None
    end
  end.

(* ---- loading ---- *)
(* The table under construction, the row memory, the next row address, and the keys that were already there
   (masstree_invariant(!found), checkpoint.hh:50, if it is compiled in). *)
Record ldst := MkLd { ld_table : table; ld_rows : Z -> bag; ld_next : Z; ld_again : list (list Z) }.
Definition ld_init : ldst := MkLd table_init (fun _ => bag_empty) 0 [].
(* ckstate::insert, checkpoint.hh:41-54. None: an assertion fails or bytes outside the file are read. *)
Definition ck_insert (st : ldst) (s : list Z) : option (ldst * list Z) :=
  match read_str s with
  | None => None
  | Some (key, s1) =>
    match read_int c_ulong s1 with
    | None => None
    | Some (ts, s2) =>
      match read_str s2 with
      | None => None
      | Some (v, s3) =>
        match tstep (ld_table st) (OPut key (ld_next st)) with
        | Err _ => None
        | Ok (t, old) =>
          Some (MkLd t (fun a => if a =? ld_next st then bag_checkpoint_read v ts else ld_rows st a) (ld_next st + 1)
                  (match old with Some _ => key :: ld_again st | None => ld_again st end), s3)
        end
      end
    end
  end.
(* The first part of read_checkpoint, mtd.cc:1275-1297: generation, number of records, and the rest of the file. A number is
   taken from either integer type (Json::is_i, json.hh:1685-1690). *)
Definition jint (o : option json) : option Z := match o with Some (JInt x) | Some (JUns x) => Some x | _ => None end.
Definition ck_open (file : list Z) : option (Z * Z * list Z) :=
  match parser_read_json file with
  | RRet p s =>
    match sp_json p with
    | JObj l => match jint (obj_get n_generation l), jint (obj_get n_size l) with Some g, Some n => Some (g, n, s) | _, _ => None end
    | _ => None
    end
  | _ => None
  end.
(* recovercheckpoint for each of the server's threads, mtd.cc:1330-1339: a missing file gives generation 0 (mtd.cc:1278-1282),
   and every generation must be the one in kvd-ckp-gen. The threads' remaining records. *)
Fixpoint ck_opens (gen : Z) (nthreads : nat) (files : list (list Z)) : option (list (Z * list Z)) :=
  match nthreads with
  | O => Some []
  | S m =>
    match (match files with [] => Some (0, 0, []) | f :: _ => ck_open f end), ck_opens gen m (tl files) with
    | Some (g, n, s), Some l => if g =? gen then Some ((n, s) :: l) else None
    | _, _ => None
    end
  end.
(* One thread inserts one record, mtd.cc:1300-1301; a thread that has none left does nothing. *)
Definition ld_step (i : nat) (c : ldst * list (Z * list Z)) : option (ldst * list (Z * list Z)) :=
  let '(st, l) := c in
  match nth_error l i with
  | None => Some c
  | Some (n, s) =>
    if n =? 0 then Some c
    else match ck_insert st s with
         | None => None
         | Some (st', s') => Some (st', firstn i l ++ (n - 1, s') :: skipn (S i) l)
         end
  end.
Fixpoint ld_run (sched : list nat) (c : ldst * list (Z * list Z)) : option (ldst * list (Z * list Z)) :=
  match sched with [] => Some c | i :: sched' => match ld_step i c with Some c' => ld_run sched' c' | None => None end end.
(* A restart with some number of threads: any interleaving of their insertions. *)
Definition ck_load (gen : Z) (nthreads : nat) (files : list (list Z)) (sched : list nat) : option (ldst * list (Z * list Z)) :=
  match ck_opens gen nthreads files with Some l => ld_run sched (ld_init, l) | None => None end.
Definition finished (l : list (Z * list Z)) : Prop := Forall (fun x => fst x = 0) l.
