(* Range scans over the sequential tree: masstree_scan.hh. Definitions only.
   Simplifications: one thread (no version changes during the scan, so the `has_changed` branches and the permutation
   snapshot perm_ are absent; the node's own permutation is read); the visit_leaf callbacks are not modelled (they are
   empty in query_masstree.hh and checkpoint.hh); the visitor does not modify the tree. The key buffer is modelled byte
   by byte, with its size; a write beyond it is the failure BadWrite. *)
From Verif Require Import Lib M_Key M_Permuter M_Search M_Tree.

(* MASSTREE_MAXKEYLEN, configure.ac:336 (default 255), and sizeof(keybuf), masstree_scan.hh:318-321: the union's
   array of 8-byte words covers the maximum length rounded up. *)
Definition maxkeylen : nat := 255%nat.
Definition keybuf_size : nat := 256%nat.

(* memcpy into the buffer that starts at first_. *)
Definition buf_write (b : list Z) (off : nat) (s : list Z) : res (list Z) :=
  if (off + length s <=? length b)%nat then Ok (firstn off b ++ s ++ skipn (off + length s) b) else Err BadWrite.

(* key::assign_store_ikey, masstree_key.hh:202-205. *)
Definition key_store_ikey (ik : Z) (k : mkey) : res mkey :=
  b <- buf_write (k_buf k) (k_off k) (le_bytes 8 (bswap 8 ik)) ;; Ok (MkKey ik (k_len k) b (k_off k)).
(* key::assign_store_suffix, masstree_key.hh:206-209; the returned length is 8 + s.len. *)
Definition key_store_suffix (s : list Z) (k : mkey) : res mkey :=
  b <- buf_write (k_buf k) (k_off k + 8) s ;; Ok (MkKey (k_ikey k) (k_len k) b (k_off k)).
(* key::assign_store_length, masstree_key.hh:210-212. *)
Definition key_store_length (l : Z) (k : mkey) : mkey := MkKey (k_ikey k) l (k_buf k) (k_off k).
(* key::unshift, masstree_key.hh:213-218. *)
Definition key_unshift (k : mkey) : res mkey :=
  _ <- ensure (key_is_shifted k) ;;
  let off := (k_off k - 8)%nat in
  Ok (MkKey (slice_make_comparable_sloppy (firstn off (k_buf k)) (firstn 8 (skipn off (k_buf k)))) 9 (k_buf k) off).
(* key::shift_clear and shift_clear_reverse, masstree_key.hh:219-228. *)
Definition key_shift_clear (k : mkey) : mkey := MkKey 0 0 (k_buf k) (k_off k + 8).
Definition key_shift_clear_reverse (k : mkey) : mkey := MkKey (2 ^ 64 - 1) 9 (k_buf k) (k_off k + 8).
(* key::empty, masstree_key.hh:80-82, and full_string, 185-187. *)
Definition key_empty (k : mkey) : bool := (k_ikey k =? 0) && (k_len k =? 0).
Definition key_full_string (k : mkey) : list Z := firstn (k_off k + Z.to_nat (k_len k)) (k_buf k).

(* forward_scan_helper and reverse_scan_helper, masstree_scan.hh:81-177. *)
Inductive sdir := Fwd | Rev.

(* scanstackelt<P>, masstree_scan.hh:50-58, the scanned key ka and the reverse helper's upper_bound_. node_stack_ holds
   pairs (root_, n_), most recent first. *)
Record sst := MkS { s_root : addr; s_n : addr; s_ki : Z; s_stack : list (addr * addr); s_ka : mkey; s_ub : bool }.
(* The scan_* states, masstree_scan.hh:58; scan_emit carries the entry's value. SInit is the first loop of
   basic_table::scan. *)
Inductive smode := SInit | SEmit (v : Z) | SNext | SUp | SDown | SRetry | SDone.

Definition s_next (d : sdir) (ki : Z) : Z := match d with Fwd => ki + 1 | Rev => ki - 1 end.
(* initial_ksuf_match, lines 82-84 and 126-128. *)
Definition s_ksuf_match (d : sdir) (c : Z) (emit_equal : bool) : bool :=
  (match d with Fwd => 0 <? c | Rev => c <? 0 end) || ((c =? 0) && emit_equal).
(* is_duplicate, lines 85-89 and 129-133. *)
Definition s_duplicate (d : sdir) (ub : bool) (ka : mkey) (ik klx : Z) : bool :=
  match d with
  | Fwd => 0 <=? key_compare (k_ikey ka) (k_len ka) ik klx
  | Rev => (key_compare (k_ikey ka) (k_len ka) ik klx <=? 0) && negb ub
  end.
(* lower and lower_with_position, lines 90-96 and 134-145. *)
Definition s_lower_pos (d : sdir) (ka : mkey) (l : leafn) : res (Z * option nat) :=
  '(i, p) <- lf_lower l ka ;;
  Ok (Z.of_nat i - match d, p with Rev, None => 1 | _, _ => 0 end, p).
Definition s_lower (d : sdir) (ub : bool) (ka : mkey) (l : leafn) : res Z :=
  match d, ub with
  | Rev, true => Ok (Z.of_nat (perm_size (lf_perm l)) - 1)
  | _, _ => '(ki, _) <- s_lower_pos d ka l ;; Ok ki
  end.
(* stable, lines 106-109 (the node itself) and 158-170 (walk right while the key lies beyond the next leaf's bound). *)
Fixpoint s_stable_rev (fuel : nat) (h : heap) (n : addr) (ka : mkey) : res addr :=
  match fuel with
  | O => Err Stuck
  | S f =>
    l <- hleaf h n ;;
    match lf_next l with
    | None => Ok n
    | Some x =>
      lx <- hleaf h x ;;
      let c := icompare (k_ikey ka) (lf_ikey lx 0%nat) in
      if (c <? 0) || ((c =? 0) && (k_len ka =? 0)) then Ok n else s_stable_rev f h x ka
    end
  end.
Definition s_stable (d : sdir) (h : heap) (n : addr) (ka : mkey) : res addr :=
  match d with Fwd => Ok n | Rev => s_stable_rev (hfuel h) h n ka end.
(* advance, lines 102-105 and 152-157. *)
Definition s_advance (d : sdir) (l : leafn) (ka : mkey) : res (option addr * mkey) :=
  match d with
  | Fwd => Ok (lf_next l, ka)
  | Rev => ka1 <- key_store_ikey (lf_ikey l 0%nat) ka ;; Ok (lf_prev l, key_store_length 0 ka1)
  end.

(* scanstackelt::find_initial, masstree_scan.hh:180-236; when it answers scan_down the caller shifts the key and calls
   it again (lines 334-340). *)
Definition s_find_initial (h : heap) (d : sdir) (emit_equal : bool) (st : sst) : res (smode * sst) :=
  let ka := s_ka st in
  n <- reach_leaf h (s_root st) (k_ikey ka) ;;
  l <- hleaf h n ;;
  if lf_deleted l then Err Stuck else
  '(ki, p) <- s_lower_pos d ka l ;;
  match p with
  | None => Ok (SNext, MkS (s_root st) n ki (s_stack st) ka (s_ub st))
  | Some p =>
    let klx := lf_klx l p in
    let skip := Ok (SNext, MkS (s_root st) n (s_next d ki) (s_stack st) ka (s_ub st)) in
    if 127 <? klx then
      r <- lv_layer (lf_lv l p) ;;
      Ok (SInit, MkS r n ki ((s_root st, n) :: s_stack st) (key_shift ka) (s_ub st))
    else if klx =? 64 then
      let suffix := lf_ksuf l p in
      if (maxkeylen <? length suffix)%nat then Err BadWrite
      else if s_ksuf_match d (str_compare suffix (key_suffix ka)) emit_equal then
        ka1 <- key_store_suffix suffix ka ;;
        v <- lv_value (lf_lv l p) ;;
        Ok (SEmit v, MkS (s_root st) n ki (s_stack st) (key_store_length (8 + len suffix) ka1) (s_ub st))
      else skip
    else if emit_equal then
      v <- lv_value (lf_lv l p) ;; Ok (SEmit v, MkS (s_root st) n ki (s_stack st) ka (s_ub st))
    else skip
  end.
(* scanstackelt::find_retry, masstree_scan.hh:238-250. *)
Definition s_find_retry (h : heap) (d : sdir) (st : sst) : res (smode * sst) :=
  n <- reach_leaf h (s_root st) (k_ikey (s_ka st)) ;;
  l <- hleaf h n ;;
  if lf_deleted l then Err Stuck else
  ki <- s_lower d (s_ub st) (s_ka st) l ;;
  Ok (SNext, MkS (s_root st) n ki (s_stack st) (s_ka st) (s_ub st)).
(* scanstackelt::find_next, masstree_scan.hh:252-307; `goto retry_entry` is another SNext step. *)
Definition s_find_next (h : heap) (d : sdir) (st : sst) : res (smode * sst) :=
  l <- hleaf h (s_n st) ;;
  if lf_deleted l then Ok (SRetry, st) else
  if (0 <=? s_ki st) && (s_ki st <? Z.of_nat (perm_size (lf_perm l))) then
    let p := perm_get (lf_perm l) (Z.to_nat (s_ki st)) in
    let ik := lf_ikey l p in
    let klx := lf_klx l p in
    ka1 <- (if klx =? 64 then key_store_suffix (lf_ksuf l p) (s_ka st) else Ok (s_ka st)) ;;
    let keylen := if klx =? 64 then 8 + len (lf_ksuf l p) else klx in
    if s_duplicate d (s_ub st) ka1 ik klx then
      Ok (SNext, MkS (s_root st) (s_n st) (s_next d (s_ki st)) (s_stack st) ka1 (s_ub st))
    else
      ka2 <- key_store_ikey ik ka1 ;;
      if 127 <? klx then
        r <- lv_layer (lf_lv l p) ;;
        Ok (SDown, MkS r (s_n st) (s_ki st) ((s_root st, s_n st) :: s_stack st) ka2 false)
      else
        v <- lv_value (lf_lv l p) ;;
        Ok (SEmit v, MkS (s_root st) (s_n st) (s_ki st) (s_stack st) (key_store_length keylen ka2) false)
  else
    '(o, ka1) <- s_advance d l (s_ka st) ;;
    match o with
    | None => Ok (SUp, MkS (s_root st) (s_n st) (s_ki st) (s_stack st) ka1 false)
    | Some x =>
      n <- s_stable d h x ka1 ;;
      lx <- hleaf h n ;;
      ki <- s_lower d (s_ub st) ka1 lx ;;
      Ok (SNext, MkS (s_root st) n ki (s_stack st) ka1 (s_ub st))
    end.

(* One step of basic_table::scan, masstree_scan.hh:342-383, other than handing an entry to the visitor. *)
Definition s_step (h : heap) (d : sdir) (emit_equal : bool) (c : smode * sst) : res (smode * sst) :=
  let '(m, st) := c in
  match m with
  | SInit => s_find_initial h d emit_equal st
  | SNext => s_find_next h d st
  | SRetry => s_find_retry h d st
  | SDown =>
    s_find_retry h d (MkS (s_root st) (s_n st) (s_ki st) (s_stack st)
      (match d with Fwd => key_shift_clear (s_ka st) | Rev => key_shift_clear_reverse (s_ka st) end)
      (match d with Fwd => s_ub st | Rev => true end))
  | SUp =>
    match s_stack st with
    | [] => Ok (SDone, st)
    | (r, n) :: stk =>
      ka1 <- key_unshift (s_ka st) ;;
      if key_empty ka1 then Ok (SUp, MkS r n (s_ki st) stk ka1 (s_ub st))
      else
        n1 <- s_stable d h n ka1 ;;
        l <- hleaf h n1 ;;
        ki <- s_lower d (s_ub st) ka1 l ;;
        Ok (SNext, MkS r n1 ki stk ka1 (s_ub st))
    end
  | SEmit _ => Ok (SNext, MkS (s_root st) (s_n st) (s_next d (s_ki st)) (s_stack st) (s_ka st) (s_ub st))
  | SDone => Ok c
  end.

(* The loop, with the scanner as a function from its state, the key and the value to its new state and whether to go on;
   the result is the scanner's state and the count returned by scan. *)
Fixpoint s_run {A : Type} (fuel : nat) (h : heap) (d : sdir) (emit_equal : bool) (vis : A -> list Z -> Z -> A * bool)
  (c : smode * sst) (a : A) (count : Z) : res (A * Z) :=
  match fuel with
  | O => Err Stuck
  | S f =>
    match fst c with
    | SDone => Ok (a, count)
    | SEmit v =>
      let '(a', go) := vis a (key_full_string (s_ka (snd c))) v in
      if go then c' <- s_step h d emit_equal c ;; s_run f h d emit_equal vis c' a' (count + 1)
      else Ok (a', count + 1)
    | _ => c' <- s_step h d emit_equal c ;; s_run f h d emit_equal vis c' a count
    end
  end.

(* basic_table::scan / rscan, masstree_scan.hh:309-403. mem: what the key buffer holds beforehand (it is not
   initialised by the code). *)
Definition tree_scan {A : Type} (fuel : nat) (h : heap) (root : addr) (d : sdir) (first : list Z) (emit_first : bool)
  (mem : list Z) (vis : A -> list Z -> Z -> A * bool) (a : A) : res (A * Z) :=
  _ <- ensure (length first <=? keybuf_size)%nat ;;
  b <- buf_write mem 0 first ;;
  let ka := MkKey (slice_make_comparable first) (len first) b 0 in
  s_run fuel h d emit_first vis (SInit, MkS root 0%nat 0 [] ka false) a 0.
