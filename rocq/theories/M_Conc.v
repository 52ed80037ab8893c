(* Lookups, insertions and removals of many threads in one layer of the tree, over internodes and leaves. Keys are
   slices (one row per slice in a leaf). A step is one access to a node another thread may see, or what a lock and a
   mark in the version make one: while a node carries a mark, or once its version has changed, a reader may get anything
   out of it (the junk the choices below supply). Memory is sequentially consistent. *)
From Verif Require Import Lib M_Tree M_Stampc.

(* nodeversion, nodeversion.hh:20-203. The counters do not wrap here (the wrapping words are in M_Version.v). *)
Record cver := MkCV { v_lk : bool; v_ins : bool; v_spl : bool; v_del : bool; v_rt : bool; v_ni : nat; v_ns : nat }.
Definition v_dirty (v : cver) : bool := v_ins v || v_spl v.
(* has_changed, nodeversion.hh:72-75: everything but the lock bit is compared. *)
Definition v_same (v w : cver) : bool :=
  Bool.eqb (v_ins v) (v_ins w) && Bool.eqb (v_spl v) (v_spl w) && Bool.eqb (v_del v) (v_del w) && Bool.eqb (v_rt v) (v_rt w)
  && (v_ni v =? v_ni w)%nat && (v_ns v =? v_ns w)%nat.
(* has_split, nodeversion.hh:79-82: the split counter and the bits above it. *)
Definition v_hassplit (v w : cver) : bool :=
  negb (Bool.eqb (v_del v) (v_del w) && Bool.eqb (v_rt v) (v_rt w) && (v_ns v =? v_ns w)%nat).
(* lock, nodeversion.hh:93-109. *)
Definition v_lock (v : cver) : cver := MkCV true (v_ins v) (v_spl v) (v_del v) (v_rt v) (v_ni v) (v_ns v).
(* unlock, nodeversion.hh:132-141; the masks are at nodeversion.hh:339-340. *)
Definition v_unlock (v : cver) : cver :=
  if v_spl v then MkCV false false false (v_del v) false 0 (S (v_ns v))
  else MkCV false false false (v_del v) (v_rt v) (if v_ins v then S (v_ni v) else v_ni v) (v_ns v).
(* mark_insert, mark_split, mark_deleted, mark_nonroot, nodeversion.hh:143-184. *)
Definition v_mins (v : cver) : cver := MkCV (v_lk v) true (v_spl v) (v_del v) (v_rt v) (v_ni v) (v_ns v).
Definition v_mspl (v : cver) : cver := MkCV (v_lk v) (v_ins v) true (v_del v) (v_rt v) (v_ni v) (v_ns v).
Definition v_mdel (v : cver) : cver := MkCV (v_lk v) (v_ins v) true true (v_rt v) (v_ni v) (v_ns v).
Definition v_nonroot (v : cver) : cver := MkCV (v_lk v) (v_ins v) (v_spl v) (v_del v) false (v_ni v) (v_ns v).
Definition v_new (rt : bool) : cver := MkCV false false false false rt 0 0.

(* A node: leaf or internode, masstree_struct.hh:40-97, 99-192, 247-538. lo is ikey_bound, rows what the permutation
   shows, z the slice in slot perm[0] when the permutation is empty. *)
Record cnode := MkCN {
  isl : bool; ver : cver; par : option nat;
  lo : Z; rws : rows; zk : Z; nxt : option nat; prv : option nat;
  keys : list Z; kids : list (option nat); ht : nat }.

Definition with_ver (n : cnode) (v : cver) : cnode := MkCN (isl n) v (par n) (lo n) (rws n) (zk n) (nxt n) (prv n) (keys n) (kids n) (ht n).
Definition with_par (n : cnode) (p : option nat) : cnode := MkCN (isl n) (ver n) p (lo n) (rws n) (zk n) (nxt n) (prv n) (keys n) (kids n) (ht n).
Definition with_rows (n : cnode) (l : rows) (z : Z) : cnode := MkCN (isl n) (ver n) (par n) (lo n) l z (nxt n) (prv n) (keys n) (kids n) (ht n).
Definition with_nxt (n : cnode) (x : option nat) : cnode := MkCN (isl n) (ver n) (par n) (lo n) (rws n) (zk n) x (prv n) (keys n) (kids n) (ht n).
Definition with_prv (n : cnode) (x : option nat) : cnode := MkCN (isl n) (ver n) (par n) (lo n) (rws n) (zk n) (nxt n) x (keys n) (kids n) (ht n).
Definition with_kk (n : cnode) (k : list Z) (c : list (option nat)) : cnode :=
  MkCN (isl n) (ver n) (par n) (lo n) (rws n) (zk n) (nxt n) (prv n) k c (ht n).
Definition new_leaf (v : cver) (l : Z) (r : rows) (z : Z) (nx pv : option nat) : cnode := MkCN true v None l r z nx pv [] [] 0.
Definition new_inter (v : cver) (p : option nat) (k : list Z) (c : list (option nat)) (h : nat) : cnode :=
  MkCN false v p 0 [] 0 None None k c h.

Inductive op := OGet | OPut (w : Z) | ORem.

(* Where a thread stands. y is its key, o its operation, n the node it is at, v the version it holds for n. *)
Inductive pct :=
| Idle
(* reach_leaf, masstree_struct.hh:632-684 *)
| PRoot (y : Z) (o : op) (n : nat)                            (* seeking the root: about to take n's stable version *)
| PUp (y : Z) (o : op) (n : nat)                              (* n was not the root *)
| PIn (y : Z) (o : op) (n : nat) (v : cver) (l : nat) (u : option nat)   (* searching: positions below l are not above y, u's is *)
| PKid (y : Z) (o : op) (n : nat) (v : cver) (c : nat)        (* child pointer read *)
| PChk (y : Z) (o : op) (n : nat) (v : cver) (c : nat) (vc : cver)       (* child's stable version read *)
| PRe (y : Z) (o : op) (n : nat) (v : cver)                   (* n has changed *)
| PLast (y : Z) (o : op) (n : nat) (v vi : cver)              (* internode::stable_last_key_compare, version vi *)
| PLastC (y : Z) (o : op) (n : nat) (v vi : cver) (gt : bool)
(* find_unlocked and find_locked, masstree_get.hh:22-57, 70-118 *)
| PLeaf (y : Z) (o : op) (n : nat) (v : cver)
| PRead (y : Z) (o : op) (n : nat) (v : cver) (r : option Z)  (* the leaf has been searched *)
| PLocked (y : Z) (o : op) (n : nat) (v : cver)
(* advance_to_key, masstree_struct.hh:693-713 *)
| PAdv (y : Z) (o : op) (n : nat) (v : cver)
| PLLast (y : Z) (o : op) (n : nat) (v vi : cver)             (* leaf::stable_last_key_compare *)
| PLLastC (y : Z) (o : op) (n : nat) (v vi : cver) (gt : bool)
| PWalk (y : Z) (o : op) (n : nat) (v : cver)
| PNext (y : Z) (o : op) (x : nat)
| PDone (y : Z) (o : op) (r : option Z)
(* find_insert, finish, finish_remove: the leaf is locked and its version was right *)
| WHave (y : Z) (o : op) (n : nat)
| WUnl (y : Z) (o : op) (n : nat) (r : option Z)
(* make_split, masstree_split.hh:178-297. tg: the leaf that gets the row; n, c: the node split and its new right
   neighbour; sk: xikey[sense]; h: height; st: split_type; p: the parent; nc: next_child and its slice *)
| WUp (y w : Z) (tg n c : nat) (sk : Z) (h st : nat)
| WIn (y w : Z) (tg n c : nat) (sk : Z) (h st p : nat)
| WStrip (y w : Z) (tg n c : nat) (sk : Z) (st : nat) (p : option nat) (nc : option (nat * Z))
| WUnlN (y w : Z) (tg n c : nat) (h st : nat) (p : option nat) (nc : option (nat * Z))
| WUnlC (y w : Z) (tg c : nat) (h st : nat) (p : option nat) (nc : option (nat * Z))
| WNext (y w : Z) (tg : nat) (h st : nat) (p : option nat) (nc : option (nat * Z))
| WReady (y w : Z) (tg : nat)
(* remove_leaf and redirect, masstree_remove.hh:178-276. ik: ikey; rep: replacement; r: the row removed *)
| DMark (y : Z) (r : option Z) (n : nat)
| DUnlink (y : Z) (r : option Z) (n : nat)
| DUp (y : Z) (r : option Z) (n : nat) (ik : Z) (rep : option nat)
| DIn (y : Z) (r : option Z) (n : nat) (ik : Z) (rep : option nat) (p : nat)
| DRed (y : Z) (r : option Z) (n p cur : nat) (ik rik : Z)
| DRedU (y : Z) (r : option Z) (n p cur p2 : nat) (ik rik : Z)
| DRedW (y : Z) (r : option Z) (n p cur p2 : nat) (ik rik : Z)
| DRedE (y : Z) (r : option Z) (n p p2 : nat) (rik : Z)
| DUnl (y : Z) (r : option Z) (n p : nat) (ik : Z)
| DNext (y : Z) (r : option Z) (p : nat) (ik : Z)
| PCrash.                                                     (* a null parent was dereferenced *)

(* misp: some insertion or removal in an internode did not find its node at the position it computed. abnd: some
   insertion was given up after a split (finish(0)). Neither is in the code. *)
Record cst := MkCS { nd : nat -> cnode; fr : nat; rootp : nat; pcs : nat -> pct; misp : bool; abnd : bool }.

Inductive choice :=
| Go
| Start (y : Z) (o : op)
| FixRoot
| Cmp (m : nat) (junk : bool)
| Kid (junk : option nat)
| JunkRow (r : option Z)
| Again                  (* find_locked: the permutation has changed *)
| Mark                   (* mark_insert on a change of modstate *)
| Ins
| Split
| Abandon.

Definition put (s : cst) (a : nat) (n : cnode) : cst := MkCS (setf (nd s) a n) (fr s) (rootp s) (pcs s) (misp s) (abnd s).
Definition go (s : cst) (t : nat) (p : pct) : cst := MkCS (nd s) (fr s) (rootp s) (setf (pcs s) t p) (misp s) (abnd s).
Definition grow (s : cst) : cst := MkCS (nd s) (S (fr s)) (rootp s) (pcs s) (misp s) (abnd s).
Definition misplace (s : cst) (b : bool) : cst := MkCS (nd s) (fr s) (rootp s) (pcs s) (misp s || b) (abnd s).
Definition abandon (s : cst) : cst := MkCS (nd s) (fr s) (rootp s) (pcs s) (misp s) true.
Definition reroot (s : cst) (n : nat) : cst := MkCS (nd s) (fr s) n (pcs s) (misp s) (abnd s).

Definition vput (s : cst) (a : nat) (v : cver) : cst := put s a (with_ver (nd s a) v).
Definition unlock (s : cst) (a : nat) : cst := vput s a (v_unlock (ver (nd s a))).
Definition setpar (s : cst) (a : nat) (p : option nat) : cst := put s a (with_par (nd s a) p).
Definition same (s : cst) (a : nat) (v : cver) : bool := v_same v (ver (nd s a)).

(* key_bound::upper, ksearch.hh:38-61, 120-129. *)
Fixpoint upper (y : Z) (l : list Z) : nat := match l with [] => O | k :: l' => if y <? k then O else S (upper y l') end.
Definition ins_at {A} (i : nat) (x : A) (l : list A) : list A := firstn i l ++ x :: skipn i l.
Definition del_at {A} (i : nat) (l : list A) : list A := firstn i l ++ skipn (S i) l.
Definition set_at {A} (i : nat) (x : A) (l : list A) : list A := firstn i l ++ x :: skipn (S i) l.
Definition is_at (n : nat) (i : nat) (l : list (option nat)) : bool :=
  match nth i l None with Some m => (m =? n)%nat | None => false end.
(* the slice stable_last_key_compare looks at, masstree_struct.hh:586-627 *)
Definition last_gt (n : cnode) (y : Z) : bool :=
  if isl n then (match rws n with [] => zk n | r :: l => fst (last l r) end) <? y
  else match keys n with [] => true | k :: l => last l k <? y end.
Definition ofirst (l : list (option nat)) : option nat := match l with x :: _ => x | [] => None end.
Definition is_none {A} (o : option A) : bool := match o with None => true | Some _ => false end.

(* The search of a node that has been validated goes on there, or in the leaf. *)
Definition enter (s : cst) (y : Z) (o : op) (n : nat) (v : cver) : pct :=
  if isl (nd s n) then PLeaf y o n v else PIn y o n v 0 None.

(* node_base::set_parent on every child of a new internode, masstree_split.hh:163-165. *)
Fixpoint setpars (s : cst) (l : list (option nat)) (p : nat) : cst :=
  match l with [] => s | Some c :: l' => setpars (setpar s c (Some p)) l' p | None :: l' => setpars s l' p end.

(* leaf::split_into and link_split, masstree_split.hh:50-121, btree_leaflink.hh:61-69 (its own steps are in M_Link.v). *)
Definition leaf_split (s : cst) (t : nat) (y w : Z) (n : nat) : cst :=
  let x := nd s n in let c := fr s in
  let sk := split_key (is_none (prv x)) (is_none (nxt x)) y (rws x) in
  let pos := length (filter (fun r => fst r <? y) (rws x)) in
  let right := filter (fun r => sk <=? fst r) (rws x) in
  let st := if y <? sk then 0%nat else if (pos =? length (rws x))%nat && is_none (nxt x) then 2%nat else 1%nat in
  let s1 := put (grow s) c (new_leaf (ver x) sk right sk (nxt x) (Some n)) in
  let s2 := match nxt x with Some b => put s1 b (with_prv (nd s1 b) (Some c)) | None => s1 end in
  let s3 := put s2 n (with_nxt (nd s2 n) (Some c)) in
  go s3 t (WUp y w (if y <? sk then n else c) n c sk 0 st).

(* One pass of make_split's loop in the parent p, masstree_split.hh:206-245. *)
Definition after_in (y w : Z) (tg n c : nat) (sk : Z) (h st : nat) (p : option nat) (nc : option (nat * Z)) : pct :=
  match h with O => WStrip y w tg n c sk st p nc | _ => WUnlN y w tg n c h st p nc end.
Definition new_root (s : cst) (t : nat) (y w : Z) (tg n c : nat) (sk : Z) (h st : nat) : cst :=
  let nn := fr s in
  let s1 := put (grow s) nn (new_inter (v_new true) None [sk] [Some n; Some c] (S h)) in
  let s2 := setpar (setpar s1 c (Some nn)) n (Some nn) in
  go s2 t (after_in y w tg n c sk h st None None).
Definition in_parent (s : cst) (t : nat) (y w : Z) (tg n c : nat) (sk : Z) (h st p : nat) : cst :=
  let x := nd s p in
  let kp := upper sk (keys x) in
  let s0 := misplace (vput s p (v_mins (ver x))) (negb (is_at n kp (kids x))) in
  if (S h <? ht x)%nat then
    let nn := fr s in
    let s1 := put (grow s0) nn (new_inter (v_new false) (Some p) [sk] [Some n; Some c] (S h)) in
    let s2 := put s1 p (with_kk (nd s1 p) (keys x) (set_at kp (Some nn) (kids x))) in
    let s3 := setpar (setpar s2 c (Some nn)) n (Some nn) in
    go s3 t (after_in y w tg n c sk h st (Some p) None)
  else
    let ks := ins_at kp sk (keys x) in
    let cs := ins_at (S kp) (Some c) (kids x) in
    if (length (keys x) <? W)%nat then
      let s1 := put s0 p (with_kk (nd s0 p) ks cs) in
      go (setpar s1 c (Some p)) t (after_in y w tg n c sk h st (Some p) None)
    else
      (* internode::split_into, masstree_split.hh:123-175: the array with the new item, cut at mid *)
      let mid := if (st =? 2)%nat then W else Nat.div (W + 1) 2 in
      let nr := fr s in
      let s1 := setpar s0 c (Some p) in
      let s2 := put s1 p (with_kk (with_ver (nd s1 p) (v_mspl (ver (nd s1 p)))) (firstn mid ks) (firstn (S mid) cs)) in
      let s3 := put (grow s2) nr
        (new_inter (v_nonroot (v_mins (ver x))) None (skipn (S mid) ks) (skipn (S mid) cs) (S h)) in
      go (setpars s3 (skipn (S mid) cs) nr) t (after_in y w tg n c sk h st (Some p) (Some (nr, nth mid ks 0))).

(* One pass of remove_leaf's loop in the parent p, masstree_remove.hh:217-238. *)
Definition out_parent (s : cst) (t : nat) (y : Z) (r : option Z) (n : nat) (ik : Z) (rep : option nat) (p : nat) : cst :=
  let x := nd s p in
  let kp := upper ik (keys x) in
  let s0 := misplace (vput s p (v_mins (ver x))) (negb (is_at n kp (kids x))) in
  let '(ks, cs) := match rep with
    | Some _ => (keys x, set_at kp rep (kids x))
    | None => if (kp =? 0)%nat then (keys x, set_at 0 None (kids x)) else (del_at (kp - 1) (keys x), del_at kp (kids x)) end in
  let s1 := put s0 p (with_kk (nd s0 p) ks cs) in
  let s2 := match rep with Some q => setpar s1 q (Some p) | None => s1 end in
  go s2 t (if (kp <=? 1)%nat && negb (length ks =? 0)%nat && is_none (ofirst cs)
           then DRed y r n p p ik (hd 0 ks) else DUnl y r n p ik).

Definition step (s : cst) (t : nat) (x : choice) : option cst :=
  let stable n (k : cver -> cst) := if v_dirty (ver (nd s n)) then None else Some (k (ver (nd s n))) in
  match pcs s t, x with
  | Idle, Start y o => if (0 <=? y) && (y <? 2 ^ 64) then Some (go s t (PRoot y o (rootp s))) else None
  (* fix_root, masstree_struct.hh:790-799 *)
  | Idle, FixRoot => if v_rt (ver (nd s (rootp s))) then None
                     else Some (match par (nd s (rootp s)) with Some p => reroot s p | None => s end)
  | PRoot y o n, Go => stable n (fun v => go s t (if v_rt v then enter s y o n v else PUp y o n))
  | PUp y o n, Go => Some (go s t (PRoot y o (match par (nd s n) with Some p => p | None => n end)))
  | PIn y o n v l u, Cmp m j =>
      if (l <=? m)%nat && match u with Some b => (m <? b)%nat | None => true end
         && (negb (same s n v) || (m <? length (keys (nd s n)))%nat)
      then let b := if same s n v then nth m (keys (nd s n)) 0 <=? y else j in
           Some (go s t (if b then PIn y o n v (S m) u else PIn y o n v l (Some m)))
      else None
  | PIn y o n v l u, Kid j =>
      if negb (same s n v) || match u with Some b => (b =? l)%nat | None => (l =? length (keys (nd s n)))%nat end
      then let c := if same s n v then nth l (kids (nd s n)) None else j in
           match c with
           | None => Some (go s t (PRoot y o (rootp s)))
           | Some c => if (c <? fr s)%nat then Some (go s t (PKid y o n v c)) else None
           end
      else None
  | PKid y o n v c, Go => stable c (fun vc => go s t (PChk y o n v c vc))
  | PChk y o n v c vc, Go => Some (go s t (if same s n v then enter s y o c vc else PRe y o n v))
  | PRe y o n v, Go => stable n (fun v2 => go s t (if v_hassplit v v2 then PLast y o n v2 v2 else PIn y o n v2 0 None))
  | PLast y o n v vi, Cmp _ j => Some (go s t (PLastC y o n v vi (if same s n vi then last_gt (nd s n) y else j)))
  | PLastC y o n v vi gt, Go =>
      if same s n vi then Some (go s t (if gt then PRoot y o (rootp s) else PIn y o n v 0 None))
      else stable n (fun v2 => go s t (PLast y o n v v2))
  | PLeaf y o n v, JunkRow j =>
      Some (go s t (if v_del v then PRoot y o (rootp s)
                    else PRead y o n v (if same s n v then row_get y (rws (nd s n)) else j)))
  | PRead y OGet n v r, Go => Some (go s t (if same s n v then PDone y OGet r else PAdv y OGet n v))
  | PRead y o n v r, Go => if v_lk (ver (nd s n)) then None
                           else Some (go (vput s n (v_lock (ver (nd s n)))) t (PLocked y o n v))
  | PLocked y o n v, Go => Some (if same s n v then go s t (WHave y o n) else go (unlock s n) t (PAdv y o n v))
  | PLocked y o n v, Again => Some (go (unlock s n) t (PAdv y o n v))
  | PAdv y o n v, Go => stable n (fun v2 => go s t (if v_hassplit v v2 then PLLast y o n v2 v2 else PLeaf y o n v2))
  | PLLast y o n v vi, Cmp _ j => Some (go s t (PLLastC y o n v vi (if same s n vi then last_gt (nd s n) y else j)))
  | PLLastC y o n v vi gt, Go =>
      if same s n vi then Some (go s t (if gt then PWalk y o n v else PLeaf y o n v))
      else stable n (fun v2 => go s t (PLLast y o n v v2))
  | PWalk y o n v, Go =>
      Some (go s t (if v_del v then PLeaf y o n v
                    else match nxt (nd s n) with
                         | Some b => if lo (nd s b) <=? y then PNext y o b else PLeaf y o n v
                         | None => PLeaf y o n v end))
  | PNext y o b, Go => stable b (fun v => go s t (PWalk y o b v))
  | PDone _ _ _, Go => Some (go s t Idle)
  (* masstree_insert.hh:22-59, 128-152, masstree_remove.hh:161-176 *)
  | WHave y (OPut w) n, Mark => Some (vput s n (v_mins (ver (nd s n))))
  | WHave y ORem n, Mark => Some (vput s n (v_mins (ver (nd s n))))
  | WHave y (OPut w) n, Ins =>
      let x := nd s n in
      if is_none (row_get y (rws x)) && negb (length (rws x) <? W)%nat then None
      else Some (go (put s n (with_rows x (row_set y w (rws x)) (zk x))) t (WUnl y (OPut w) n (row_get y (rws x))))
  | WHave y (OPut w) n, Split =>
      let x := nd s n in
      if is_none (row_get y (rws x)) && (W - 1 <=? length (rws x))%nat then Some (leaf_split s t y w n) else None
  | WHave y ORem n, Go =>
      let x := nd s n in
      match row_get y (rws x) with
      | None => Some (go s t (WUnl y ORem n None))
      | Some old =>
          let rs := row_del y (rws x) in
          let s1 := put s n (with_rows x rs (match rs with [] => y | _ => zk x end)) in
          Some (go s1 t (if (length rs =? 0)%nat && negb (is_none (prv x)) then DMark y (Some old) n else WUnl y ORem n (Some old)))
      end
  | WUnl y o n r, Go => Some (go (unlock s n) t (PDone y o r))
  | WUp y w tg n c sk h st, Go =>
      match par (nd s n) with
      | None => Some (new_root s t y w tg n c sk h st)
      (* locked_parent, masstree_struct.hh:552-571: taking the lock and seeing that p is still the parent *)
      | Some p => if v_lk (ver (nd s p)) then None else Some (go (vput s p (v_lock (ver (nd s p)))) t (WIn y w tg n c sk h st p))
      end
  | WIn y w tg n c sk h st p, Go => Some (in_parent s t y w tg n c sk h st p)
  (* masstree_split.hh:251-274 *)
  | WStrip y w tg n c sk st p nc, Go =>
      let x := nd s n in let left := filter (fun r => fst r <? sk) (rws x) in
      Some (go (put s n (with_ver (with_rows x left (match left, rws x with [], r :: _ => fst r | _, _ => zk x end)) (v_mspl (ver x))))
               t (WUnlN y w tg n c 0 st p nc))
  (* masstree_split.hh:276-293 *)
  | WUnlN y w tg n c h st p nc, Go => Some (go (if (n =? tg)%nat then s else unlock s n) t (WUnlC y w tg c h st p nc))
  | WUnlC y w tg c h st p nc, Go => Some (go (if (c =? tg)%nat then s else unlock s c) t (WNext y w tg h st p nc))
  | WNext y w tg h st p nc, Go =>
      match p, nc with
      | Some p, Some (c, sk) => Some (go s t (WUp y w tg p c sk (S h) st))
      | Some p, None => Some (go (unlock s p) t (WReady y w tg))
      | None, _ => Some (go s t (WReady y w tg))
      end
  | WReady y w tg, Go =>
      let x := nd s tg in
      Some (go (put s tg (with_rows x (row_set y w (rws x)) (zk x))) t (WUnl y (OPut w) tg None))
  | WReady y w tg, Abandon => Some (go (abandon s) t (WUnl y OGet tg None))
  | DMark y r n, Go => Some (go (vput s n (v_mdel (ver (nd s n)))) t (DUnlink y r n))
  (* btree_leaflink::unlink, btree_leaflink.hh:76-96 (its own steps are in M_Link.v) *)
  | DUnlink y r n, Go =>
      let x := nd s n in
      let s1 := match prv x with Some a => put s a (with_nxt (nd s a) (nxt x)) | None => s end in
      let s2 := match nxt x with Some b => put s1 b (with_prv (nd s1 b) (prv x)) | None => s1 end in
      Some (go s2 t (DUp y r n (lo x) None))
  | DUp y r n ik rep, Go =>
      match par (nd s n) with
      | None => Some (go s t PCrash)
      | Some p => if v_lk (ver (nd s p)) then None else Some (go (vput s p (v_lock (ver (nd s p)))) t (DIn y r n ik rep p))
      end
  | DIn y r n ik rep p, Go => Some (out_parent s t y r n ik rep p)
  | DRed y r n p cur ik rik, Go =>
      match par (nd s cur) with
      | None => Some (go s t PCrash)
      | Some p2 => if v_lk (ver (nd s p2)) then None
                   else Some (go (vput s p2 (v_lock (ver (nd s p2)))) t (DRedU y r n p cur p2 ik rik))
      end
  | DRedU y r n p cur p2 ik rik, Go => Some (go (if (cur =? p)%nat then s else unlock s cur) t (DRedW y r n p cur p2 ik rik))
  | DRedW y r n p cur p2 ik rik, Go =>
      let x := nd s p2 in
      let kp := upper ik (keys x) in
      let s0 := misplace s (negb (is_at cur kp (kids x))) in
      let s1 := if (kp =? 0)%nat then s0 else put s0 p2 (with_kk x (set_at (kp - 1) rik (keys x)) (kids x)) in
      Some (go s1 t (if (kp =? 0)%nat || ((kp =? 1)%nat && is_none (ofirst (kids x)))
                     then DRed y r n p p2 ik rik else DRedE y r n p p2 rik))
  | DRedE y r n p p2 rik, Go => Some (go (unlock s p2) t (DUnl y r n p rik))
  | DUnl y r n p ik, Go => Some (go (unlock s n) t (DNext y r p ik))
  | DNext y r p ik, Go =>
      let x := nd s p in
      if negb (length (keys x) =? 0)%nat || v_rt (ver x) then Some (go (unlock s p) t (PDone y ORem r))
      else Some (go (put s p (with_kk (with_ver x (v_mdel (ver x))) [] [None])) t (DUp y r p ik (ofirst (kids x))))
  | _, _ => None
  end.

(* basic_table::initialize, masstree_struct.hh:541-545. *)
Definition start_leaf : cnode := new_leaf (v_new true) 0 [] 0 None None.
Definition start : cst := MkCS (fun _ => start_leaf) 1 0 (fun _ => Idle) false false.

Definition cevent := (nat * choice)%type.
Inductive steps : cst -> list (cevent * cst) -> cst -> Prop :=
| Steps_nil s : steps s [] s
| Steps_cons s t x s1 l s2 : step s t x = Some s1 -> steps s1 l s2 -> steps s (((t, x), s1) :: l) s2.
