(* Sequential model of the Masstree itself: nodes, lookup, insertion with splits and new layers, removal with
   node deletion, layer collection. Definitions only.
   Simplifications that hold for the whole file:
   - one thread: stable versions, has_changed, locks, fences and the retry paths they trigger are absent (they are
     modelled separately in M_Version.v and the concurrency files). A `goto retry` that would repeat the same
     sequential computation for ever is the failure Stuck.
   - arrays are functions on slot numbers; pointers are option nat into a heap; memory handed to deallocate_rcu
     stays allocated (reclamation is modelled separately).
   - suffix storage maps a slot to its string (M_Stringbag.v models the container).
   - phantom epochs, debug fields, prefetching, cursor bookkeeping for observers (original_v_, new_nodes_) absent.
   - leaf and internode width are 15, the default of nodeparams (masstree.hh:29), bound_method_binary (line 34). *)
From Verif Require Import Lib M_Key M_Permuter M_Search.

(* ---- results ---- *)
(* Stuck: an endless loop; BadPtr: null or wrongly typed pointer dereferenced; BadAssert: a masstree_invariant,
   masstree_precondition or assert fails; BadWrite: a write outside a buffer. *)
Inductive err := Stuck | BadPtr | BadAssert | BadWrite.
Inductive res (A : Type) := Ok (a : A) | Err (e : err).
Arguments Ok {A}. Arguments Err {A}.
Definition bind {A B} (m : res A) (f : A -> res B) : res B := match m with Ok a => f a | Err e => Err e end.
Notation "x <- m ;; k" := (bind m (fun x => k)) (at level 61, m at next level, right associativity).
Notation "' p <- m ;; k" := (bind m (fun p => k)) (at level 61, p pattern, m at next level, right associativity).
Definition ensure (b : bool) : res unit := if b then Ok tt else Err BadAssert.
Definition deref {A} (o : option A) : res A := match o with Some a => Ok a | None => Err BadPtr end.

(* ---- nodes ---- *)
Definition W : nat := 15%nat.
Definition addr := nat.

(* leafvalue<P>, masstree_struct.hh:195-245: empty, a user value or a layer pointer. The C++ union does not record
   which; here reading the wrong one is the failure BadPtr. *)
Inductive lval := LvEmpty | LvVal (v : Z) | LvLayer (p : addr).
(* leaf<P>::modstate_*, masstree_struct.hh:264-266. *)
Inductive modst := MsInsert | MsRemove | MsDeletedLayer.

(* leaf<P>, masstree_struct.hh:248-284; lf_root and lf_deleted are bits of its version word. *)
Record leafn := MkLeaf {
  lf_root : bool; lf_deleted : bool; lf_mod : modst; lf_perm : Z;
  lf_klx : nat -> Z; lf_ikey : nat -> Z; lf_lv : nat -> lval; lf_ksuf : nat -> list Z;
  lf_next : option addr; lf_prev : option addr; lf_parent : option addr }.
(* internode<P>, masstree_struct.hh:100-118. *)
Record inode := MkInter {
  in_root : bool; in_deleted : bool; in_nkeys : nat; in_height : nat;
  in_keys : nat -> Z; in_child : nat -> option addr; in_parent : option addr }.
Inductive node := NLeaf (l : leafn) | NInter (i : inode).

Definition upd {A} (f : nat -> A) (i : nat) (v : A) : nat -> A := fun j => if Nat.eqb j i then v else f j.

(* The heap: allocated nodes and the next fresh address. *)
Record heap := MkHeap { hp_node : nat -> option node; hp_next : nat }.
Definition hget (h : heap) (a : addr) : res node := deref (hp_node h a).
Definition hset (h : heap) (a : addr) (n : node) : heap := MkHeap (upd (hp_node h) a (Some n)) (hp_next h).
Definition halloc (h : heap) (n : node) : addr * heap :=
  (hp_next h, MkHeap (upd (hp_node h) (hp_next h) (Some n)) (S (hp_next h))).
(* static_cast to leaf_type / internode_type. *)
Definition hleaf (h : heap) (a : addr) : res leafn :=
  n <- hget h a ;; match n with NLeaf l => Ok l | NInter _ => Err BadPtr end.
Definition hinter (h : heap) (a : addr) : res inode :=
  n <- hget h a ;; match n with NInter i => Ok i | NLeaf _ => Err BadPtr end.

(* ---- field updates ---- *)
Definition lf_set_root b l := MkLeaf b (lf_deleted l) (lf_mod l) (lf_perm l) (lf_klx l) (lf_ikey l) (lf_lv l) (lf_ksuf l) (lf_next l) (lf_prev l) (lf_parent l).
Definition lf_set_deleted b l := MkLeaf (lf_root l) b (lf_mod l) (lf_perm l) (lf_klx l) (lf_ikey l) (lf_lv l) (lf_ksuf l) (lf_next l) (lf_prev l) (lf_parent l).
Definition lf_set_mod m l := MkLeaf (lf_root l) (lf_deleted l) m (lf_perm l) (lf_klx l) (lf_ikey l) (lf_lv l) (lf_ksuf l) (lf_next l) (lf_prev l) (lf_parent l).
Definition lf_set_perm p l := MkLeaf (lf_root l) (lf_deleted l) (lf_mod l) p (lf_klx l) (lf_ikey l) (lf_lv l) (lf_ksuf l) (lf_next l) (lf_prev l) (lf_parent l).
Definition lf_set_lv s v l := MkLeaf (lf_root l) (lf_deleted l) (lf_mod l) (lf_perm l) (lf_klx l) (lf_ikey l) (upd (lf_lv l) s v) (lf_ksuf l) (lf_next l) (lf_prev l) (lf_parent l).
Definition lf_set_klx s k l := MkLeaf (lf_root l) (lf_deleted l) (lf_mod l) (lf_perm l) (upd (lf_klx l) s k) (lf_ikey l) (lf_lv l) (lf_ksuf l) (lf_next l) (lf_prev l) (lf_parent l).
Definition lf_set_next n l := MkLeaf (lf_root l) (lf_deleted l) (lf_mod l) (lf_perm l) (lf_klx l) (lf_ikey l) (lf_lv l) (lf_ksuf l) n (lf_prev l) (lf_parent l).
Definition lf_set_prev n l := MkLeaf (lf_root l) (lf_deleted l) (lf_mod l) (lf_perm l) (lf_klx l) (lf_ikey l) (lf_lv l) (lf_ksuf l) (lf_next l) n (lf_parent l).
Definition lf_set_parent n l := MkLeaf (lf_root l) (lf_deleted l) (lf_mod l) (lf_perm l) (lf_klx l) (lf_ikey l) (lf_lv l) (lf_ksuf l) (lf_next l) (lf_prev l) n.
(* One slot's key, value and suffix at once. *)
Definition lf_set_slot s ik kl v sf l := MkLeaf (lf_root l) (lf_deleted l) (lf_mod l) (lf_perm l) (upd (lf_klx l) s kl) (upd (lf_ikey l) s ik) (upd (lf_lv l) s v) (upd (lf_ksuf l) s sf) (lf_next l) (lf_prev l) (lf_parent l).
Definition in_set_root b i := MkInter b (in_deleted i) (in_nkeys i) (in_height i) (in_keys i) (in_child i) (in_parent i).
Definition in_set_deleted b i := MkInter (in_root i) b (in_nkeys i) (in_height i) (in_keys i) (in_child i) (in_parent i).
Definition in_set_nkeys n i := MkInter (in_root i) (in_deleted i) n (in_height i) (in_keys i) (in_child i) (in_parent i).
Definition in_set_arrays k c i := MkInter (in_root i) (in_deleted i) (in_nkeys i) (in_height i) k c (in_parent i).
Definition in_set_child s c i := MkInter (in_root i) (in_deleted i) (in_nkeys i) (in_height i) (in_keys i) (upd (in_child i) s c) (in_parent i).
Definition in_set_key s k i := MkInter (in_root i) (in_deleted i) (in_nkeys i) (in_height i) (upd (in_keys i) s k) (in_child i) (in_parent i).
Definition in_set_parent p i := MkInter (in_root i) (in_deleted i) (in_nkeys i) (in_height i) (in_keys i) (in_child i) p.

(* ---- node_base ---- *)
(* node_base::parent, masstree_struct.hh:59-66. *)
Definition n_parent (n : node) : option addr := match n with NLeaf l => lf_parent l | NInter i => in_parent i end.
Definition n_is_root (n : node) : bool := match n with NLeaf l => lf_root l | NInter i => in_root i end.
Definition n_deleted (n : node) : bool := match n with NLeaf l => lf_deleted l | NInter i => in_deleted i end.
(* node_base::set_parent, masstree_struct.hh:73-78. *)
Definition n_set_parent (p : option addr) (n : node) : node :=
  match n with NLeaf l => NLeaf (lf_set_parent p l) | NInter i => NInter (in_set_parent p i) end.
Definition set_parent (h : heap) (a : addr) (p : option addr) : res heap :=
  n <- hget h a ;; Ok (hset h a (n_set_parent p n)).
(* node_base::maybe_parent, masstree_struct.hh:83-86. *)
Definition maybe_parent (h : heap) (a : addr) : res addr :=
  n <- hget h a ;; Ok (match n_parent n with Some p => p | None => a end).
(* node_base::make_layer_root, masstree_struct.hh:79-82. *)
Definition make_layer_root (h : heap) (a : addr) : res heap :=
  n <- hget h a ;;
  Ok (hset h a (match n with NLeaf l => NLeaf (lf_set_root true (lf_set_parent None l))
                           | NInter i => NInter (in_set_root true (in_set_parent None i)) end)).

(* internode bound_type::upper(ikey, internode): binary search, ksearch.hh:38-55, over the first nkeys_ keys. *)
Definition in_upper (i : inode) (ik : Z) : res nat :=
  match upper_bin (fun p => p) (fun p => icompare ik (in_keys i p)) (S (in_nkeys i)) 0 (in_nkeys i) with
  | Some k => Ok k | None => Err Stuck
  end.
(* leaf bound_type::lower(ka, leaf): binary search, ksearch.hh:63-81. *)
Definition lf_lower (l : leafn) (k : mkey) : res (nat * option nat) :=
  match leaf_lower_binary (lf_perm l) (lf_ikey l) (lf_klx l) k with Some r => Ok r | None => Err Stuck end.

(* Fuel for walks up or down one tree: more than the number of nodes. *)
Definition hfuel (h : heap) : nat := S (hp_next h).

(* reach_leaf, first loop: masstree_struct.hh:641-652. *)
Fixpoint climb (fuel : nat) (h : heap) (a : addr) : res addr :=
  match fuel with
  | O => Err Stuck
  | S f =>
    n <- hget h a ;;
    if n_is_root n then Ok a
    else p <- maybe_parent h a ;; climb f h p
  end.
(* reach_leaf, second loop: masstree_struct.hh:654-682. A null child sends the code back to the start of the same
   walk (line 662-664). *)
Fixpoint descend (fuel : nat) (h : heap) (a : addr) (ik : Z) : res addr :=
  match fuel with
  | O => Err Stuck
  | S f =>
    n <- hget h a ;;
    match n with
    | NLeaf _ => Ok a
    | NInter i =>
      kp <- in_upper i ik ;;
      match in_child i kp with
      | None => Err Stuck
      | Some c => descend f h c ik
      end
    end
  end.
Definition reach_leaf (h : heap) (root : addr) (ik : Z) : res addr :=
  r <- climb (hfuel h) h root ;; descend (hfuel h) h r ik.

(* leaf::ksuf_equals via memcmp; the word-wise comparison equals_sloppy is proved equal to it (C06). *)
Definition ksuf_same (a b : list Z) : bool := (len a =? len b) && memcmp_eq (length a) a b.
(* leaf::ksuf_matches, masstree_struct.hh:411-420: 1 match, 0 no match, -8 layer. *)
Definition ksuf_matches (l : leafn) (p : nat) (ka : mkey) : Z :=
  if lf_klx l p <? 64 then 1
  else if lf_klx l p =? 128 then -8
  else if ksuf_same (lf_ksuf l p) (key_suffix ka) then 1 else 0.
Definition lv_layer (v : lval) : res addr := match v with LvLayer p => Ok p | _ => Err BadPtr end.
Definition lv_value (v : lval) : res Z := match v with LvVal v => Ok v | _ => Err BadPtr end.

(* ---- lookup ---- *)
(* unlocked_tcursor::find_unlocked, masstree_get.hh:23-57, one iteration per layer. *)
Fixpoint find_unlocked (fuel : nat) (h : heap) (root : addr) (ka : mkey) : res (option lval) :=
  match fuel with
  | O => Err Stuck
  | S f =>
    a <- reach_leaf h root (k_ikey ka) ;;
    l <- hleaf h a ;;
    if lf_deleted l then Err Stuck else
    '(i, p) <- lf_lower l ka ;;
    match p with
    | None => Ok None
    | Some p =>
      let m := ksuf_matches l p ka in
      if m <? 0 then r <- lv_layer (lf_lv l p) ;; find_unlocked f h r (key_shift ka)
      else Ok (if m =? 0 then None else Some (lf_lv l p))
    end
  end.
(* basic_table::get, masstree_get.hh:60-68. *)
Definition tree_get (h : heap) (root : addr) (k : list Z) : res (option Z) :=
  o <- find_unlocked (S (length k)) h root (key_make k) ;;
  match o with None => Ok None | Some lv => v <- lv_value lv ;; Ok (Some v) end.

(* ---- the locking cursor ---- *)
(* tcursor<P>, masstree_tcursor.hh:164-173; cu_p is kx_.p (None for -1). *)
Record cursor := MkCur { cu_n : addr; cu_ka : mkey; cu_i : nat; cu_p : option nat; cu_root : addr; cu_state : Z }.

(* tcursor::find_locked, masstree_get.hh:71-114. A layer pointer that is not a root is replaced by its parent. *)
Fixpoint find_locked (fuel : nat) (h : heap) (root0 root : addr) (ka : mkey) : res (heap * cursor) :=
  match fuel with
  | O => Err Stuck
  | S f =>
    a <- reach_leaf h root (k_ikey ka) ;;
    l <- hleaf h a ;;
    if lf_deleted l then Err Stuck else
    '(i, p) <- lf_lower l ka ;;
    let state := match p with Some p => ksuf_matches l p ka | None => 0 end in
    match p, state <? 0 with
    | Some p, true =>
      r <- lv_layer (lf_lv l p) ;;
      nr <- hget h r ;;
      if n_is_root nr then find_locked f h root0 r (key_shift ka)
      else
        r' <- maybe_parent h r ;;
        find_locked f (hset h a (NLeaf (lf_set_lv p (LvLayer r') l))) root0 r' (key_shift ka)
    | _, _ =>
      match lf_mod l with
      | MsDeletedLayer => find_locked f h root0 root0 (key_unshift_all ka)
      | _ => Ok (h, MkCur a ka i p root0 state)
      end
    end
  end.

(* ---- leaf slot assignment ---- *)
(* leaf::assign and assign_initialize(p, ka), masstree_struct.hh:497-516. *)
Definition leaf_assign (p : nat) (ka : mkey) (l : leafn) : leafn :=
  if key_has_suffix ka then lf_set_slot p (k_ikey ka) 64 LvEmpty (key_suffix ka) l
  else lf_set_slot p (k_ikey ka) (k_len ka) LvEmpty (lf_ksuf l p) l.
(* leaf::assign_initialize(p, x, xp), masstree_struct.hh:517-524. *)
Definition leaf_assign_from (p : nat) (x : leafn) (xp : nat) (l : leafn) : leafn :=
  lf_set_slot p (lf_ikey x xp) (lf_klx x xp) (lf_lv x xp)
    (if lf_klx x xp =? 64 then lf_ksuf x xp else lf_ksuf l p) l.
(* leaf::assign_initialize_for_layer, masstree_struct.hh:525-529. *)
Definition leaf_assign_layer (p : nat) (ka : mkey) (l : leafn) : res leafn :=
  _ <- ensure (key_has_suffix ka) ;;
  Ok (lf_set_slot p (k_ikey ka) 128 (lf_lv l p) (lf_ksuf l p) l).

(* leaf::make and make_root, masstree_struct.hh:285-315. Uninitialised fields are zero. *)
Definition leaf_fresh : leafn :=
  MkLeaf false false MsInsert (perm_empty W) (fun _ => 0) (fun _ => 0) (fun _ => LvEmpty) (fun _ => []) None None None.
Definition leaf_root : leafn := lf_set_root true leaf_fresh.
(* internode::internode, masstree_struct.hh:116-118. *)
Definition inter_fresh (height : nat) : inode :=
  MkInter false false 0 height (fun _ => 0) (fun _ => None) None.

(* ---- new layers ---- *)
(* The twig loop of make_new_layer, masstree_insert.hh:69-83. [tail] is twig_tail when it is not n_; the result is
   (heap, twig_head if any, twig_tail if any, oka, ka, kcmp). *)
Fixpoint twig (fuel : nat) (h : heap) (head tail : option addr) (oka ka : mkey)
  : res (heap * option addr * option addr * mkey * mkey * Z) :=
  match fuel with
  | O => Err Stuck
  | S f =>
    let kcmp := key_compare_key oka ka in
    if kcmp =? 0 then
      nl <- leaf_assign_layer 0 oka leaf_root ;;
      let '(a, h1) := halloc h (NLeaf (lf_set_perm (perm_make_sorted W 1) nl)) in
      h2 <- match tail with
            | Some t => tl <- hleaf h1 t ;; Ok (hset h1 t (NLeaf (lf_set_lv 0 (LvLayer a) tl)))
            | None => Ok h1
            end ;;
      twig f h2 (match head with Some _ => head | None => Some a end) (Some a) (key_shift oka) (key_shift ka)
    else Ok (h, head, tail, oka, ka, kcmp)
  end.

(* tcursor::make_new_layer, masstree_insert.hh:62-126. *)
Definition make_new_layer (h : heap) (cu : cursor) : res (heap * cursor) :=
  p <- deref (cu_p cu) ;;
  l <- hleaf h (cu_n cu) ;;
  let oka := key_make (lf_ksuf l p) in
  let ka := key_shift (cu_ka cu) in
  '(h1, head, tail, oka', ka', kcmp) <- twig (S (length (lf_ksuf l p))) h None None oka ka ;;
  let nl0 := leaf_assign 1 (if kcmp <? 0 then ka' else oka')
               (leaf_assign 0 (if kcmp <? 0 then oka' else ka') leaf_root) in
  let nl1 := lf_set_lv (if 0 <? kcmp then 1%nat else 0%nat) (lf_lv l p) nl0 in
  let nl := lf_set_perm (if kcmp <? 0 then perm_make_sorted W 1
                         else perm_remove_to_back W (perm_make_sorted W 2) 0) nl1 in
  let '(a, h2) := halloc h1 (NLeaf nl) in
  h3 <- match tail with
        | Some t => tl <- hleaf h2 t ;; Ok (hset h2 t (NLeaf (lf_set_lv 0 (LvLayer a) tl)))
        | None => Ok h2
        end ;;
  l3 <- hleaf h3 (cu_n cu) ;;
  let l4 := lf_set_klx p 128 (lf_set_lv p (LvLayer (match head with Some x => x | None => a end)) l3) in
  let kx := if kcmp <? 0 then 1%nat else 0%nat in
  Ok (hset h3 (cu_n cu) (NLeaf l4), MkCur a ka' kx (Some kx) (cu_root cu) (cu_state cu)).

(* ---- splitting ---- *)
(* leaf::ikey_after_insert, masstree_split.hh:24-36. *)
Definition ikey_after_insert (l : leafn) (perm : Z) (i : nat) (ki : nat) (ik : Z) : Z :=
  if (i <? ki)%nat then lf_ikey l (perm_get perm i)
  else if (i =? ki)%nat then ik
  else lf_ikey l (perm_get perm (i - 1)).

(* The search for a split point between different slices, masstree_split.hh:85-97: midl and midr move apart. The
   code's midl may be negative; here the left side is [mid - 1 - d], absent when d is too large. *)
Fixpoint split_adjust (fuel : nat) (key : nat -> Z) (mid_ikey : Z) (width midl1 midr : nat) : res nat :=
  match fuel with
  | O => Err Stuck
  | S f =>
    if (midr <=? width)%nat && negb (mid_ikey =? key midr) then Ok midr
    else if (1 <=? midl1)%nat && negb (mid_ikey =? key (midl1 - 1)%nat) then Ok midl1
    else split_adjust f key mid_ikey width (midl1 - 1) (S midr)
  end.

(* The moving loop, masstree_split.hh:101-108: k items left, x the post-insertion position, pv the remaining
   permutation nibbles. *)
Fixpoint move_items (k : nat) (x mid ki : nat) (ka : mkey) (pv : Z) (l nr : leafn) : leafn :=
  match k with
  | O => nr
  | S k' =>
    if (x =? ki)%nat then move_items k' (S x) mid ki ka pv l (leaf_assign (x - mid) ka nr)
    else move_items k' (S x) mid ki ka (Z.shiftr pv 4) l
           (leaf_assign_from (x - mid) l (Z.to_nat (Z.land pv 15)) nr)
  end.

(* leaf::split_into, masstree_split.hh:51-120, without the leaf-list linking. Result: nr, split_ikey, split type. *)
Definition leaf_split_into (l nr : leafn) (ki : nat) (ka : mkey) : res (leafn * Z * Z) :=
  _ <- ensure (W - 1 <=? perm_size (lf_perm l))%nat ;;
  let perml := lf_perm l in
  let width := perm_size perml in
  let mid0 := if (ki =? 0)%nat && (match lf_prev l with None => true | _ => false end) then 1%nat
              else if (ki =? width)%nat && (match lf_next l with None => true | _ => false end) then width
              else (W / 2 + 1)%nat in
  let key i := ikey_after_insert l perml i ki (k_ikey ka) in
  mid <- (if key mid0 =? key (mid0 - 1)%nat then split_adjust (S width) key (key mid0) width (mid0 - 1) (mid0 + 1)
          else Ok mid0) ;;
  _ <- ensure ((0 <? mid) && (mid <=? width))%nat ;;
  let pv := pshr perml ((mid - (if (ki <? mid)%nat then 1 else 0) + 1) * 4) in
  let nr1 := move_items (width + 1 - mid) mid mid ki ka pv l nr in
  let permr := perm_make_sorted W (width + 1 - mid) in
  let permr' := if (mid <=? ki)%nat then perm_remove_to_back W permr (ki - mid) else permr in
  let nr2 := lf_set_perm permr' nr1 in
  Ok (nr2, lf_ikey nr2 0, if (ki <? mid)%nat then 0 else if (mid =? width)%nat then 2 else 1).

(* btree_leaflink::link_split, btree_leaflink.hh:62-72 / 114-119: nr (already allocated) goes right of n. *)
Definition link_split (h : heap) (n nr : addr) : res heap :=
  ln <- hleaf h n ;;
  lr <- hleaf h nr ;;
  let h1 := hset h nr (NLeaf (lf_set_next (lf_next ln) (lf_set_prev (Some n) lr))) in
  h2 <- match lf_next ln with
        | Some x => lx <- hleaf h1 x ;; Ok (hset h1 x (NLeaf (lf_set_prev (Some nr) lx)))
        | None => Ok h1
        end ;;
  ln2 <- hleaf h2 n ;;
  Ok (hset h2 n (NLeaf (lf_set_next (Some nr) ln2))).

(* memcpy/memmove of n array cells. *)
Definition amove {A} (dst : nat -> A) (p : nat) (src : nat -> A) (xp n : nat) : nat -> A :=
  fun i => if (p <=? i)%nat && (i <? p + n)%nat then src (i - p + xp)%nat else dst i.
(* internode::shift_from, masstree_struct.hh:170-176: into *this (k,c) from internode x. *)
Definition in_shift_from (p : nat) (x : inode) (xp n : nat) (i : inode) : inode :=
  in_set_arrays (amove (in_keys i) p (in_keys x) xp n) (amove (in_child i) (p + 1) (in_child x) (xp + 1) n) i.
(* internode::shift_up, masstree_struct.hh:177-181: keys by memmove, children by a descending loop. *)
Fixpoint shift_up_children (n : nat) (c : nat -> option addr) (a b : nat) : nat -> option addr :=
  match n with O => c | S n' => shift_up_children n' (upd c a (c b)) (a - 1) (b - 1) end.
Definition in_shift_up (p xp n : nat) (i : inode) : inode :=
  in_set_arrays (amove (in_keys i) p (in_keys i) xp n) (shift_up_children n (in_child i) (p + n) (xp + n)) i.
(* internode::shift_down, masstree_struct.hh:182-186: children by an ascending loop. *)
Fixpoint shift_down_children (n : nat) (c : nat -> option addr) (a b : nat) : nat -> option addr :=
  match n with O => c | S n' => shift_down_children n' (upd c a (c b)) (S a) (S b) end.
Definition in_shift_down (p xp n : nat) (i : inode) : inode :=
  in_set_arrays (amove (in_keys i) p (in_keys i) xp n) (shift_down_children n (in_child i) (p + 1) (xp + 1)) i.
(* internode::assign without the set_parent on the child, masstree_struct.hh:164-168. *)
Definition in_assign (p : nat) (ik : Z) (c : addr) (i : inode) : inode := in_set_child (p + 1) (Some c) (in_set_key p ik i).

(* The set_parent loop of internode::split_into, masstree_split.hh:163-165: children i .. i+k-1. *)
Fixpoint set_parents (k i : nat) (c : nat -> option addr) (p : addr) (h : heap) : res heap :=
  match k with
  | O => Ok h
  | S k' => a <- deref (c i) ;; h1 <- set_parent h a (Some p) ;; set_parents k' (S i) c p h1
  end.

(* internode::split_into, masstree_split.hh:124-175, on node contents: the left node, the right node, split_ikey
   and the position where the caller still has to insert (None for -1). *)
Definition inter_split_into (i nr : inode) (p : nat) (ka : Z) (value : addr) (stype : Z)
  : inode * inode * Z * option nat :=
  let mid := if stype =? 2 then W else Nat.div2 (W + 1) in
  let nr0 := in_set_nkeys (W + 1 - (mid + 1)) nr in
  let '(nr1, split_ikey) :=
    if (p <? mid)%nat then
      (in_shift_from 0 i mid (W - mid) (in_set_child 0 (in_child i mid) nr0), in_keys i (mid - 1)%nat)
    else if (p =? mid)%nat then
      (in_shift_from 0 i mid (W - mid) (in_set_child 0 (Some value) nr0), ka)
    else
      (in_shift_from (p + 1 - (mid + 1)) i p (W - p)
        (in_assign (p - (mid + 1)) ka value
          (in_shift_from 0 i (mid + 1) (p - (mid + 1)) (in_set_child 0 (in_child i (mid + 1)%nat) nr0))), in_keys i mid) in
  if (p <? mid)%nat then (in_set_root false (in_set_nkeys (mid - 1) i), nr1, split_ikey, Some p)
  else (in_set_root false (in_set_nkeys mid i), nr1, split_ikey, None).

(* The insertion of (xikey, child) into the parent of n: one round of the loop of make_split,
   masstree_split.hh:209-246. Result: the heap and, if the parent was split too, (p, next_child, its split key).
   mark_split followed by unlock clears the root bit (nodeversion.hh:146-154); it is cleared at once here. *)
Definition split_parent (h : heap) (n child : addr) (xikey : Z) (stype : Z) (height : nat)
  : res (heap * option (addr * addr * Z)) :=
  nn <- hget h n ;;
  match n_parent nn with
  | None =>
    let i := in_set_root true (in_set_nkeys 1 (in_assign 0 xikey child (in_set_child 0 (Some n) (inter_fresh (S height))))) in
    let '(a, h1) := halloc h (NInter i) in
    h2 <- set_parent h1 child (Some a) ;;
    h3 <- set_parent h2 n (Some a) ;;
    Ok (h3, None)
  | Some p =>
    ip <- hinter h p ;;
    kp <- in_upper ip xikey ;;
    if (S height <? in_height ip)%nat then
      let i := in_set_parent (Some p) (in_set_nkeys 1 (in_assign 0 xikey child (in_set_child 0 (Some n) (inter_fresh (S height))))) in
      let '(a, h1) := halloc h (NInter i) in
      h2 <- set_parent h1 child (Some a) ;;
      ip2 <- hinter h2 p ;;
      let h3 := hset h2 p (NInter (in_set_child kp (Some a) ip2)) in
      h4 <- set_parent h3 n (Some a) ;;
      Ok (h4, None)
    else
      '(h1, ip1, kp1, nxt) <-
        (if (W <=? in_nkeys ip)%nat then
           let '(ipl, ipr, sk, kp') := inter_split_into ip (inter_fresh (S height)) kp xikey child stype in
           let '(a, h1) := halloc h (NInter ipr) in
           let h2 := hset h1 p (NInter ipl) in
           h3 <- set_parents (S (in_nkeys ipr)) 0 (in_child ipr) a h2 ;;
           Ok (h3, ipl, kp', Some (p, a, sk))
         else Ok (h, ip, Some kp, None)) ;;
      match kp1 with
      | Some kp1 =>
        let ip2 := in_assign kp1 xikey child (in_shift_up (kp1 + 1) kp1 (in_nkeys ip1 - kp1) ip1) in
        h2 <- set_parent h1 child (Some p) ;;
        Ok (hset h2 p (NInter (in_set_nkeys (S (in_nkeys ip1)) ip2)), nxt)
      | None => Ok (h1, nxt)
      end
  end.

(* The loop of make_split above the leaf level, masstree_split.hh:206-309. *)
Fixpoint split_up (fuel : nat) (h : heap) (n child : addr) (xikey : Z) (stype : Z) (height : nat) : res heap :=
  match fuel with
  | O => Err Stuck
  | S f =>
    '(h1, nxt) <- split_parent h n child xikey stype height ;;
    match nxt with
    | None => Ok h1
    | Some (p, nc, sk) => split_up f h1 p nc sk stype (S height)
    end
  end.

(* Stripping the left leaf, masstree_split.hh:252-279 (the first round of the loop; nothing above the leaves
   depends on it, so the model runs it after the upward loop). *)
Definition strip_left (h : heap) (cu : cursor) (nr : addr) (stype : Z) : res (heap * cursor) :=
  l <- hleaf h (cu_n cu) ;;
  r <- hleaf h nr ;;
  let width := perm_size (lf_perm l) in
  let perml0 := perm_set_size W (lf_perm l) (width - perm_size (lf_perm r)) in
  let perml := if (width =? W)%nat then perml0 else perm_exchange W perml0 (perm_size perml0) (W - 1) in
  let l1 := lf_set_perm perml (lf_set_root false l) in
  if stype =? 0 then
    let p := perm_back W perml in
    Ok (hset h (cu_n cu) (NLeaf (leaf_assign p (cu_ka cu) l1)), MkCur (cu_n cu) (cu_ka cu) (cu_i cu) (Some p) (cu_root cu) (cu_state cu))
  else
    let i := (cu_i cu - perm_size perml)%nat in
    Ok (hset h (cu_n cu) (NLeaf l1), MkCur nr (cu_ka cu) i (Some i) (cu_root cu) (cu_state cu)).

(* tcursor::make_split, masstree_split.hh:179-311. The new leaf copies the version word, root bit included (198). *)
Definition make_split (h : heap) (cu : cursor) : res (heap * cursor) :=
  l <- hleaf h (cu_n cu) ;;
  let perm := perm_exchange W (lf_perm l) (perm_size (lf_perm l)) (W - 1) in
  if (perm_size (lf_perm l) <? W)%nat && negb (perm_back W perm =? 0)%nat then
    let p := perm_back W perm in
    Ok (hset h (cu_n cu) (NLeaf (leaf_assign p (cu_ka cu) (lf_set_perm perm l))),
        MkCur (cu_n cu) (cu_ka cu) (cu_i cu) (Some p) (cu_root cu) (cu_state cu))
  else
    '(nr, xikey, stype) <- leaf_split_into l (lf_set_root (lf_root l) leaf_fresh) (cu_i cu) (cu_ka cu) ;;
    let '(a, h1) := halloc h (NLeaf nr) in
    h2 <- link_split h1 (cu_n cu) a ;;
    h3 <- split_up (hfuel h2) h2 (cu_n cu) a xikey stype 0 ;;
    strip_left h3 cu a stype.

(* tcursor::find_insert, masstree_insert.hh:23-59; the boolean is the returned "found". *)
Definition find_insert (fuel : nat) (h : heap) (root : addr) (k : list Z) : res (heap * cursor * bool) :=
  '(h1, cu) <- find_locked fuel h root root (key_make k) ;;
  if negb (cu_state cu =? 0) then Ok (h1, cu, true)
  else
    let cu := MkCur (cu_n cu) (cu_ka cu) (cu_i cu) (cu_p cu) (cu_root cu) 2 in
    match cu_p cu with
    | Some _ => '(h2, cu2) <- make_new_layer h1 cu ;; Ok (h2, cu2, false)
    | None =>
      l0 <- hleaf h1 (cu_n cu) ;;
      _ <- ensure (match lf_mod l0 with MsDeletedLayer => false | _ => true end) ;;
      let l := lf_set_mod MsInsert l0 in
      let h2 := hset h1 (cu_n cu) (NLeaf l) in
      let p := perm_back W (lf_perm l) in
      if (perm_size (lf_perm l) <? W)%nat
         && (negb (p =? 0)%nat || (match lf_prev l with None => true | _ => false end) || (lf_ikey l 0 =? k_ikey (cu_ka cu))) then
        Ok (hset h2 (cu_n cu) (NLeaf (leaf_assign p (cu_ka cu) l)),
            MkCur (cu_n cu) (cu_ka cu) (cu_i cu) (Some p) (cu_root cu) 2, false)
      else '(h3, cu3) <- make_split h2 cu ;; Ok (h3, cu3, false)
    end.

(* tcursor::value() as an lvalue, masstree_tcursor.hh:127-129. *)
Definition cursor_set_value (h : heap) (cu : cursor) (v : Z) : res heap :=
  p <- deref (cu_p cu) ;;
  l <- hleaf h (cu_n cu) ;;
  Ok (hset h (cu_n cu) (NLeaf (lf_set_lv p (LvVal v) l))).
Definition cursor_value (h : heap) (cu : cursor) : res Z :=
  p <- deref (cu_p cu) ;; l <- hleaf h (cu_n cu) ;; lv_value (lf_lv l p).

(* tcursor::finish_insert, masstree_insert.hh:129-136. *)
Definition finish_insert (h : heap) (cu : cursor) : res heap :=
  l <- hleaf h (cu_n cu) ;;
  p <- deref (cu_p cu) ;;
  _ <- ensure (perm_back W (lf_perm l) =? p)%nat ;;
  Ok (hset h (cu_n cu) (NLeaf (lf_set_perm (perm_insert_from_back W (lf_perm l) (cu_i cu)) l))).

(* ---- removal ---- *)
(* A pending gc_layer_rcu_callback, masstree_remove.hh:118-132. *)
Definition gcitem := (addr * list Z)%type.

(* btree_leaflink::unlink, btree_leaflink.hh:85-105 / 123-127. *)
Definition unlink (h : heap) (n : addr) : res heap :=
  l <- hleaf h n ;;
  prev <- deref (lf_prev l) ;;
  h1 <- match lf_next l with
        | Some x => lx <- hleaf h x ;; Ok (hset h x (NLeaf (lf_set_prev (Some prev) lx)))
        | None => Ok h
        end ;;
  lp <- hleaf h1 prev ;;
  Ok (hset h1 prev (NLeaf (lf_set_next (lf_next l) lp))).

(* tcursor::redirect, masstree_remove.hh:258-276. *)
Fixpoint redirect (fuel : nat) (h : heap) (n : addr) (ik repl : Z) : res heap :=
  match fuel with
  | O => Err Stuck
  | S f =>
    i <- hinter h n ;;
    p <- deref (in_parent i) ;;
    ip <- hinter h p ;;
    kp <- in_upper ip ik ;;
    _ <- ensure (match in_child ip kp with Some c => (c =? n)%nat | None => false end) ;;
    let ip1 := if (0 <? kp)%nat then in_set_key (kp - 1) repl ip else ip in
    let h1 := hset h p (NInter ip1) in
    if (kp =? 0)%nat || ((kp =? 1)%nat && (match in_child ip1 0 with None => true | _ => false end))
    then redirect f h1 p ik repl
    else Ok h1
  end.

(* The loop of remove_leaf, masstree_remove.hh:216-252. *)
Fixpoint remove_up (fuel : nat) (h : heap) (n : addr) (repl : option addr) (ik : Z) : res heap :=
  match fuel with
  | O => Err Stuck
  | S f =>
    nn <- hget h n ;;
    p <- deref (n_parent nn) ;;
    ip <- hinter h p ;;
    _ <- ensure (negb (in_deleted ip)) ;;
    kp <- in_upper ip ik ;;
    _ <- ensure ((kp =? 0)%nat || (in_keys ip (kp - 1)%nat <=? ik)) ;;
    _ <- ensure (match in_child ip kp with Some c => (c =? n)%nat | None => false end) ;;
    let ip1 := in_set_child kp repl ip in
    let ip2 := match repl with
               | Some _ => ip1
               | None => if (0 <? kp)%nat then
                   in_set_nkeys (in_nkeys ip1 - 1) (in_shift_down (kp - 1) kp (in_nkeys ip1 - kp) ip1)
                   else ip1
               end in
    let h1 := hset h p (NInter ip2) in
    h2 <- match repl with Some r => set_parent h1 r (Some p) | None => Ok h1 end ;;
    '(h3, ik') <-
      (if (kp <=? 1)%nat && (0 <? in_nkeys ip2)%nat && (match in_child ip2 0 with None => true | _ => false end) then
         h3 <- redirect (hfuel h2) h2 p ik (in_keys ip2 0%nat) ;; Ok (h3, in_keys ip2 0%nat)
       else Ok (h2, ik)) ;;
    if (0 <? in_nkeys ip2)%nat || in_root ip2 then Ok h3
    else
      ip3 <- hinter h3 p ;;
      let h4 := hset h3 p (NInter (in_set_child 0 None (in_set_root false (in_set_deleted true ip3)))) in
      remove_up f h4 p (in_child ip3 0%nat) ik'
  end.

(* tcursor::remove_leaf, masstree_remove.hh:179-255 (deallocate_rcu and phantom epochs not modelled). The callbacks
   registered are returned. *)
Definition remove_leaf (h : heap) (a : addr) (root : addr) (prefix : list Z) : res (heap * list gcitem * bool) :=
  l <- hleaf h a ;;
  match lf_prev l with
  | None =>
    Ok (h, match lf_next l, prefix with None, _ :: _ => [(root, prefix)] | _, _ => [] end, false)
  | Some _ =>
    let h1 := hset h a (NLeaf (lf_set_root false (lf_set_deleted true l))) in
    h2 <- unlink h1 a ;;
    h3 <- remove_up (hfuel h2) h2 a None (lf_ikey l 0%nat) ;;
    Ok (h3, [], true)
  end.

(* key::prefix_string, masstree_key.hh:179-181. *)
Definition key_prefix_string (k : mkey) : list Z := firstn (k_off k) (k_buf k).

(* tcursor::finish_remove, masstree_remove.hh:162-176. *)
Definition finish_remove (h : heap) (cu : cursor) : res (heap * list gcitem * bool) :=
  l0 <- hleaf h (cu_n cu) ;;
  let l := match lf_mod l0 with MsInsert => lf_set_mod MsRemove l0 | _ => l0 end in
  let perm := perm_remove W (lf_perm l) (cu_i cu) in
  let h1 := hset h (cu_n cu) (NLeaf (lf_set_perm perm l)) in
  if (0 <? perm_size perm)%nat then Ok (h1, [], false)
  else remove_leaf h1 (cu_n cu) (cu_root cu) (key_prefix_string (cu_ka cu)).

(* tcursor::finish, masstree_insert.hh:139-154. *)
Definition finish (h : heap) (cu : cursor) (state : Z) : res (heap * list gcitem) :=
  if (state <? 0) && (cu_state cu =? 1) then
    '(h1, gc, _) <- finish_remove h cu ;; Ok (h1, gc)
  else if (0 <? state) && (cu_state cu =? 2) then
    h1 <- finish_insert h cu ;; Ok (h1, [])
  else Ok (h, []).

(* ---- layer collection ---- *)
(* The internode-collapsing loop of gc_layer, masstree_remove.hh:51-88: returns the layer's root leaf, or None when
   gc_layer returns false. In one thread try_lock succeeds and is_root/size do not change under the lock. *)
Fixpoint gc_collapse (fuel : nat) (h : heap) (n : addr) (p : nat) : res (heap * option addr) :=
  match fuel with
  | O => Err Stuck
  | S f =>
    l <- hleaf h n ;;
    layer <- lv_layer (lf_lv l p) ;;
    nl <- hget h layer ;;
    if negb (n_is_root nl) then
      r <- maybe_parent h layer ;; gc_collapse f (hset h n (NLeaf (lf_set_lv p (LvLayer r) l))) n p
    else match nl with
    | NLeaf _ => Ok (h, Some layer)
    | NInter i =>
      if (0 <? in_nkeys i)%nat then Ok (h, None)
      else
        c <- deref (in_child i 0%nat) ;;
        h1 <- make_layer_root h c ;;
        l1 <- hleaf h1 n ;;
        let h2 := hset h1 n (NLeaf (lf_set_lv p (LvLayer c) l1)) in
        i2 <- hinter h2 layer ;;
        gc_collapse f (hset h2 layer (NInter (in_set_parent (Some c) (in_set_root false i2)))) n p
    end
  end.

(* tcursor::gc_layer, masstree_remove.hh:24-115: Some cursor when it returns true. *)
Definition gc_layer (fuel : nat) (h : heap) (root : addr) (prefix : list Z) : res (heap * option cursor) :=
  '(h1, cu) <- find_locked fuel h root root (key_make prefix) ;;
  l <- hleaf h1 (cu_n cu) ;;
  _ <- ensure (negb (lf_deleted l) && (match lf_mod l with MsDeletedLayer => false | _ => true end)) ;;
  if key_has_suffix (cu_ka cu) then Ok (h1, None)
  else
    let i := (cu_i cu + match cu_p cu with Some _ => 1 | None => 0 end)%nat in
    if (perm_size (lf_perm l) <=? i)%nat then Ok (h1, None)
    else
      let p := perm_get (lf_perm l) i in
      if negb (lf_ikey l p =? k_ikey (cu_ka cu)) || negb (127 <? lf_klx l p) then Ok (h1, None)
      else
        '(h2, o) <- gc_collapse (hfuel h1 + hfuel h1) h1 (cu_n cu) p ;;
        match o with
        | None => Ok (h2, None)
        | Some la =>
          lf <- hleaf h2 la ;;
          if (0 <? perm_size (lf_perm lf))%nat then Ok (h2, None)
          else
            _ <- ensure (match lf_prev lf, lf_next lf with None, None => true | _, _ => false end) ;;
            _ <- ensure (negb (lf_deleted lf) && (match lf_mod lf with MsDeletedLayer => false | _ => true end)) ;;
            Ok (hset h2 la (NLeaf (lf_set_mod MsDeletedLayer lf)),
                Some (MkCur (cu_n cu) (cu_ka cu) i (Some p) (cu_root cu) (cu_state cu)))
        end.

(* gc_layer_rcu_callback::operator(), masstree_remove.hh:135-148. *)
Definition run_gc (h : heap) (it : gcitem) : res (heap * list gcitem) :=
  root <- climb (hfuel h) h (fst it) ;;
  n <- hget h root ;;
  if n_deleted n then Ok (h, [])
  else
    '(h1, o) <- gc_layer (S (length (snd it))) h root (snd it) ;;
    match o with
    | None => Ok (h1, [])
    | Some cu => '(h2, gc, _) <- finish_remove h1 cu ;; Ok (h2, gc)
    end.

(* ---- the table ---- *)
(* basic_table<P> with its pending layer-collection callbacks. *)
Record table := MkTable { t_heap : heap; t_root : addr; t_gc : list gcitem }.

(* basic_table::initialize, masstree_struct.hh:542-545. *)
Definition table_init : table :=
  let '(a, h) := halloc (MkHeap (fun _ => None) 0) (NLeaf leaf_root) in MkTable h a [].

(* basic_table::fix_root, masstree_struct.hh:791-799. *)
Definition fix_root (t : table) : res table :=
  n <- hget (t_heap t) (t_root t) ;;
  if n_is_root n then Ok t
  else r <- maybe_parent (t_heap t) (t_root t) ;; Ok (MkTable (t_heap t) r (t_gc t)).

(* The ways a client drives a cursor (query_masstree.hh, kvrow.hh, test programs):
   look up, insert or replace, start an insertion and abandon it with finish(0), remove, and let the RCU machinery
   run the i-th pending layer collection. *)
Inductive top := OGet (k : list Z) | OPut (k : list Z) (v : Z) | OAbandon (k : list Z) | ORemove (k : list Z) | OGc (i : nat).
(* What the client observes: the value found (before the operation). *)
Definition tres := option Z.

Definition old_value (h : heap) (cu : cursor) (found : bool) : res (option Z) :=
  if found then v <- cursor_value h cu ;; Ok (Some v) else Ok None.

Definition tstep (t : table) (o : top) : res (table * tres) :=
  match o with
  | OGet k => r <- tree_get (t_heap t) (t_root t) k ;; Ok (t, r)
  | OPut k v =>
    t1 <- fix_root t ;;
    '(h1, cu, found) <- find_insert (S (length k)) (t_heap t1) (t_root t1) k ;;
    old <- old_value h1 cu found ;;
    h2 <- cursor_set_value h1 cu v ;;
    '(h3, gc) <- finish h2 cu 1 ;;
    Ok (MkTable h3 (t_root t1) (t_gc t1 ++ gc), old)
  | OAbandon k =>
    t1 <- fix_root t ;;
    '(h1, cu, found) <- find_insert (S (length k)) (t_heap t1) (t_root t1) k ;;
    old <- old_value h1 cu found ;;
    '(h3, gc) <- finish h1 cu 0 ;;
    Ok (MkTable h3 (t_root t1) (t_gc t1 ++ gc), old)
  | ORemove k =>
    t1 <- fix_root t ;;
    '(h1, cu) <- find_locked (S (length k)) (t_heap t1) (t_root t1) (t_root t1) (key_make k) ;;
    old <- old_value h1 cu (negb (cu_state cu =? 0)) ;;
    '(h3, gc) <- finish h1 cu (-1) ;;
    Ok (MkTable h3 (t_root t1) (t_gc t1 ++ gc), old)
  | OGc i =>
    match nth_error (t_gc t) i with
    | None => Ok (t, None)
    | Some it =>
      '(h1, gc) <- run_gc (t_heap t) it ;;
      Ok (MkTable h1 (t_root t) (firstn i (t_gc t) ++ skipn (S i) (t_gc t) ++ gc), None)
    end
  end.

(* A run: the results of all operations, or the first failure. *)
Fixpoint truns (t : table) (l : list top) : res (table * list tres) :=
  match l with
  | [] => Ok (t, [])
  | o :: l' => '(t1, r) <- tstep t o ;; '(t2, rs) <- truns t1 l' ;; Ok (t2, r :: rs)
  end.
