(* Timestamps of row versions: per-thread clocks, row timestamps and the phantom epochs of leaves, on top of the table
   model. Whole operations run one at a time, by any thread. The stored value of M_Tree stands for the row and is its
   timestamp; what else a row holds does not matter here. *)
From Verif Require Import Lib Spec_String Spec_Stamp M_Key M_Permuter M_Search M_Tree M_Circular.

(* threadinfo::update_timestamp(x), kvthread.hh:131-136; x|1 makes the result differ from a marker's timestamp. *)
Definition update_ts (clock x : Z) : Z := if ci_less_equal 64 clock x then ci_wrap 64 (Z.lor x 1 + 1) else clock.
(* threadinfo::observe_phantoms, kvthread.hh:137-140. *)
Definition observe (clock ph : Z) : Z := if ci_less 64 clock ph then ph else clock.

(* The phantom_epoch_[0] of every leaf (masstree_struct.hh:281), by address. *)
Definition phantoms := addr -> Z.
(* masstree_remove.hh:102-105 and the compare-and-swap loop 195-206, which alone in the tree runs once. *)
Definition raise (ph : phantoms) (a : addr) (x : Z) : phantoms := if ci_less 64 (ph a) x then upd ph a x else ph.
(* leaf::make and make_root copy the phantom epoch of the leaf they are made for, masstree_struct.hh:285-313, called in
   masstree_split.hh:197 and masstree_insert.hh:62-126 (twigs copy from their parent, which copied from n_): all leaves
   allocated by find_insert have n_'s. Internodes have none; giving them one changes nothing. *)
Definition inherit (ph : phantoms) (from upto : nat) (n : addr) : phantoms :=
  fun a => if (from <=? a)%nat && (a <? upto)%nat then ph n else ph a.
(* remove_leaf's part, masstree_remove.hh:195-206, when finish_remove (162-176) empties a leaf that has a predecessor. *)
Definition pour_phantom (h : heap) (cu : cursor) (ph : phantoms) : res phantoms :=
  l <- hleaf h (cu_n cu) ;;
  Ok (if (0 <? perm_size (perm_remove W (lf_perm l) (cu_i cu)))%nat then ph
      else match lf_prev l with None => ph | Some pv => raise ph pv (ph (cu_n cu)) end).

(* One logged update: its key, whether it is a removal, the timestamp (query::qtimes_.ts) and the timestamp of the
   version it replaces (qtimes_.prev_ts), kvrow.hh:152-161. *)
Record event := MkEv { e_key : list Z; e_rem : bool; e_ts : Z; e_prev : Z }.

Record sstate := MkS { s_table : table; s_ph : phantoms; s_clock : nat -> Z }.
(* A fresh table: phantom epochs 0 (masstree_struct.hh:310); the threads' clocks (2 in kvthread.cc:46). *)
Definition s_init (clock : nat -> Z) : sstate := MkS table_init (fun _ => 0) clock.

(* Thread i: put or replace of k, remove of k, and the j-th pending layer collection. inplace: the row's update wrote into the row
   itself, as value_versioned_array::update does when the row has room (value_versioned_array.cc:51-84), and so kept
   the row's old timestamp. Markers take the branch of an absent row after the timestamp is chosen (kvrow.hh:191-198),
   with the same result. *)
Inductive sop := SPut (i : nat) (k : list Z) (inplace : bool) | SRemove (i : nat) (k : list Z) | SGc (j : nat).

Definition set_clock (c : nat -> Z) (i : nat) (x : Z) : nat -> Z := fun j => if (j =? i)%nat then x else c j.

(* gc_layer_rcu_callback::operator(), masstree_remove.hh:135-148, with gc_layer's update of n_'s phantom epoch, 102-105. *)
Definition gc_stamp (h : heap) (it : gcitem) (ph : phantoms) : res (heap * list gcitem * phantoms) :=
  root <- climb (hfuel h) h (fst it) ;;
  n <- hget h root ;;
  if n_deleted n then Ok (h, [], ph)
  else
    '(h1, o) <- gc_layer (S (length (snd it))) h root (snd it) ;;
    match o with
    | None => Ok (h1, [], ph)
    | Some cu =>
      l <- hleaf h1 (cu_n cu) ;;
      p <- deref (cu_p cu) ;;
      la <- lv_layer (lf_lv l p) ;;
      ph2 <- pour_phantom h1 cu (raise ph (cu_n cu) (ph la)) ;;
      '(h2, gc, _) <- finish_remove h1 cu ;;
      Ok (h2, gc, ph2)
    end.

Definition sstep (t : sstate) (o : sop) : res (sstate * list event) :=
  match o with
  | SPut i k inplace =>
    (* query::run_put / run_replace with apply_put / apply_replace, kvrow.hh:164-237. The first search only tells which
       leaf find_insert starts from. *)
    t1 <- fix_root (s_table t) ;;
    '(_, cu0) <- find_locked (S (length k)) (t_heap t1) (t_root t1) (t_root t1) (key_make k) ;;
    '(h1, cu, found) <- find_insert (S (length k)) (t_heap t1) (t_root t1) k ;;
    let ph1 := inherit (s_ph t) (hp_next (t_heap t1)) (hp_next h1) (cu_n cu0) in
    old <- old_value h1 cu found ;;
    let ts := match old with None => observe (s_clock t i) (ph1 (cu_n cu)) | Some x => update_ts (s_clock t i) x end in
    let prev := match old with None => 0 | Some x => x end in
    let row := match old with Some x => if inplace then x else ts | None => ts end in
    h2 <- cursor_set_value h1 cu row ;;
    '(h3, gc) <- finish h2 cu 1 ;;
    Ok (MkS (MkTable h3 (t_root t1) (t_gc t1 ++ gc)) ph1 (set_clock (s_clock t) i ts), [MkEv k false ts prev])
  | SRemove i k =>
    (* query::run_remove and apply_remove, kvrow.hh:239-265. *)
    t1 <- fix_root (s_table t) ;;
    '(h1, cu) <- find_locked (S (length k)) (t_heap t1) (t_root t1) (t_root t1) (key_make k) ;;
    old <- old_value h1 cu (negb (cu_state cu =? 0)) ;;
    match old with
    | None =>
      '(h3, gc) <- finish h1 cu (-1) ;;
      Ok (MkS (MkTable h3 (t_root t1) (t_gc t1 ++ gc)) (s_ph t) (s_clock t), [])
    | Some x =>
      let ts := update_ts (s_clock t i) x in
      let n := cu_n cu in
      let ph1 := if ci_less_equal 64 (s_ph t n) ts then upd (s_ph t) n (ci_wrap 64 (ts + 2)) else s_ph t in
      ph2 <- pour_phantom h1 cu ph1 ;;
      '(h3, gc) <- finish h1 cu (-1) ;;
      Ok (MkS (MkTable h3 (t_root t1) (t_gc t1 ++ gc)) ph2 (set_clock (s_clock t) i ts), [MkEv k true ts x])
    end
  | SGc j =>
    match nth_error (t_gc (s_table t)) j with
    | None => Ok (t, [])
    | Some it =>
      '(h1, gc, ph) <- gc_stamp (t_heap (s_table t)) it (s_ph t) ;;
      Ok (MkS (MkTable h1 (t_root (s_table t)) (firstn j (t_gc (s_table t)) ++ skipn (S j) (t_gc (s_table t)) ++ gc)) ph (s_clock t), [])
    end
  end.

(* A run and the updates it logs, oldest first. *)
Fixpoint sruns (t : sstate) (l : list sop) : res (sstate * list event) :=
  match l with
  | [] => Ok (t, [])
  | o :: l' => '(t1, e) <- sstep t o ;; '(t2, es) <- sruns t1 l' ;; Ok (t2, e ++ es)
  end.

(* Inputs: keys of bytes, and rows that are not updated in place (value_array, value_bag and value_string make a new row). *)
Definition sop_ok (o : sop) : Prop := match o with SPut _ k ip => bytes_ok k /\ ip = false | SRemove _ k => bytes_ok k | SGc _ => True end.
(* What the log says. *)
Definition to_upd (e : event) : upd_rec := MkUpd (e_key e) (e_rem e) (e_ts e) (e_prev e).
