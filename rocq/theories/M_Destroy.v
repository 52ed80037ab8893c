(* Destroying a table: basic_table::destroy and destroy_rcu_callback, masstree_remove.hh:278-366. Definitions only.
   Simplifications:
   - one thread; the two runs of the callback (mark, then free) are one after the other; the callback object itself
     and its counter are absent.
   - leaf::deallocate frees the node and its suffix bags (masstree_struct.hh:477-484); the bags belong to the node in
     M_Tree. Values are not freed by the code, nor here.
   - freed nodes are absent from the heap, so that using or freeing one again is the failure BadPtr. *)
From Verif Require Import Lib M_Key M_Permuter M_Tree.

(* deallocate. *)
Definition hfree (h : heap) (a : addr) : res heap :=
  _ <- hget h a ;; Ok (MkHeap (upd (hp_node h) a None) (hp_next h)).

(* The work queue of operator(), masstree_remove.hh:323-325: it runs through the nodes' parent_ fields. d_tail is
   tailp: None for &workq, Some a for link_ptr(a). *)
Record dstate := MkD { d_heap : heap; d_workq : option addr; d_tail : option addr }.

(* enqueue, masstree_remove.hh:304-308; link_ptr (296-301) looks at the node's type. *)
Definition enqueue (s : dstate) (n : addr) : res dstate :=
  s1 <- match d_tail s with
        | None => Ok (MkD (d_heap s) (Some n) None)
        | Some t => h <- set_parent (d_heap s) t (Some n) ;; Ok (MkD h (d_workq s) (d_tail s))
        end ;;
  _ <- hget (d_heap s1) n ;;
  Ok (MkD (d_heap s1) (d_workq s1) (Some n)).

(* masstree_remove.hh:327-334, with n the head of the queue. *)
Definition dequeue (s : dstate) (n : addr) : res dstate :=
  nn <- hget (d_heap s) n ;;
  match d_tail s with
  | Some t => if (t =? n)%nat then Ok (MkD (d_heap s) None None) else Ok (MkD (d_heap s) (n_parent nn) (d_tail s))
  | None => Ok (MkD (d_heap s) (n_parent nn) (d_tail s))
  end.

(* masstree_remove.hh:339-343. With [fix] the layer pointer is followed to the layer's root first, which the code does
   for the table's root (314-316) but not here. *)
Fixpoint enqueue_layers (fix_ : bool) (k j : nat) (l : leafn) (s : dstate) : res dstate :=
  match k with
  | O => Ok s
  | S k' =>
    let p := perm_get (lf_perm l) j in
    s1 <- (if 127 <? lf_klx l p then
             r <- lv_layer (lf_lv l p) ;;
             r' <- (if fix_ then climb (hfuel (d_heap s)) (d_heap s) r else Ok r) ;;
             enqueue s r'
           else Ok s) ;;
    enqueue_layers fix_ k' (S j) l s1
  end.
(* masstree_remove.hh:347-350. *)
Fixpoint enqueue_children (k j : nat) (i : inode) (s : dstate) : res dstate :=
  match k with
  | O => Ok s
  | S k' =>
    s1 <- match in_child i j with Some c => enqueue s c | None => Ok s end ;;
    enqueue_children k' (S j) i s1
  end.

(* One round of the loop, masstree_remove.hh:327-352. *)
Definition destroy_node (fix_ : bool) (s : dstate) (n : addr) : res dstate :=
  s1 <- dequeue s n ;;
  nn <- hget (d_heap s1) n ;;
  s2 <- match nn with
        | NLeaf l => enqueue_layers fix_ (perm_size (lf_perm l)) 0 l s1
        | NInter i => enqueue_children (S (in_nkeys i)) 0 i s1
        end ;;
  h <- hfree (d_heap s2) n ;;
  Ok (MkD h (d_workq s2) (d_tail s2)).
(* The loop, masstree_remove.hh:326. *)
Fixpoint destroy_loop (fuel : nat) (fix_ : bool) (s : dstate) : res heap :=
  match fuel with
  | O => Err Stuck
  | S f =>
    match d_workq s with
    | None => Ok (d_heap s)
    | Some n => s' <- destroy_node fix_ s n ;; destroy_loop f fix_ s'
    end
  end.

(* First run of the callback, masstree_remove.hh:313-321: find the root and mark it. *)
Definition n_set_deleted (n : node) : node :=
  match n with NLeaf l => NLeaf (lf_set_deleted true l) | NInter i => NInter (in_set_deleted true i) end.
Definition destroy_mark (h : heap) (root : addr) : res (heap * addr) :=
  r <- climb (hfuel h) h root ;;
  n <- hget h r ;;
  Ok (hset h r (n_set_deleted n), r).
(* Second run, masstree_remove.hh:323-353. *)
Definition destroy_free (fix_ : bool) (h : heap) (r : addr) : res heap :=
  s <- enqueue (MkD h None None) r ;;
  destroy_loop (S (hfuel h)) fix_ s.
(* basic_table::destroy, masstree_remove.hh:357-365, and both runs. *)
Definition destroy (fix_ : bool) (t : table) : res heap :=
  '(h, r) <- destroy_mark (t_heap t) (t_root t) ;;
  destroy_free fix_ h r.
