(* Timestamps and phantom epochs when threads run together. One layer: a list of leaves, keys are slices. A step is one
   access to a phantom epoch, or what a lock makes one. *)
From Verif Require Import Lib M_Circular M_Tree M_Stamp.

(* A leaf's rows: key and row timestamp, in key order. *)
Definition rows := list (Z * Z).
Fixpoint row_get (k : Z) (l : rows) : option Z :=
  match l with [] => None | (k', x) :: l' => if k' =? k then Some x else row_get k l' end.
Fixpoint row_set (k x : Z) (l : rows) : rows :=
  match l with [] => [(k, x)] | (k', y) :: l' => if k' =? k then (k, x) :: l' else if k <? k' then (k, x) :: (k', y) :: l' else (k', y) :: row_set k x l' end.
Definition row_del (k : Z) (l : rows) : rows := filter (fun r => negb (fst r =? k)) l.

(* Where a thread stands. *)
Inductive cpc :=
| CIdle
| CHave (put : bool) (k : Z) (n : nat)              (* the leaf is locked *)
| CStore (n : nat) (k ts old : Z)                   (* apply_remove compared the phantom epoch and will store it *)
| CRem (n : nat) (k ts old : Z)                     (* apply_remove is done *)
| CSplit (n c : nat) (k : Z)                        (* the new leaf is made, with the phantom epoch read then *)
| CLinked (n c : nat) (k : Z)                       (* split and linked *)
| CPrev (n : nat)                                   (* remove_leaf, at the top of its loop *)
| CRead (n q : nat)                                 (* prev read *)
| CCas (n q : nat) (v : Z)                          (* prev's phantom epoch read and found smaller *)
| CCheck (n q : nat)
| CUnlink (n : nat).

(* The leaf list starts with leaf 0, whose prev_ is null, and goes on with c_rest. c_lo is ikey_bound. The prev_ and
   next_ pointers are this list: what link_split and unlink do is one step here (their own steps are in M_Link.v). *)
Record cstate := MkC {
  c_rest : list nat; c_lo : nat -> Z; c_ph : nat -> Z; c_rows : nat -> rows; c_lock : nat -> bool; c_fresh : nat;
  c_clock : nat -> Z; c_pc : nat -> cpc }.

Definition setf {A} (f : nat -> A) (i : nat) (x : A) : nat -> A := fun j => if (j =? i)%nat then x else f j.

(* The leaf responsible for a key: a search walks right while the next leaf's bound is not above the key
   (leaf::advance_to_key, masstree_struct.hh:694-717). *)
Fixpoint walk (lo : nat -> Z) (n : nat) (l : list nat) (k : Z) : nat :=
  match l with [] => n | m :: l' => if lo m <=? k then walk lo m l' k else n end.
Definition resp (s : cstate) (k : Z) : nat := walk (c_lo s) 0 (c_rest s) k.
(* prev_ *)
Fixpoint pred_of (n h : nat) (l : list nat) : option nat :=
  match l with [] => None | m :: l' => if (m =? n)%nat then Some h else pred_of n m l' end.
(* link_split, btree_leaflink.hh:57-74. *)
Fixpoint ins_after (n c h : nat) (l : list nat) : list nat :=
  if (h =? n)%nat then c :: l else match l with [] => [] | m :: l' => m :: ins_after n c m l' end.
(* unlink, btree_leaflink.hh:76-105. *)
Definition unlinked (n : nat) (l : list nat) : list nat := filter (fun m => negb (m =? n)%nat) l.

(* split_into's choice, masstree_split.hh:69-82: the first key of the new leaf. *)
Definition split_key (first last : bool) (k : Z) (l : rows) : Z :=
  let p := length (filter (fun r => fst r <? k) l) in
  let mid := if (p =? 0)%nat && first then 1%nat else if (p =? length l)%nat && last then length l else S (W / 2) in
  fst (nth mid (row_set k 0 l) (k, 0)).

Inductive clabel := CBegin (i : nat) (put : bool) (k : Z) | CGo (i : nat).

Definition unlock2 (f : nat -> bool) (n c : nat) : nat -> bool := setf (setf f n false) c false.

Definition cstep (s : cstate) (a : clabel) : option (cstate * list event) :=
  let '(MkC rest lo ph rw lk fr cl pc) := s in
  match a with
  | CBegin i put k =>
    (* find_insert, find_locked: wait for the leaf's lock (masstree_get.hh:77-122). Deleted leaves stay locked here. *)
    match pc i with
    | CIdle => let n := resp s k in if lk n then None else Some (MkC rest lo ph rw (setf lk n true) fr cl (setf pc i (CHave put k n)), [])
    | _ => None
    end
  | CGo i =>
    match pc i with
    | CIdle => None
    | CHave true k n =>
      match row_get k (rw n) with
      | Some x => (* kvrow.hh:187-205, 228-236; the row changes under the lock *)
        let ts := update_ts (cl i) x in
        Some (MkC rest lo ph (setf rw n (row_set k ts (rw n))) (setf lk n false) fr (setf cl i ts) (setf pc i CIdle), [MkEv [k] false ts x])
      | None =>
        if (length (rw n) <? W)%nat then (* kvrow.hh:169-176 *)
          let ts := observe (cl i) (ph n) in
          Some (MkC rest lo ph (setf rw n (row_set k ts (rw n))) (setf lk n false) fr (setf cl i ts) (setf pc i CIdle), [MkEv [k] false ts 0])
        else (* leaf_type::make, masstree_split.hh:197 *)
          Some (MkC rest lo (setf ph fr (ph n)) (setf rw fr []) (setf lk fr true) (S fr) cl (setf pc i (CSplit n fr k)), [])
      end
    | CSplit n c k => (* split_into, masstree_split.hh:51-137; the parents' changes do not matter here *)
      let sk := split_key (n =? 0)%nat (last rest 0 =? n)%nat k (rw n) in
      Some (MkC (ins_after n c 0 rest) (setf lo c sk) ph
             (setf (setf rw c (filter (fun r => sk <=? fst r) (rw n))) n (filter (fun r => fst r <? sk) (rw n))) lk fr cl (setf pc i (CLinked n c k)), [])
    | CLinked n c k => (* kvrow.hh:171-176, on the leaf the key went to *)
      let t := resp s k in
      let ts := observe (cl i) (ph t) in
      Some (MkC rest lo ph (setf rw t (row_set k ts (rw t))) (unlock2 lk n c) fr (setf cl i ts) (setf pc i CIdle), [MkEv [k] false ts 0])
    | CHave false k n => (* kvrow.hh:239-265 *)
      match row_get k (rw n) with
      | None => Some (MkC rest lo ph rw (setf lk n false) fr cl (setf pc i CIdle), [])
      | Some x =>
        let ts := update_ts (cl i) x in
        Some (MkC rest lo ph rw lk fr (setf cl i ts) (setf pc i (if ci_less_equal 64 (ph n) ts then CStore n k ts x else CRem n k ts x)), [])
      end
    | CStore n k ts x => Some (MkC rest lo (setf ph n (ci_wrap 64 (ts + 2))) rw lk fr cl (setf pc i (CRem n k ts x)), [])
    | CRem n k ts x => (* finish_remove and remove_leaf, masstree_remove.hh:160-191 *)
      let rw' := setf rw n (row_del k (rw n)) in
      let gone := match row_del k (rw n) with [] => negb (n =? 0)%nat | _ => false end in
      Some (MkC rest lo ph rw' (if gone then lk else setf lk n false) fr cl (setf pc i (if gone then CPrev n else CIdle)), [MkEv [k] true ts x])
    | CPrev n => (* masstree_remove.hh:196 *)
      match pred_of n 0 rest with None => None | Some q => Some (MkC rest lo ph rw lk fr cl (setf pc i (CRead n q)), []) end
    | CRead n q => (* masstree_remove.hh:197-198 *)
      Some (MkC rest lo ph rw lk fr cl (setf pc i (if ci_less 64 (ph q) (ph n) then CCas n q (ph q) else CCheck n q)), [])
    | CCas n q v => (* masstree_remove.hh:199-200; a failed exchange reads again *)
      if ph q =? v then Some (MkC rest lo (setf ph q (ph n)) rw lk fr cl (setf pc i (CCheck n q)), [])
      else Some (MkC rest lo ph rw lk fr cl (setf pc i (CRead n q)), [])
    | CCheck n q => (* masstree_remove.hh:202-205 *)
      Some (MkC rest lo ph rw lk fr cl (setf pc i (match pred_of n 0 rest with Some q' => if (q' =? q)%nat then CUnlink n else CPrev n | None => CPrev n end)), [])
    | CUnlink n => (* masstree_remove.hh:209-291; until its parents forget a deleted leaf, searches for its keys retry *)
      Some (MkC (unlinked n rest) lo ph rw (setf lk n false) fr cl (setf pc i CIdle), [])
    end
  end.

Fixpoint cruns (s : cstate) (l : list clabel) : option (cstate * list event) :=
  match l with
  | [] => Some (s, [])
  | a :: l' => match cstep s a with
               | None => None
               | Some (s1, e) => match cruns s1 l' with None => None | Some (s2, es) => Some (s2, e ++ es) end
               end
  end.

(* A new layer, one empty leaf. *)
Definition c_init (clock : nat -> Z) : cstate := MkC [] (fun _ => 0) (fun _ => 0) (fun _ => []) (fun _ => false) 1 clock (fun _ => CIdle).

(* A thread has read leaf q's phantom epoch and will use what it read: apply_remove between its compare and its store,
   a split between making and linking the new leaf, remove_leaf of q between handing its epoch over and unlinking q. *)
Definition between (p : cpc) (q : nat) : Prop :=
  match p with CStore n _ _ _ | CSplit n _ _ | CCheck n _ | CUnlink n => n = q | _ => False end.
(* No phantom epoch is exchanged by remove_leaf of the next leaf at such a time. *)
Definition cas_apart (s : cstate) (a : clabel) : Prop :=
  forall i n q v, a = CGo i -> c_pc s i = CCas n q v -> c_ph s q = v -> forall j, ~ between (c_pc s j) q.
Fixpoint apart (s : cstate) (l : list clabel) : Prop :=
  match l with
  | [] => True
  | a :: l' => cas_apart s a /\ match cstep s a with Some (s1, _) => apart s1 l' | None => True end
  end.
