(* Versioned array rows under concurrency: rowversion, value_versioned_array::update and ::snapshot
   (value_versioned_array.hh, value_versioned_array.cc) with the parts of kvrow.hh that call them. Definitions only.
   Simplifications:
   - one key; its leaf slot holds the address of the current row. Memory is sequentially consistent.
   - updates hold the leaf's lock (C14), so one runs at a time; a load and store of ver_ by the updater is one step,
     since no other thread writes ver_.
   - a column is its pointer (an integer, 0 for null). Columns and replaced rows are freed through RCU (C17), so rows
     read late are still there; addresses of rows are not reused.
   - ncol_ = ncol_cap_ for rows in the tree (every function that makes such a row sets both alike), so that the memset
     of value_versioned_array.cc:64-65 has nothing to do in place. Timestamps are left out (C31).
   - a row under construction is private and is published in one step. *)
From Verif Require Import Lib.

(* rowversion, value_versioned_array.hh:21-64; a version is the word v_.u. *)
Definition rv_dirty (v : Z) : bool := Z.testbit v 31.
Definition rv_ctr (v : Z) : Z := v mod 2 ^ 31.
Definition rv_setdirty (v : Z) : Z := Z.lor v (2 ^ 31).
Definition rv_clearandbump (v : Z) : Z := Z.land ((v + 1) mod 2 ^ 32) (2 ^ 31 - 1).
(* has_changed, value_versioned_array.hh:46-49. *)
Definition rv_has_changed (x v : Z) : bool := negb (rv_ctr x =? rv_ctr v).

(* ver_, ncol_ and cols_ of a row, value_versioned_array.hh:109-112. *)
Record vrow := MkVrow { vr_ver : Z; vr_cols : list Z }.
Definition vset {A} (f : nat -> A) (i : nat) (v : A) : nat -> A := fun j => if Nat.eqb j i then v else f j.
Fixpoint lset (l : list Z) (i : nat) (c : Z) : option (list Z) :=
  match l, i with
  | [], _ => None
  | _ :: l', O => Some (c :: l')
  | x :: l', S i' => match lset l' i' c with Some l'' => Some (x :: l'') | None => None end
  end.
Fixpoint lsets (l : list Z) (ch : list (nat * Z)) : option (list Z) :=
  match ch with
  | [] => Some l
  | (i, c) :: ch' => match lset l i c with Some l' => lsets l' ch' | None => None end
  end.

(* What an update does: a put with changes (column, pointer made by make_column), or run_replace with its create1. *)
Inductive wop := WPut (ch : list (nat * Z)) | WReplace (c : Z).
(* The update in progress: started, or storing columns in place (the changes still to store). *)
Inductive wpc := WBegin (o : wop) | WStore (ch : list (nat * Z)).

(* Readers. run_get (kvrow.hh:124-138) loads the row's address, snapshot (value_versioned_array.cc:29-48) its number of
   columns (31-36), a stable version (37), the columns (39-42, memcpy in any order), a stable version again (43-46). The
   answer is taken from the copy by emit_fields (kvrow.hh:97-107) and col (value_versioned_array.hh:146-151).
   run_get1 (kvrow.hh:140-149) calls col on the row itself: one load of the pointer to test it, one for s, one for len. *)
Inductive rpc :=
| RIdle
| RStart (f : list nat)
| RFirst (f : list nat) (r n : nat)
| RCopy (f : list nat) (r n : nat) (v1 : Z) (todo : list nat) (st : nat -> Z)
| RDone (f : list nat) (res : list Z)
| RBad (f : list nat)
| GStart (i : nat)
| GTest (i r : nat)
| GData (i r : nat)
| GLen (i r : nat) (s : Z)
| GDone (i : nat) (s l : Z)
| GBad (i : nat).

Record vstate := MkV { v_rows : nat -> vrow; v_next : nat; v_cur : nat; v_w : option wpc; v_rd : nat -> rpc }.
Definition v_init (cols : list Z) : vstate :=
  MkV (fun _ => MkVrow 0 cols) 1 0 None (fun _ => RIdle).

Inductive vev := EBegin (o : wop) | EWriter | EGet (t : nat) (f : list nat) | EGet1 (t i : nat) | ERead (t k : nat).

(* Publishing a new row. *)
Definition publish (s : vstate) (cols : list Z) : vstate :=
  MkV (vset (v_rows s) (v_next s) (MkVrow 0 cols)) (S (v_next s)) (v_next s) None (v_rd s).
Definition with_row (s : vstate) (r : vrow) (w : option wpc) : vstate :=
  MkV (vset (v_rows s) (v_cur s) r) (v_next s) (v_cur s) w (v_rd s).

(* ncol of update, value_versioned_array.cc:54. *)
Definition ncol_of (ch : list (nat * Z)) : nat := S (fst (last ch (0%nat, 0))).

(* One step of the update in progress. None: no update, or a store outside the row. *)
Definition wstep (s : vstate) : option vstate :=
  let r := v_rows s (v_cur s) in
  match v_w s with
  | None => None
  (* run_replace: value = R::create1(...), kvrow.hh:229-238 *)
  | Some (WBegin (WReplace c)) => Some (publish s [c])
  | Some (WBegin (WPut ch)) =>
    if (length (vr_cols r) <? ncol_of ch)%nat then
      (* value_versioned_array.cc:56-61, 64-65 and 74-78 on the new row, then kvrow.hh:202-203 *)
      match lsets (vr_cols r ++ repeat 0 (ncol_of ch - length (vr_cols r))) ch with
      | Some cols => Some (publish s cols)
      | None => None
      end
    else
      (* value_versioned_array.cc:67-70 *)
      Some (with_row s (MkVrow (rv_setdirty (vr_ver r)) (vr_cols r)) (Some (WStore ch)))
  (* value_versioned_array.cc:74-78 *)
  | Some (WStore ((i, c) :: ch)) =>
    match lset (vr_cols r) i c with
    | Some cols => Some (with_row s (MkVrow (vr_ver r) cols) (Some (WStore ch)))
    | None => None
    end
  (* value_versioned_array.cc:80-83 *)
  | Some (WStore []) => Some (with_row s (MkVrow (rv_clearandbump (vr_ver r)) (vr_cols r)) None)
  end.

(* The columns copied by snapshot, value_versioned_array.cc:39-42. *)
Definition copied (f : list nat) (n : nat) : list nat := match f with [i] => [i] | _ => seq 0 n end.
(* emit_fields, kvrow.hh:97-107. *)
Definition fields (f : list nat) (n : nat) (st : nat -> Z) : list Z :=
  match f with [] => map st (seq 0 n) | _ => map (fun i => if (i <? n)%nat then st i else 0) f end.

(* One step of reader t; k chooses the next column copied. *)
Definition rstep_pc (s : vstate) (p : rpc) (k : nat) : option rpc :=
  match p with
  | RStart f => let r := v_cur s in Some (RFirst f r (length (vr_cols (v_rows s r))))
  | RFirst f r n =>
    let v := vr_ver (v_rows s r) in
    if rv_dirty v then Some p else Some (RCopy f r n v (copied f n) (fun _ => 0))
  | RCopy f r n v1 [] st =>
    let v2 := vr_ver (v_rows s r) in
    if rv_dirty v2 then Some p
    else if rv_has_changed v1 v2 then Some (RCopy f r n v2 (copied f n) st) else Some (RDone f (fields f n st))
  | RCopy f r n v1 todo st =>
    match nth_error todo k with
    | Some i =>
      match nth_error (vr_cols (v_rows s r)) i with
      | Some c => Some (RCopy f r n v1 (firstn k todo ++ skipn (S k) todo) (vset st i c))
      | None => Some (RBad f)
      end
    | None => None
    end
  | GStart i => Some (GTest i (v_cur s))
  | GTest i r =>
    match nth_error (vr_cols (v_rows s r)) i with
    | Some c => if c =? 0 then Some (GDone i 0 0) else Some (GData i r)
    | None => Some (GDone i 0 0)
    end
  | GData i r =>
    match nth_error (vr_cols (v_rows s r)) i with
    | Some c => if c =? 0 then Some (GBad i) else Some (GLen i r c)
    | None => Some (GBad i)
    end
  | GLen i r d =>
    match nth_error (vr_cols (v_rows s r)) i with
    | Some c => if c =? 0 then Some (GBad i) else Some (GDone i d c)
    | None => Some (GBad i)
    end
  | _ => None
  end.
Definition at_rest (p : rpc) : bool := match p with RIdle | RDone _ _ | RBad _ | GDone _ _ _ | GBad _ => true | _ => false end.
Definition set_rd (s : vstate) (t : nat) (p : rpc) : vstate :=
  MkV (v_rows s) (v_next s) (v_cur s) (v_w s) (vset (v_rd s) t p).

(* None: the event cannot happen now. *)
Definition vstep (s : vstate) (e : vev) : option vstate :=
  match e with
  | EBegin o => match v_w s with None => Some (MkV (v_rows s) (v_next s) (v_cur s) (Some (WBegin o)) (v_rd s)) | Some _ => None end
  | EWriter => wstep s
  | EGet t f => if at_rest (v_rd s t) then Some (set_rd s t (RStart f)) else None
  | EGet1 t i => if at_rest (v_rd s t) then Some (set_rd s t (GStart i)) else None
  | ERead t k => match rstep_pc s (v_rd s t) k with Some p => Some (set_rd s t p) | None => None end
  end.
Fixpoint vrun (s : vstate) (es : list vev) : option vstate :=
  match es with
  | [] => Some s
  | e :: es' => match vstep s e with Some s' => vrun s' es' | None => None end
  end.
