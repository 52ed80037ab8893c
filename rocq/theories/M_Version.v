(* Model of nodeversion<nodeversion_parameters<uint32_t>> (nodeversion.hh). Definitions only.
   A version is its word v_ in [0, 2^32). Only the 32-bit parameters (used by every table) are modelled. *)
From Verif Require Import Lib.

(* nodeversion_parameters<uint32_t>, nodeversion.hh:307-322. *)
Definition nv_lock_bit : Z := 2 ^ 0.
Definition nv_inserting_bit : Z := 2 ^ 1.
Definition nv_splitting_bit : Z := 2 ^ 2.
Definition nv_dirty_mask : Z := Z.lor nv_inserting_bit nv_splitting_bit.
Definition nv_vinsert_lowbit : Z := 2 ^ 3.
Definition nv_vsplit_lowbit : Z := 2 ^ 9.
Definition nv_unused1_bit : Z := 2 ^ 28.
Definition nv_deleted_bit : Z := 2 ^ 29.
Definition nv_root_bit : Z := 2 ^ 30.
Definition nv_isleaf_bit : Z := 2 ^ 31.
(* value_type arithmetic: reduction modulo 2^32. *)
Definition nv_wrap (x : Z) : Z := x mod 2 ^ 32.
(* split_unlock_mask and unlock_mask, nodeversion.hh:319-320 (as 32-bit values). *)
Definition nv_split_unlock_mask : Z :=
  nv_wrap (Z.lnot (Z.lor (Z.lor nv_root_bit nv_unused1_bit) (nv_vsplit_lowbit - 1))).
Definition nv_unlock_mask : Z := nv_wrap (Z.lnot (Z.lor nv_unused1_bit (nv_vinsert_lowbit - 1))).

(* constructor, nodeversion.hh:28-30. *)
Definition nv_init (isleaf : bool) : Z := if isleaf then nv_isleaf_bit else 0.
(* isleaf, locked, inserting, splitting, deleted, is_root: nodeversion.hh:32-34, 60-71, 76-78. *)
Definition nv_isleaf (v : Z) : bool := negb (Z.land v nv_isleaf_bit =? 0).
Definition nv_locked (v : Z) : bool := negb (Z.land v nv_lock_bit =? 0).
Definition nv_inserting (v : Z) : bool := negb (Z.land v nv_inserting_bit =? 0).
Definition nv_splitting (v : Z) : bool := negb (Z.land v nv_splitting_bit =? 0).
Definition nv_deleted (v : Z) : bool := negb (Z.land v nv_deleted_bit =? 0).
Definition nv_is_root (v : Z) : bool := negb (Z.land v nv_root_bit =? 0).
(* The loop condition of stable() and stable_annotated(), nodeversion.hh:42, 52. *)
Definition nv_dirty (v : Z) : bool := negb (Z.land v nv_dirty_mask =? 0).
(* has_changed, nodeversion.hh:72-75: v is the current word, x the one read before. *)
Definition nv_has_changed (v x : Z) : bool := nv_lock_bit <? Z.lxor x v.
(* has_split, simple_has_split, nodeversion.hh:79-85. *)
Definition nv_has_split (v x : Z) : bool := nv_vsplit_lowbit <=? Z.lxor x v.

(* The word stored by a successful lock or try_lock, nodeversion.hh:95-98, 122-123. *)
Definition nv_lock (v : Z) : Z := Z.lor v nv_lock_bit.
(* unlock, nodeversion.hh:137-146. *)
Definition nv_unlock (v : Z) : Z :=
  if nv_splitting v
  then Z.land (nv_wrap (v + nv_vsplit_lowbit)) nv_split_unlock_mask
  else Z.land (nv_wrap (v + nv_wrap (Z.shiftl (Z.land v nv_inserting_bit) 2))) nv_unlock_mask.
(* mark_insert, mark_split, mark_deleted, mark_deleted_tree, mark_root, mark_nonroot: nodeversion.hh:148-192.
   mark_change(is_split) is mark_split or mark_insert: (is_split + 1) << inserting_shift, nodeversion.hh:165-169. *)
Inductive nv_mark := MkInsert | MkSplit | MkChange (is_split : bool) | MkDeleted | MkDeletedTree | MkRoot | MkNonroot.
Definition nv_mark_apply (m : nv_mark) (v : Z) : Z :=
  match m with
  | MkInsert => Z.lor v nv_inserting_bit
  | MkSplit => Z.lor v nv_splitting_bit
  | MkChange is_split => Z.lor v (Z.shiftl ((if is_split then 1 else 0) + 1) 1)
  | MkDeleted => Z.lor v (Z.lor nv_deleted_bit nv_splitting_bit)
  | MkDeletedTree => Z.lor v nv_deleted_bit
  | MkRoot => Z.lor v nv_root_bit
  | MkNonroot => Z.land v (nv_wrap (Z.lnot nv_root_bit))
  end.

(* ---- a node's version over a history of its lock holders ---- *)
Inductive nv_event := EvLock | EvMark (m : nv_mark) | EvUnlock.
(* The discipline asserted by the masstree_invariants: lock only when unlocked (the compare-and-swap), mark and
   unlock only when locked. *)
Definition nv_event_ok (v : Z) (e : nv_event) : bool :=
  match e with EvLock => negb (nv_locked v) | EvMark _ | EvUnlock => nv_locked v end.
Definition nv_step (v : Z) (e : nv_event) : Z :=
  match e with EvLock => nv_lock v | EvMark m => nv_mark_apply m v | EvUnlock => nv_unlock v end.
Fixpoint nv_run (v : Z) (es : list nv_event) : option Z :=
  match es with
  | [] => Some v
  | e :: es' => if nv_event_ok v e then nv_run (nv_step v e) es' else None
  end.

(* ---- threads sharing one version word; every load, store and compare-and-swap is one step ---- *)
Inductive nv_pc :=
| PcIdle                      (* not holding the lock, not acquiring it *)
| PcLockTry (expected : Z)    (* about to test and compare-and-swap with this expected word, nodeversion.hh:94-98 *)
| PcLockSpin                  (* about to reload expected, nodeversion.hh:100-101 *)
| PcTry (expected : Z)        (* try_lock, about to compare-and-swap, nodeversion.hh:121-123 *)
| PcHold                      (* holds the lock *)
| PcMark (m : nv_mark) (r : Z)  (* the read-modify-write v_ |= bits has loaded r, not yet stored *)
| PcUnlock (r : Z)            (* unlock has loaded r, not yet stored *)
| PcStable (r : Z)            (* stable() has loaded r, about to test it *)
| PcStableDone (r : Z).       (* stable() returned r *)
Record nv_sys := { sy_v : Z; sy_pc : nat -> nv_pc; sy_dirty : bool (* ghost: a modification is in progress *) }.
Definition nv_upd (f : nat -> nv_pc) (t : nat) (p : nv_pc) : nat -> nv_pc := fun u => if (u =? t)%nat then p else f u.
Definition nv_mark_dirties (m : nv_mark) : bool :=
  match m with MkInsert | MkSplit | MkChange _ | MkDeleted => true | _ => false end.

Inductive nv_sstep : nv_sys -> nv_sys -> Prop :=
| SLockBegin s t e : sy_pc s t = PcIdle -> 0 <= e < 2 ^ 32 ->    (* lock(expected): the caller's stale word *)
    nv_sstep s {| sy_v := sy_v s; sy_pc := nv_upd (sy_pc s) t (PcLockTry e); sy_dirty := sy_dirty s |}
| SLockFail s t e : sy_pc s t = PcLockTry e -> nv_locked e = true \/ sy_v s <> e ->
    nv_sstep s {| sy_v := sy_v s; sy_pc := nv_upd (sy_pc s) t PcLockSpin; sy_dirty := sy_dirty s |}
| SLockReload s t : sy_pc s t = PcLockSpin ->
    nv_sstep s {| sy_v := sy_v s; sy_pc := nv_upd (sy_pc s) t (PcLockTry (sy_v s)); sy_dirty := sy_dirty s |}
| SLockOk s t e : sy_pc s t = PcLockTry e -> nv_locked e = false -> sy_v s = e ->
    nv_sstep s {| sy_v := nv_lock e; sy_pc := nv_upd (sy_pc s) t PcHold; sy_dirty := sy_dirty s |}
| STryLoad s t : sy_pc s t = PcIdle ->
    nv_sstep s {| sy_v := sy_v s; sy_pc := nv_upd (sy_pc s) t (PcTry (sy_v s)); sy_dirty := sy_dirty s |}
| STryFail s t e : sy_pc s t = PcTry e -> nv_locked e = true \/ sy_v s <> e ->
    nv_sstep s {| sy_v := sy_v s; sy_pc := nv_upd (sy_pc s) t PcIdle; sy_dirty := sy_dirty s |}
| STryOk s t e : sy_pc s t = PcTry e -> nv_locked e = false -> sy_v s = e ->
    nv_sstep s {| sy_v := nv_lock e; sy_pc := nv_upd (sy_pc s) t PcHold; sy_dirty := sy_dirty s |}
| SMarkLoad s t m : sy_pc s t = PcHold ->
    nv_sstep s {| sy_v := sy_v s; sy_pc := nv_upd (sy_pc s) t (PcMark m (sy_v s)); sy_dirty := sy_dirty s |}
| SMarkStore s t m r : sy_pc s t = PcMark m r ->
    nv_sstep s {| sy_v := nv_mark_apply m r; sy_pc := nv_upd (sy_pc s) t PcHold;
                  sy_dirty := sy_dirty s || nv_mark_dirties m |}
| SUnlockLoad s t : sy_pc s t = PcHold ->
    nv_sstep s {| sy_v := sy_v s; sy_pc := nv_upd (sy_pc s) t (PcUnlock (sy_v s)); sy_dirty := sy_dirty s |}
| SUnlockStore s t r : sy_pc s t = PcUnlock r ->
    nv_sstep s {| sy_v := nv_unlock r; sy_pc := nv_upd (sy_pc s) t PcIdle; sy_dirty := false |}
| SStableLoad s t : sy_pc s t = PcIdle \/ (exists r, sy_pc s t = PcStable r /\ nv_dirty r = true) ->
    nv_sstep s {| sy_v := sy_v s; sy_pc := nv_upd (sy_pc s) t (PcStable (sy_v s)); sy_dirty := sy_dirty s |}
| SStableDone s t r : sy_pc s t = PcStable r -> nv_dirty r = false ->
    nv_sstep s {| sy_v := sy_v s; sy_pc := nv_upd (sy_pc s) t (PcStableDone r); sy_dirty := sy_dirty s |}
| SStableEnd s t r : sy_pc s t = PcStableDone r ->
    nv_sstep s {| sy_v := sy_v s; sy_pc := nv_upd (sy_pc s) t PcIdle; sy_dirty := sy_dirty s |}.

Inductive nv_reach (v0 : Z) : nv_sys -> Prop :=
| RInit : nv_reach v0 {| sy_v := v0; sy_pc := fun _ => PcIdle; sy_dirty := false |}
| RStep s s' : nv_reach v0 s -> nv_sstep s s' -> nv_reach v0 s'.
(* Executions as lists of states, newest first, for statements about what happened in between. *)
Inductive nv_exec : nv_sys -> list nv_sys -> nv_sys -> Prop :=
| XNil s : nv_exec s [] s
| XStep s l s1 s2 : nv_exec s l s1 -> nv_sstep s1 s2 -> nv_exec s (s1 :: l) s2.
Definition pc_holds (p : nv_pc) : bool :=
  match p with PcHold | PcMark _ _ | PcUnlock _ => true | _ => false end.
