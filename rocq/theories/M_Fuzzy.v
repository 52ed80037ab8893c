(* Checkpoints taken while updates run, and recovery from such a checkpoint and the logs: run_put and run_replace with
   logging (kvrow.hh), check_epoch and record (log.cc), conc_checkpointer (mtd.cc). Definitions only.
   Simplifications:
   - the table is a map from keys to rows (C01, C43, C45) and the lock of a leaf is one lock per key. Rows are value_bag
     rows. No removals (their records cannot be replayed, C24).
   - a scan passes each key at one moment (C46) and once (C33_restores); several keys may be passed in one step.
   - a row is stored when scans can see it: for a new key that is finish (kvrow.hh:175, 217), for an old one the
     assignment to value.
   - what loading a checkpoint restores is what was written (C33). Of the logs only the updates and their epochs are
     kept; which of them recovery finds in the files is the subject of C26. A record is one step: updates that stall
     (log.cc:351-367) are recorded later but are stored already.
   - epochs do not wrap. Memory is sequentially consistent. *)
From Verif Require Import Lib M_Msgpack M_Bag Spec_Log Spec_Row M_Replay.

(* A request: the change set as sent and as parsed, or a replacement of the row. *)
Inductive upd := UPut (cs : list json) (ch : list (Z * list Z)) | UReplace (v : list Z).
Definition upd_rop (o : upd) : rop := match o with UPut _ ch => RPut ch | UReplace v => RReplace v end.

(* A thread: idle; with the leaf locked (find_insert, kvrow.hh:170, 212); with the log locked (183, 225); with the epoch
   read (184, 226); with the row stored (190, 201-203, 237); with the leaf unlocked (finish, 175, 217). *)
Inductive tpc :=
| TIdle
| TKey (l : nat) (k : list Z) (o : upd)
| TLog (l : nat) (k : list Z) (o : upd)
| TEpoch (l : nat) (k : list Z) (o : upd) (e : Z)
| TStored (l : nat) (k : list Z) (e : Z) (en : entry)
| TOpen (l : nat) (k : list Z) (e : Z) (en : entry).

(* A checkpoint: min_epoch (mtd.cc:1657); in the repaired code the logs still to wait for; the keys passed by the scans
   and the rows written; max_epoch (mtd.cc:1556, 1682). *)
Record ckp := MkC { c_min : Z; c_wait : list nat; c_seen : list Z -> bool; c_rows : list Z -> option bag; c_max : option Z }.

(* An update that was stored. *)
Record item := MkI { i_key : list Z; i_rop : rop; i_ts : Z; i_epoch : Z; i_entry : entry }.

(* f_hist, the updates stored so far, newest first, is not used by any step. *)
Record fstate := MkF {
  f_tab : list Z -> option bag; f_klock : list Z -> bool; f_llock : nat -> bool; f_ge : Z; f_pc : nat -> tpc;
  f_log : list (Z * entry); f_ck : option ckp; f_hist : list item }.
(* mtd.cc:708: global_log_epoch = 1. *)
Definition f_init : fstate := MkF (fun _ => None) (fun _ => false) (fun _ => false) 1 (fun _ => TIdle) [] None [].

Definition keq (a b : list Z) : bool := if list_eq_dec Z.eq_dec a b then true else false.
Definition kset {A} (f : list Z -> A) (k : list Z) (v : A) : list Z -> A := fun k' => if keq k' k then v else f k'.
Definition nset {A} (f : nat -> A) (i : nat) (v : A) : nat -> A := fun j => if Nat.eqb j i then v else f j.

(* apply_put and apply_replace, kvrow.hh:187-206, 229-237. *)
Definition new_row (old : option bag) (o : upd) (ts : Z) : option bag :=
  match o, old with
  | UPut _ ch, None => bag_create ch ts
  | UPut _ ch, Some b => bag_update b ch ts
  | UReplace v, _ => bag_create1 v ts
  end.
(* The record, log.cc:335-343; prev_ts is 0 or the timestamp of the old row (kvrow.hh:153-162). *)
Definition new_entry (old : option bag) (k : list Z) (o : upd) (ts : Z) : entry :=
  match o, old with
  | UPut cs _, None => EPut k (flat_map unparse cs) ts
  | UPut cs _, Some b => EModify k (flat_map unparse cs) ts (bag_timestamp b)
  | UReplace v, _ => EReplace k v ts
  end.
(* update_timestamp gives an even timestamp larger than the old row's (C19). *)
Definition ts_ok (old : option bag) (ts : Z) : bool :=
  Z.even ts && (match old with None => 0 | Some b => bag_timestamp b end <? ts) && (ts <? 2 ^ 64).

Inductive fev :=
| FBegin (t l : nat) (k : list Z) (o : upd)
| FStep (t : nat) (ts : Z)
| FAdvance
| CStart
| CSync (l : nat)
| CPass (p : list Z -> bool)
| CEnd.

Definition set_pc (s : fstate) (t : nat) (p : tpc) : fstate :=
  MkF (f_tab s) (f_klock s) (f_llock s) (f_ge s) (nset (f_pc s) t p) (f_log s) (f_ck s) (f_hist s).

(* The next step of thread t; ts is the timestamp it is given. None: it has to wait, or undefined behaviour. *)
Definition tstep (s : fstate) (t : nat) (ts : Z) : option fstate :=
  match f_pc s t with
  | TIdle => None
  | TKey l k o =>
    if f_llock s l then None
    else Some (MkF (f_tab s) (f_klock s) (nset (f_llock s) l true) (f_ge s) (nset (f_pc s) t (TLog l k o)) (f_log s) (f_ck s) (f_hist s))
  | TLog l k o => Some (set_pc s t (TEpoch l k o (f_ge s)))
  | TEpoch l k o e =>
    let old := f_tab s k in
    if ts_ok old ts then
      b <- new_row old o ts;
      let en := new_entry old k o ts in
      Some (MkF (kset (f_tab s) k (Some b)) (f_klock s) (f_llock s) (f_ge s) (nset (f_pc s) t (TStored l k e en)) (f_log s) (f_ck s)
              (MkI k (upd_rop o) ts e en :: f_hist s))
    else None
  | TStored l k e en =>
    Some (MkF (f_tab s) (kset (f_klock s) k false) (f_llock s) (f_ge s) (nset (f_pc s) t (TOpen l k e en)) (f_log s) (f_ck s) (f_hist s))
  (* record, log.cc:294-349 *)
  | TOpen l k e en =>
    Some (MkF (f_tab s) (f_klock s) (nset (f_llock s) l false) (f_ge s) (nset (f_pc s) t TIdle) ((e, en) :: f_log s) (f_ck s) (f_hist s))
  end.
Definition set_ck (s : fstate) (c : ckp) : fstate :=
  MkF (f_tab s) (f_klock s) (f_llock s) (f_ge s) (f_pc s) (f_log s) (Some c) (f_hist s).

(* nlog logs. fix_ = true is the code repaired: after reading min_epoch the checkpointer takes and releases the lock of
   every log before the scans begin. *)
Definition fstep (fix_ : bool) (nlog : nat) (s : fstate) (e : fev) : option fstate :=
  match e with
  | FBegin t l k o =>
    match f_pc s t with
    | TIdle =>
      if f_klock s k || negb (l <? nlog)%nat then None
      else Some (MkF (f_tab s) (kset (f_klock s) k true) (f_llock s) (f_ge s) (nset (f_pc s) t (TKey l k o)) (f_log s) (f_ck s) (f_hist s))
    | _ => None
    end
  | FStep t ts => tstep s t ts
  (* check_epoch, log.cc:225-233 *)
  | FAdvance => Some (MkF (f_tab s) (f_klock s) (f_llock s) (f_ge s + 1) (f_pc s) (f_log s) (f_ck s) (f_hist s))
  (* mtd.cc:1657-1666; not before the last one is prepared *)
  | CStart =>
    match f_ck s with
    | Some (MkC _ _ _ _ None) => None
    | _ => Some (set_ck s (MkC (f_ge s) (if fix_ then seq 0 nlog else []) (fun _ => false) (fun _ => None) None))
    end
  | CSync l =>
    match f_ck s with
    | Some (MkC mn w seen rows None) =>
      if f_llock s l then None else Some (set_ck s (MkC mn (filter (fun l' => negb (l' =? l)%nat) w) seen rows None))
    | _ => None
    end
  (* scan and visit_value, mtd.cc:1540, checkpoint.cc:20-31 *)
  | CPass p =>
    match f_ck s with
    | Some (MkC mn [] seen rows None) =>
      Some (set_ck s (MkC mn [] (fun k => seen k || p k) (fun k => if seen k then rows k else if p k then f_tab s k else None) None))
    | _ => None
    end
  (* prepare_checkpoint, mtd.cc:1682 *)
  | CEnd =>
    match f_ck s with
    | Some (MkC mn w seen rows None) => Some (set_ck s (MkC mn w seen rows (Some (f_ge s))))
    | _ => None
    end
  end.
Fixpoint frun (fix_ : bool) (nlog : nat) (s : fstate) (es : list fev) : option fstate :=
  match es with
  | [] => Some s
  | e :: es' => match fstep fix_ nlog s e with Some s' => frun fix_ nlog s' es' | None => None end
  end.

(* Recovery. The table loaded from the checkpoint, mtd.cc:1269-1320, and the records that are replayed,
   log.cc:708-731, mtd.cc:1458-1459: epochs from min_epoch on and below the end of the range common to all logs. *)
Definition loaded (c : ckp) : rtable := fun k => match c_rows c k with Some b => CRow b | None => CNil end.
Definition wanted_rec (mn mx : Z) (r : Z * entry) : bool :=
  (mn <=? fst r) && (fst r <? mx) && match update_key (snd r) with Some [] | None => false | Some _ => true end.
