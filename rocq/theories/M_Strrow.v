(* Rows of type value_string, value_string.hh. A row is its timestamp and its vallen_ bytes s_; None is a byte
   never written. Results None stand for undefined behaviour (an access outside an allocation).
   Not modelled: print, memory accounting. *)
From Verif Require Import Lib M_Bag.

(* class value_string, value_string.hh:63-65; vallen_ = len sr_s. *)
Record srow := MkSrow { sr_ts : Z; sr_s : mem }.
(* value_string::value_string, value_string.hh:84-86. *)
Definition sr_empty : srow := MkSrow 0 [].

(* make_index, index_offset, index_length, value_string.hh:72-82. *)
Definition make_index (offset length : Z) : Z := (offset + length * 2 ^ 16) mod 2 ^ 32.
Definition index_offset (idx : Z) : Z := idx mod 2 ^ 16.
Definition index_length (idx : Z) : Z := idx / 2 ^ 16.

(* timestamp, ncol, value_string.hh:88-98. *)
Definition sr_timestamp (r : srow) : Z := sr_ts r.
Definition sr_ncol (r : srow) : Z := 1.
(* col, value_string.hh:104-111: the memory the Str shows. *)
Definition sr_col (r : srow) (idx : Z) : option mem :=
  if idx =? 0 then rd (sr_s r) 0 (len (sr_s r))
  else let off := Z.min (len (sr_s r)) (index_offset idx) in
       rd (sr_s r) off (Z.min (len (sr_s r) - off) (index_length idx)).

(* The first loop of update, value_string.hh:134-140. *)
Fixpoint sr_sizes (ch : changes) (vallen cut : Z) : Z * Z :=
  match ch with
  | [] => (vallen, cut)
  | (idx, v) :: ch' =>
    sr_sizes ch' (Z.max vallen ((index_offset idx + len v) mod 2 ^ 32)) (if idx =? 0 then len v else cut)
  end.
(* The second loop, value_string.hh:146-149. *)
Fixpoint sr_store (m : mem) (ch : changes) : option mem :=
  match ch with
  | [] => Some m
  | (idx, v) :: ch' => m' <- wr m (index_offset idx) (map Some v); sr_store m' ch'
  end.
(* update, value_string.hh:131-151: memcpy(row->s_, s_, cut) reads cut bytes of the old row. *)
Definition sr_update (r : srow) (ch : changes) (ts : Z) : option srow :=
  let '(vallen, cut) := sr_sizes ch 0 (len (sr_s r)) in
  let vallen := Z.max vallen cut in
  src <- rd (sr_s r) 0 cut;
  m <- wr (repeat None (Z.to_nat vallen)) 0 src;
  m <- sr_store m ch;
  Some (MkSrow ts m).

(* create, create1, value_string.hh:153-167. *)
Definition sr_create (ch : changes) (ts : Z) : option srow := sr_update sr_empty ch ts.
Definition sr_create1 (v : list Z) (ts : Z) : srow := MkSrow ts (map Some v).

(* checkpoint_write, checkpoint_read, value_string.hh:178-190: the string written, the row made of a string. *)
Definition sr_checkpoint_write (r : srow) : mem := sr_s r.
Definition sr_checkpoint_read (v : list Z) (ts : Z) : srow := sr_create1 v ts.
