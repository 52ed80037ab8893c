(* The log entries of Spec_Log as bytes and as decoded records. *)
From Verif Require Import Lib M_Log Spec_Log.

(* The bytes loginfo::record and loginfo::run store for an entry, log.cc:261-268, 332-336, 348-352, 354-362, with the stale
   bytes the buffer held. *)
Definition store_entry (e : entry) (stale : list Z) : list Z :=
  match e with
  | EPut k v ts => enc_kv logcmd_put k v ts stale
  | EReplace k v ts => enc_kv logcmd_replace k v ts stale
  | ERemove k v ts => enc_kv logcmd_remove k v ts stale
  | EModify k v ts prev => enc_kvdelta logcmd_modify k v prev ts stale
  | EEpoch e => enc_epoch logcmd_epoch e
  | EQuiesce => enc_base logcmd_quiesce
  | EWake => enc_base logcmd_wake
  end.
(* What a decoded record says, by its command (struct logrecord, log.cc:424-430). *)
Definition view (lr : logrecord) : option entry :=
  let c := lr_command lr in
  if c =? logcmd_put then Some (EPut (lr_key lr) (lr_val lr) (lr_ts lr))
  else if c =? logcmd_replace then Some (EReplace (lr_key lr) (lr_val lr) (lr_ts lr))
  else if c =? logcmd_remove then Some (ERemove (lr_key lr) (lr_val lr) (lr_ts lr))
  else if c =? logcmd_modify then Some (EModify (lr_key lr) (lr_val lr) (lr_ts lr) (lr_prev lr))
  else if c =? logcmd_epoch then Some (EEpoch (lr_epoch lr))
  else if c =? logcmd_quiesce then Some EQuiesce
  else if c =? logcmd_wake then Some EWake
  else None.
(* A file of entries, each with its stale bytes. *)
Definition log_file (l : list (entry * list Z)) : list Z := concat (map (fun x => store_entry (fst x) (snd x)) l).
Definition entries (l : list (entry * list Z)) : list entry := map fst l.
Definition file_ok (l : list (entry * list Z)) : Prop := Forall (fun x => entry_ok (fst x) /\ len (snd x) = 4) l.
(* A file whose last write was interrupted: the first k bytes of a further entry x follow. *)
Definition torn_file (l : list (entry * list Z)) (x : entry * list Z) (k : nat) : list Z :=
  log_file l ++ firstn k (store_entry (fst x) (snd x)).
(* Recovery repeated on the log that recovery leaves behind (crashes during or right after recovery). *)
Fixpoint replay_times (n : nat) (s : list Z) (min_epoch max_epoch : Z) : option replayed :=
  match n with
  | O => replay_log s min_epoch max_epoch
  | S n' => match replay_log s min_epoch max_epoch with
            | Some r => replay_times n' (kept_log s r) min_epoch max_epoch
            | None => None
            end
  end.
