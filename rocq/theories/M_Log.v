(* Log records and the reading of log files (log.hh, log.cc). A log file is a list of bytes. Little-endian.
   Results None stand for undefined behaviour or a failed assertion: a read behind the end of the file, assert,
   always_assert. Not modelled: mmap and its failure, messages, the write-back of the kept part (only which bytes
   are kept). *)
From Verif Require Import Lib M_Key M_Circular M_Msgpack M_Bag.

(* enum logcommand, log.hh:120-129. *)
Definition logcmd_none : Z := 0.
Definition logcmd_put : Z := 0x5455506B.
Definition logcmd_replace : Z := 0x3155506B.
Definition logcmd_modify : Z := 0x444F4D6B.
Definition logcmd_remove : Z := 0x4D45526B.
Definition logcmd_epoch : Z := 0x4F50456B.
Definition logcmd_quiesce : Z := 0x4955516B.
Definition logcmd_wake : Z := 0x4B41576B.
(* MASSTREE_MAXKEYLEN, configure.ac:332-336. *)
Definition maxkeylen : Z := 255.

(* logrec_base::store, log.cc:54-60. *)
Definition enc_base (command : Z) : list Z := le_bytes 4 command ++ le_bytes 4 8.
(* logrec_epoch::store, log.cc:79-86. *)
Definition enc_epoch (command epoch : Z) : list Z := le_bytes 4 command ++ le_bytes 4 16 ++ le_bytes 8 epoch.
(* logrec_kv::store, log.cc:103-116. buf_ lies at byte 20, sizeof is 24: four bytes at the end of the record are
   not written and keep what the buffer held (stale). *)
Definition enc_kv (command : Z) (key val : list Z) (ts : Z) (stale : list Z) : list Z :=
  le_bytes 4 command ++ le_bytes 4 ((24 + len key + len val) mod 2 ^ 32) ++ le_bytes 8 ts ++ le_bytes 4 (len key) ++
  key ++ val ++ stale.
(* logrec_kvdelta::store, log.cc:135-149: buf_ at 28, sizeof 32. *)
Definition enc_kvdelta (command : Z) (key val : list Z) (prev_ts ts : Z) (stale : list Z) : list Z :=
  le_bytes 4 command ++ le_bytes 4 ((32 + len key + len val) mod 2 ^ 32) ++ le_bytes 8 ts ++ le_bytes 8 prev_ts ++
  le_bytes 4 (len key) ++ key ++ val ++ stale.

(* struct logrecord, log.cc:424-430. *)
Record logrecord := MkLr { lr_command : Z; lr_key : list Z; lr_val : list Z; lr_ts : Z; lr_prev : Z; lr_epoch : Z }.
(* A fresh one; ts and prev_ts are not initialised, no code reads them before they are set. *)
Definition lr_init : logrecord := MkLr 0 [] [] 0 0 0.

(* Loads at byte k. *)
Definition ld (s : list Z) (k n : nat) : option Z := b <- bytes_at s k n; Some (le_val b).

(* logrecord::extract, log.cc:442-490: the record read at the start of s (up to the end of the file) and what follows
   the record. *)
Definition extract (lr : logrecord) (s : list Z) : option (logrecord * list Z) :=
  let fail := Some (MkLr logcmd_none (lr_key lr) (lr_val lr) (lr_ts lr) (lr_prev lr) (lr_epoch lr), []) in
  if len s <? 8 then fail else
  size <- ld s 4 4;
  if size <? 8 then fail else
  if len s <? size then fail else
  command <- ld s 0 4;
  if command =? logcmd_none then fail else
  let next := skipn (Z.to_nat size) s in
  if (command =? logcmd_put) || (command =? logcmd_replace) || (command =? logcmd_remove) then
    if size <? 24 then fail else
    keylen <- ld s 16 4;
    if (maxkeylen <? keylen) || (size <? 24 + keylen) then fail else
    ts <- ld s 8 8;
    key <- bytes_at s 20 (Z.to_nat keylen);
    val <- bytes_at s (20 + Z.to_nat keylen) (Z.to_nat (size - 24 - keylen));
    Some (MkLr command key val ts (lr_prev lr) (lr_epoch lr), next)
  else if command =? logcmd_modify then
    keylen <- ld s 24 4;
    if (maxkeylen <? keylen) || (size <? 32 + keylen) then fail else
    ts <- ld s 8 8;
    prev <- ld s 16 8;
    key <- bytes_at s 28 (Z.to_nat keylen);
    val <- bytes_at s (28 + Z.to_nat keylen) (Z.to_nat (size - 32 - keylen));
    Some (MkLr command key val ts prev (lr_epoch lr), next)
  else if command =? logcmd_epoch then
    if size <? 16 then fail else
    e <- ld s 8 8;
    Some (MkLr command (lr_key lr) (lr_val lr) (lr_ts lr) (lr_prev lr) e, next)
  else Some (MkLr command (lr_key lr) (lr_val lr) (lr_ts lr) (lr_prev lr) (lr_epoch lr), next).

(* Reading record after record as replayandclean1 does, log.cc:712-718: the records and what is left at the first
   failure. Every record takes at least 8 bytes, so the fuel (the length of the file) suffices. *)
Fixpoint extract_all (fuel : nat) (lr : logrecord) (s : list Z) : option (list logrecord) :=
  match s with
  | [] => Some []
  | _ =>
    match fuel with
    | O => None
    | S f =>
      x <- extract lr s;
      let '(lr', next) := x in
      if lr_command lr' =? logcmd_none then Some []
      else l <- extract_all f lr' next; Some (lr' :: l)
    end
  end.
Definition read_log (s : list Z) : option (list logrecord) := extract_all (length s) lr_init s.

(* struct logreplay::info_type, log.hh:138-144, and logreplay::info, log.cc:598-656. min_post_quiescent_wake_epoch is
   filled in later. Unknown commands stop the loop in builds with assertions (log.cc:637-645, "#if !NDEBUG"). *)
Record loginf := MkInf { in_first : Z; in_last : Z; in_wake : Z; in_quiescent : bool }.
Definition inf_init : loginf := MkInf 0 0 0 true.
Definition known_command (c : Z) : bool :=
  (c =? logcmd_put) || (c =? logcmd_replace) || (c =? logcmd_modify) || (c =? logcmd_remove) || (c =? logcmd_quiesce).
Fixpoint info_loop (fuel : nat) (x : loginf) (s : list Z) : option loginf :=
  if len s <? 8 then Some x else
  match fuel with
  | O => None
  | S f =>
    size <- ld s 4 4;
    if size <? 8 then Some x else
    if len s <? size then Some x else
    command <- ld s 0 4;
    let next := skipn (Z.to_nat size) s in
    let q := command =? logcmd_quiesce in
    if command =? logcmd_epoch then
      if size <? 16 then Some (MkInf (in_first x) (in_last x) (in_wake x) q) else
      e <- ld s 8 8;
      let first := if in_first x =? 0 then e else in_first x in
      let wake := if negb (in_wake x =? 0) && ci_gt 64 (in_wake x) e then 0 else in_wake x in
      info_loop f (MkInf first e wake q) next
    else if command =? logcmd_wake then info_loop f (MkInf (in_first x) (in_last x) (in_last x) q) next
    else if known_command command then info_loop f (MkInf (in_first x) (in_last x) (in_wake x) q) next
    else Some (MkInf (in_first x) (in_last x) (in_wake x) q)
  end.
Definition log_info (s : list Z) : option loginf := info_loop (length s) inf_init s.

(* logreplay::min_post_quiescent_wake_epoch, log.cc:658-690. *)
Fixpoint mpqw_loop (fuel : nat) (e qe : Z) (s : list Z) : option Z :=
  if len s <? 8 then Some 0 else
  match fuel with
  | O => None
  | S f =>
    size <- ld s 4 4;
    if size <? 8 then Some 0 else
    if len s <? size then Some 0 else
    command <- ld s 0 4;
    let next := skipn (Z.to_nat size) s in
    if command =? logcmd_epoch then
      if size <? 16 then Some 0 else e' <- ld s 8 8; mpqw_loop f e' qe next
    else if (command =? logcmd_wake) && negb (e =? 0) && ci_ge 64 e qe then Some e
    else mpqw_loop f e qe next
  end.
Definition log_mpqw (qe : Z) (s : list Z) : option Z := mpqw_loop (length s) 0 qe s.

(* logreplay::replayandclean1, log.cc:692-756: the records passed to run, in order, and the part [begin, end) of the
   file that is kept. *)
Record replayed := MkRp { rp_run : list logrecord; rp_begin : Z; rp_end : Z }.
Definition is_update (c : Z) : bool :=
  (c =? logcmd_put) || (c =? logcmd_replace) || (c =? logcmd_modify) || (c =? logcmd_remove).
(* log.cc:750-755. *)
Definition rp_done (run : list logrecord) (rb re : option Z) (pos : Z) : replayed :=
  match rb with
  | None => MkRp run 0 0
  | Some b => MkRp run b (match re with Some e => e | None => pos end)
  end.
Fixpoint replay_loop (fuel : nat) (lr : logrecord) (s : list Z) (pos min_epoch max_epoch : Z)
    (rb re : option Z) (run : list logrecord) : option replayed :=
  match s with
  | [] => Some (rp_done run rb re pos)
  | _ =>
    match fuel with
    | O => None
    | S f =>
      x <- extract lr s;
      let '(lr, next) := x in
      let nextpos := pos + (len s - len next) in
      if lr_command lr =? logcmd_none then Some (rp_done run rb re pos) else
      let is_epoch := lr_command lr =? logcmd_epoch in
      let rb := if is_epoch && ((negb (min_epoch =? 0) && ci_lt 64 (lr_epoch lr) min_epoch)
                                || ((min_epoch =? 0) && match rb with None => true | Some _ => false end))
                then Some pos else rb in
      if is_epoch && ci_ge 64 (lr_epoch lr) max_epoch then
        match rb with None => None | Some _ => Some (rp_done run rb (Some nextpos) pos) end
      else if (lr_epoch lr =? 0) || (negb (min_epoch =? 0) && ci_lt 64 (lr_epoch lr) min_epoch) then
        replay_loop f lr next nextpos min_epoch max_epoch rb (match rb with Some _ => Some nextpos | None => re end) run
      else
        match rb with
        | None => None
        | Some _ =>
          let run := if negb (len (lr_key lr) =? 0) && is_update (lr_command lr) then run ++ [lr] else run in
          replay_loop f lr next nextpos min_epoch max_epoch rb (Some nextpos) run
        end
    end
  end.
Definition replay_log (s : list Z) (min_epoch max_epoch : Z) : option replayed :=
  replay_loop (length s) lr_init s 0 min_epoch max_epoch None None [].
(* The file left behind, log.cc:757-789. *)
Definition kept_log (s : list Z) (r : replayed) : list Z := firstn (Z.to_nat (rp_end r - rp_begin r)) (skipn (Z.to_nat (rp_begin r)) s).
