(* The buffer of one log and the list of updates that wait for room in it (log.hh, log.cc, class loginfo): record and the
   logger thread, with the bytes of both buffers and the pointers of the waiting list. Steps are the critical sections of
   the log lock; write() runs beside them and reads the other buffer when it ends. Not modelled: the lock itself, napms,
   a failing write(). *)
From Verif Require Import Lib M_Circular M_Msgpack M_Bag M_Log Spec_Log M_Logfile M_Logset.

(* The arguments of loginfo::record, log.cc:294-295; mtd.cc:313-337, 980-994 call it with put, replace and remove. *)
Inductive command := CPut | CReplace | CRemove.
Record req := MkReq { q_cmd : command; q_key : list Z; q_val : list Z; q_ts : Z; q_prev : Z; q_epoch : Z }.
(* n, log.cc:297-298: room for the larger kind of record, an epoch and a wake entry. *)
Definition req_size (r : req) : Z := 32 + len (q_key r) + len (q_val r) + 16 + 8.
(* The bytes stored for the update and the number of bytes it takes, log.cc:336-343, 93-121, 123-152: the records are
   padded to 24 and 32 bytes, the padding at the end is not written. *)
Definition is_modify (r : req) : bool := match q_cmd r with CPut => negb (q_prev r =? 0) && Z.even (q_prev r) | _ => false end.
Definition code (c : command) : Z := match c with CPut => logcmd_put | CReplace => logcmd_replace | CRemove => logcmd_remove end.
Definition req_bytes (r : req) : list Z :=
  if is_modify r then enc_kvdelta logcmd_modify (q_key r) (q_val r) (q_prev r) (q_ts r) [] else enc_kv (code (q_cmd r)) (q_key r) (q_val r) (q_ts r) [].
Definition req_step (r : req) : Z := (if is_modify r then 32 else 24) + len (q_key r) + len (q_val r).

(* struct waitlist, log.hh:51-53, one in the frame of every call of record: next points to itself, is null, or points to
   the waitlist of another thread. *)
Inductive link := LSelf | LNull | LNext (t : nat).
(* loginfo, log.hh:29-88. b_buf, b_xbuf: the memory of the two buffers. b_next, b_pc: the frames of the threads inside
   record: the waitlist, and the arguments while the thread naps. b_write: x_pos and x_epoch while write() runs. b_ge,
   b_we: global_log_epoch, global_wake_epoch. *)
Record lb := MkLb { b_len : Z; b_buf : list Z; b_xbuf : list Z; b_pos : Z; b_ep : Z; b_q : Z; b_wk : Z; b_fl : Z; b_wait : option nat;
                    b_next : nat -> link; b_pc : nat -> option req; b_write : option (Z * Z); b_file : list Z; b_ge : Z; b_we : Z }.
(* loginfo::loginfo, log.cc:179-199, and run, log.cc:241-245, with a new file; junk: the contents of fresh memory (the length of a buffer is 20 MB). *)
Definition lb_init (junk1 junk2 : list Z) (ge we : Z) : lb :=
  MkLb (len junk1) junk1 junk2 0 0 0 0 0 None (fun _ => LSelf) (fun _ => None) None [] ge we.
(* UB: a store behind the end of the buffer, a waitlist in a frame that is gone, or an endless walk. *)
Inductive out := No | UB | Ok (s : lb).

(* A store of bytes at pos, after which pos is moved on by step (uint32_t). None: behind the end. *)
Definition emit (bytes : list Z) (step : Z) (x : option (list Z * Z)) : option (list Z * Z) :=
  match x with
  | None => None
  | Some (buf, pos) =>
    let p := Z.to_nat pos in
    if (p + length bytes <=? length buf)%nat then Some (firstn p buf ++ bytes ++ skipn (p + length bytes) buf, (pos + step) mod 2 ^ 32) else None
  end.
Definition pset {A} (f : nat -> A) (t : nat) (x : A) : nat -> A := fun u => if (u =? t)%nat then x else f u.
Definition is_head (w : option nat) (t : nat) : bool := match w with Some u => (u =? t)%nat | None => false end.

(* The pointer stored at a place of the list: None is &f_.waiting_, Some u is &next in the frame of thread u. Result None:
   the frame is gone. *)
Definition deref (s : lb) (p : option nat) : option (option nat) :=
  match p with
  | None => Some (b_wait s)
  | Some u => match b_pc s u with
              | None => None
              | Some _ => Some (match b_next s u with LSelf => Some u | LNull => None | LNext v => Some v end)
              end
  end.
(* while ( *p) p = &( *p)->next, log.cc:353-355. *)
Fixpoint walk (fuel : nat) (s : lb) (p : option nat) : option (option nat) :=
  match fuel with
  | O => None
  | S f => match deref s p with None => None | Some None => Some p | Some (Some v) => walk f s (Some v) end
  end.
(* One round of the loop of loginfo::record by thread t with its waitlist next = nx, log.cc:302-366; n threads. *)
Definition record_round (n t : nat) (r : req) (nx : link) (s : lb) : out :=
  if (req_size r <=? (b_len s - b_pos s) mod 2 ^ 32) && (match nx with LSelf => true | _ => false end || is_head (b_wait s) t) then
    let we0 := b_we s in
    let ep := negb (q_epoch r =? b_ep s) in
    let q := negb (b_q s =? 0) in
    let fl := if q && (b_fl s =? b_q s) then q_epoch r else b_fl s in
    let gwe := if q && elt we0 (q_epoch r) then q_epoch r else we0 in
    let we := if negb (gwe =? b_wk s) && elt (q_epoch r) gwe then q_epoch r else gwe in
    let wk := negb (we =? b_wk s) in
    let b := Some (b_buf s, b_pos s) in
    let b := if ep then emit (enc_epoch logcmd_epoch (q_epoch r)) 16 b else b in
    let b := if wk then emit (enc_base logcmd_wake) 8 b else b in
    match emit (req_bytes r) (req_step r) b with
    | None => UB
    | Some (buf, pos) =>
      Ok (MkLb (b_len s) buf (b_xbuf s) pos (q_epoch r) 0 we fl
               (if is_head (b_wait s) t then match nx with LSelf => Some t | LNull => None | LNext v => Some v end else b_wait s)
               (b_next s) (pset (b_pc s) t None) (b_write s) (b_file s) (b_ge s) gwe)
    end
  else
    match nx with
    | LSelf =>
      match walk (S n) s None with
      | None => UB
      | Some None =>
        Ok (MkLb (b_len s) (b_buf s) (b_xbuf s) (b_pos s) (b_ep s) (b_q s) (b_wk s) (b_fl s) (Some t) (pset (b_next s) t LNull) (pset (b_pc s) t (Some r))
                 (b_write s) (b_file s) (b_ge s) (b_we s))
      | Some (Some u) =>
        Ok (MkLb (b_len s) (b_buf s) (b_xbuf s) (b_pos s) (b_ep s) (b_q s) (b_wk s) (b_fl s) (b_wait s) (pset (pset (b_next s) u (LNext t)) t LNull) (pset (b_pc s) t (Some r))
                 (b_write s) (b_file s) (b_ge s) (b_we s))
      end
    | _ => Ok s
    end.
(* loginfo::run, one round up to write(), log.cc:248-273, when not recovering. *)
Definition logger_round (s : lb) : out :=
  match b_write s with
  | Some _ => No
  | None =>
    let wk := b_we s in
    let q := if b_wk s =? b_we s then b_q s else 0 in
    let quiesce := (b_pos s =? 0) && (q =? 0) && negb (b_ge s =? b_ep s) && negb (b_ge s =? b_we s) && match b_wait s with None => true | Some _ => false end in
    let '(ep, q, b) :=
      if quiesce then
        let b := emit (enc_epoch logcmd_epoch (b_ge s)) 16 (Some (b_buf s, 0)) in
        let b := if b_ge s =? wk then emit (enc_base logcmd_wake) 8 b else b in
        (b_ge s, b_ge s, emit (enc_base logcmd_quiesce) 8 b)
      else (b_ep s, q, Some (b_buf s, b_pos s)) in
    match b with
    | None => UB
    | Some (buf, pos) =>
      if 0 <? pos
      then Ok (MkLb (b_len s) (b_xbuf s) buf 0 ep q wk (b_fl s) (b_wait s) (b_next s) (b_pc s) (Some (pos, ep)) (b_file s) (b_ge s) (b_we s))
      else Ok (MkLb (b_len s) buf (b_xbuf s) pos ep q wk (b_fl s) (b_wait s) (b_next s) (b_pc s) None (b_file s) (b_ge s) (b_we s))
    end
  end.
(* write() and fsync() have returned, log.cc:274-277. *)
Definition logger_written (s : lb) : out :=
  match b_write s with
  | None => No
  | Some (x_pos, x_epoch) =>
    Ok (MkLb (b_len s) (b_buf s) (b_xbuf s) (b_pos s) (b_ep s) (b_q s) (b_wk s) x_epoch (b_wait s) (b_next s) (b_pc s) None
             (b_file s ++ firstn (Z.to_nat x_pos) (b_xbuf s)) (b_ge s) (b_we s))
  end.

(* Call: a thread enters record; Again: a napping thread takes the lock again, log.cc:366; Clock: check_epoch, log.cc:225-233;
   OtherWake: another log sets global_wake_epoch, log.cc:320-321. *)
Inductive bact := Call (t : nat) (r : req) | Again (t : nat) | Round | Written | Clock | OtherWake (e : Z).
Definition bstep (n : nat) (s : lb) (a : bact) : out :=
  match a with
  | Call t r => match b_pc s t with None => if (t <? n)%nat then record_round n t r LSelf s else No | Some _ => No end
  | Again t => match b_pc s t with Some r => record_round n t r (b_next s t) s | None => No end
  | Round => logger_round s
  | Written => logger_written s
  | Clock => Ok (MkLb (b_len s) (b_buf s) (b_xbuf s) (b_pos s) (b_ep s) (b_q s) (b_wk s) (b_fl s) (b_wait s) (b_next s) (b_pc s) (b_write s) (b_file s) (ci_next_nonzero 64 (b_ge s)) (b_we s))
  | OtherWake e => Ok (MkLb (b_len s) (b_buf s) (b_xbuf s) (b_pos s) (b_ep s) (b_q s) (b_wk s) (b_fl s) (b_wait s) (b_next s) (b_pc s) (b_write s) (b_file s) (b_ge s) (if elt (b_we s) e then e else b_we s))
  end.
Fixpoint brun (n : nat) (s : lb) (l : list bact) : out :=
  match l with [] => Ok s | a :: l' => match bstep n s a with Ok s' => brun n s' l' | x => x end end.
