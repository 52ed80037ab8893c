(* The logger threads and the recording of updates (log.hh, log.cc, class loginfo), several logs, and recovery from the
   files of several logs (mtd.cc, recover). Steps are the critical sections of the log lock; the writing of a buffer
   happens outside the lock and is split into its start and its completion. An update takes the lock and reads the epoch
   in one step and is recorded in a later one. Not modelled: the size of the buffer (an update may stall at any time),
   the waiting list beyond the fact that stalled updates may resume, the updates' effects on the table. *)
From Verif Require Import Lib M_Circular M_Msgpack M_Bag M_Log Spec_Log M_Logfile.

Definition elt (a b : Z) : bool := ci_lt 64 a b.
Definition ele (a b : Z) : bool := ci_le 64 a b.

(* loginfo, log.hh:51-85. l_all: everything recorded so far, oldest first (the file's contents at start-up included);
   the first l_sent entries have been handed to write(), the first l_disk are known to be on disk (fsync has returned),
   so the buffer is empty (pos_ == 0) when l_sent is the length of l_all. l_xe: x_epoch while a write is in progress.
   l_held: the lock is held by an update that has read this epoch. l_stalled: the epochs of the updates in the waiting
   list. *)
Record lg := MkLg { l_epoch : Z; l_quiesce : Z; l_wake : Z; l_flushed : Z; l_all : list entry; l_sent : nat; l_disk : nat;
                    l_xe : option Z; l_held : option Z; l_stalled : list Z }.
(* loginfo::loginfo, log.cc:176-198, with the entries found in the file. *)
Definition lg_init (old : list entry) : lg := MkLg 0 0 0 0 old (length old) (length old) None None [].
(* global_log_epoch, global_wake_epoch (log.cc:33-34) and the logs. *)
Record lset := MkLs { s_epoch : Z; s_wake : Z; s_logs : list lg }.
Definition ls_init (epoch : Z) (old : list (list entry)) : lset := MkLs epoch 0 (map lg_init old).

(* check_epoch, log.cc:225-233: the clock may advance the epoch at any time. *)
Definition ls_tick (s : lset) : lset := MkLs (ci_next_nonzero 64 (s_epoch s)) (s_wake s) (s_logs s).

(* log->acquire(); qtimes_.epoch = global_log_epoch, kvrow.hh:182-185, 224-227, 254-257. *)
Definition lg_begin (ge : Z) (g : lg) : option lg :=
  match l_held g with
  | Some _ => None
  | None => Some (MkLg (l_epoch g) (l_quiesce g) (l_wake g) (l_flushed g) (l_all g) (l_sent g) (l_disk g) (l_xe g) (Some ge) (l_stalled g))
  end.
(* loginfo::record, the buffer is too full: wait, log.cc:350-367. *)
Definition lg_stall (g : lg) : option lg :=
  match l_held g with
  | None => None
  | Some e => Some (MkLg (l_epoch g) (l_quiesce g) (l_wake g) (l_flushed g) (l_all g) (l_sent g) (l_disk g) (l_xe g) None (l_stalled g ++ [e]))
  end.
(* The stalled update at the head of the waiting list takes the lock again, log.cc:366 and 302-303. *)
Definition lg_resume (g : lg) : option lg :=
  match l_held g, l_stalled g with
  | None, e :: r => Some (MkLg (l_epoch g) (l_quiesce g) (l_wake g) (l_flushed g) (l_all g) (l_sent g) (l_disk g) (l_xe g) (Some e) r)
  | _, _ => None
  end.
(* loginfo::record, log.cc:304-348: the log and global_wake_epoch afterwards. *)
Definition lg_commit (we : Z) (u : entry) (g : lg) : option (lg * Z) :=
  match l_held g with
  | None => None
  | Some e =>
    let ep := if e =? l_epoch g then [] else [EEpoch e] in
    let q := negb (l_quiesce g =? 0) in
    let fl := if q && (l_flushed g =? l_quiesce g) then e else l_flushed g in
    let we := if q && elt we e then e else we in
    let w := if negb (we =? l_wake g) && elt e we then e else we in
    let wk := if w =? l_wake g then [] else [EWake] in
    Some (MkLg e 0 w fl (l_all g ++ ep ++ wk ++ [u]) (l_sent g) (l_disk g) (l_xe g) None (l_stalled g), we)
  end.
(* loginfo::run, one round up to write(), log.cc:247-272. *)
Definition lg_logger (ge we : Z) (g : lg) : option lg :=
  match l_held g, l_xe g with
  | None, None =>
    let wake := we in
    let q := if l_wake g =? we then l_quiesce g else 0 in
    let quiesce := (l_sent g =? length (l_all g))%nat && (q =? 0) && negb (ge =? l_epoch g) && negb (ge =? we)
                   && match l_stalled g with [] => true | _ => false end in
    let '(ep, q, all) :=
      if quiesce then (ge, ge, l_all g ++ [EEpoch ge] ++ (if ge =? wake then [EWake] else []) ++ [EQuiesce])
      else (l_epoch g, q, l_all g) in
    if (l_sent g <? length all)%nat
    then Some (MkLg ep q wake (l_flushed g) all (length all) (l_disk g) (Some ep) None (l_stalled g))
    else Some (MkLg ep q wake (l_flushed g) all (l_sent g) (l_disk g) None None (l_stalled g))
  | _, _ => None
  end.
(* write() and fsync() have returned, log.cc:273-277. *)
Definition lg_synced (g : lg) : option lg :=
  match l_xe g with
  | None => None
  | Some x => Some (MkLg (l_epoch g) (l_quiesce g) (l_wake g) x (l_all g) (l_sent g) (l_sent g) None (l_held g) (l_stalled g))
  end.

Inductive act := Tick | Begin (i : nat) | Stall (i : nat) | Resume (i : nat) | Commit (i : nat) (u : entry) | Logger (i : nat) | Synced (i : nat).

Fixpoint set_log (i : nat) (g : lg) (l : list lg) : list lg :=
  match l, i with [], _ => [] | _ :: r, O => g :: r | x :: r, S j => x :: set_log j g r end.
Definition on_log (i : nat) (f : lg -> option lg) (s : lset) : option lset :=
  match nth_error (s_logs s) i with
  | None => None
  | Some g => match f g with Some g' => Some (MkLs (s_epoch s) (s_wake s) (set_log i g' (s_logs s))) | None => None end
  end.
Definition ls_step (s : lset) (a : act) : option lset :=
  match a with
  | Tick => Some (ls_tick s)
  | Begin i => on_log i (lg_begin (s_epoch s)) s
  | Stall i => on_log i lg_stall s
  | Resume i => on_log i lg_resume s
  | Commit i u =>
    match nth_error (s_logs s) i with
    | None => None
    | Some g => match lg_commit (s_wake s) u g with
                | Some (g', we) => Some (MkLs (s_epoch s) we (set_log i g' (s_logs s)))
                | None => None
                end
    end
  | Logger i => on_log i (lg_logger (s_epoch s) (s_wake s)) s
  | Synced i => on_log i lg_synced s
  end.
Fixpoint ls_run (s : lset) (l : list act) : option lset :=
  match l with [] => Some s | a :: l' => match ls_step s a with Some s' => ls_run s' l' | None => None end end.

(* loginfo::quiescent, log.hh:188-190, and max_flushed_epoch, mtd.cc:1591-1603. *)
Definition lg_quiescent (g : lg) : bool := negb (l_quiesce g =? 0) && (l_quiesce g =? l_flushed g).
Definition max_flushed_epoch (s : lset) : Z :=
  fold_left (fun mfe g => let fe := if lg_quiescent g then s_epoch s else l_flushed g in
                          if (mfe =? 0) || elt fe mfe then fe else mfe) (s_logs s) 0.

(* Entries as the bytes of a file; the unwritten bytes of records are taken to be 0. *)
Definition plain (l : list entry) : list (entry * list Z) := map (fun e => (e, [0; 0; 0; 0])) l.
(* The file of a log after a crash: some bytes of what was handed to write(), at least what was synced. *)
Definition crash_file (g : lg) (f : list Z) : Prop :=
  exists n, (length (log_file (plain (firstn (l_disk g) (l_all g)))) <= n)%nat /\ f = firstn n (log_file (plain (firstn (l_sent g) (l_all g)))).

(* Recovery. logreplay::replay, first phase, log.cc:842-851: the info of a file; for an empty or missing file the flag
   quiescent stays uninitialised (mtd.cc:1386), junk stands for its value. *)
Definition file_info (junk : bool) (f : list Z) : option loginf :=
  match f with [] => Some (MkInf 0 0 0 junk) | _ => log_info f end.
(* The loops mtd.cc:1396-1403, 1405-1411, 1413-1419: the largest non-zero epoch. *)
Definition up_max (l : list Z) (start : Z) : Z :=
  fold_left (fun acc e => if negb (e =? 0) && ((acc =? 0) || elt acc e) then e else acc) l start.
(* mtd.cc:1421-1427. *)
Definition min_quiescent (l : list loginf) : Z :=
  fold_left (fun acc it => if in_quiescent it && ((acc =? 0) || elt (in_last it) acc) then in_last it else acc) l 0.
(* mtd.cc:1442-1454; with the wake epochs of the logs. *)
Definition replay_max (l : list (loginf * Z)) (start : Z) : Z :=
  fold_left (fun acc x => let '(it, w) := x in
    let acc := if negb (in_quiescent it) && negb (in_last it =? 0) && elt (in_last it) acc then in_last it else acc in
    if negb (w =? 0) && elt w acc then w else acc) l start.
Fixpoint all_some {A} (l : list (option A)) : option (list A) :=
  match l with [] => Some [] | None :: _ => None | Some x :: l' => match all_some l' with Some r => Some (x :: r) | None => None end end.
Record recovered := MkRec { rec_min : Z; rec_max : Z; rec_logs : list replayed; rec_epoch : Z }.
(* recover, mtd.cc:1355-1492, after the checkpoint with epochs [ck_min, ck_max] has been loaded (0, 0: none). *)
Definition recover (junk : bool) (ck_min ck_max : Z) (files : list (list Z)) : option recovered :=
  infos <- all_some (map (file_info junk) files);
  let max_epoch := up_max (map in_last infos) (if ck_max =? 0 then 0 else ci_next_nonzero 64 ck_max) in
  let max_first := up_max (map in_first infos) 0 in
  let max_wake := up_max (map in_wake infos) 0 in
  let min_q := min_quiescent infos in
  let qe := if negb (max_wake =? 0) && ele min_q max_wake then min_q else 0 in
  wakes <- all_some (map (fun x => match fst x with [] => Some 0 | _ =>
                                   if negb (qe =? 0) && ele qe (in_wake (snd x)) then log_mpqw qe (fst x) else Some 0 end)
                         (combine files infos));
  let rmax := replay_max (combine infos wakes) max_epoch in
  if negb (ck_min =? 0) && negb (elt max_first ck_min && elt ck_min rmax && elt ck_max rmax) then None else
  runs <- all_some (map (fun f => match f with [] => Some (MkRp [] 0 0) | _ => replay_log f ck_min rmax end) files);
  Some (MkRec ck_min rmax runs (ci_next_nonzero 64 rmax)).
(* The files recovery leaves, log.cc:757-789. *)
Definition left_files (files : list (list Z)) (r : recovered) : list (list Z) := map (fun x => kept_log (fst x) (snd x)) (combine files (rec_logs r)).

(* The updates recorded by a run, in the order in which they were recorded, and those a recovery applies. *)
Fixpoint recorded (l : list act) : list entry :=
  match l with [] => [] | Commit _ u :: l' => u :: recorded l' | _ :: l' => recorded l' end.
Definition applied (r : recovered) : list (option entry) := map view (concat (map rp_run (rec_logs r))).
Definition no_stalls (l : list act) : Prop := forall i, ~ In (Stall i) l.
(* Logs found at start-up end before the first epoch of the run. *)
Definition old_ok (epoch : Z) (old : list (list entry)) : Prop := 0 < epoch /\ Forall (fun l => log_ok l /\ epoch_after 0 l < epoch) old.
Definition updates_ok (l : list act) : Prop := forall i u, In (Commit i u) l -> is_upd u /\ entry_ok u.
