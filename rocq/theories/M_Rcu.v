(* Epoch-based reclamation by several threads, one memory access at a time, sequentially consistent (kvthread.hh:261-277,
   333-338, 359-370; kvthread.cc:80-138; mtd.cc:930-935). Each thread's queue of retired objects is a list; that limbo
   groups implement such a list is the subject of M_Limbo. A collection may release any number of objects it is allowed to
   release, so the batch size and perform_gc_epoch_ play no role. The threads are fixed: threadinfo::make is called at
   start-up only. One thread at a time runs epochinc. An object released and allocated again counts as another object. *)
From Verif Require Import Lib M_Circular.

(* rcu_start, kvthread.hh:262-266, takes two accesses. RIn: after rcu_start and before the store of rcu_stop. *)
Inductive rpc := RIdle | RStart (loaded : Z) | RIn.
(* A thread: gc_epoch_, the objects it has pointers to, the queue of objects it retired, oldest first, and the value of
   active_epoch that a running hard_rcu_quiesce loaded. *)
Record rthread := MkRt { t_pc : rpc; t_gc : Z; t_refs : list nat; t_q : list (nat * Z); t_bound : option Z }.
(* epochinc: after the load of globalepoch, after the store, and min_active_epoch with its ae and the threads still to
   be looked at. *)
Inductive tpc := TIdle | TInc (loaded : Z) | TStored | TScan (ae : Z) (rest : list nat).
(* The shared state. r_succ: the pointers stored in an object; object 0 is the root of the shared structure, known to all
   threads. r_retired, the epoch at which an object was retired, and r_freed are observations. *)
Record rcu := MkRcu { r_ge : Z; r_active : Z; r_tick : tpc; r_th : nat -> rthread; r_succ : nat -> list nat;
                      r_retired : nat -> option Z; r_freed : nat -> bool }.
Definition root : nat := 0%nat.
Definition r_init (succ : nat -> list nat) : rcu :=
  MkRcu 1 1 TIdle (fun _ => MkRt RIdle 0 [] [] None) succ (fun _ => None) (fun _ => false).

Inductive rlabel :=
| AStartLoad (i : nat) | AStartStore (i : nat) | AFollow (i q p : nat) | ADrop (i p : nat) | AWrite (i q : nat) (ps : list nat)
| ARetire (i p : nat) | ALoadBound (i : nat) | AFree (i : nat) | AStop (i : nat)
| ATickLoad | ATickStore | AScanLoad | AScanOne | AScanEnd.

Definition set_th (s : rcu) (i : nat) (t : rthread) : rcu :=
  MkRcu (r_ge s) (r_active s) (r_tick s) (fun j => if Nat.eqb j i then t else r_th s j) (r_succ s) (r_retired s) (r_freed s).
Definition set_tick (s : rcu) (ge active : Z) (t : tpc) : rcu := MkRcu ge active t (r_th s) (r_succ s) (r_retired s) (r_freed s).
Definition is_in (t : rthread) : bool := match t_pc t with RIn => true | _ => false end.
Definition memb (x : nat) (l : list nat) : bool := existsb (Nat.eqb x) l.

(* One access. n is the number of threads. *)
Definition rstep (n : nat) (s : rcu) (a : rlabel) : option rcu :=
  match a with
  | AStartLoad i => (* kvthread.hh:263; the thread has forgotten its pointers when it calls rcu_start or rcu_quiesce *)
    let t := r_th s i in
    if (i <? n)%nat && match t_pc t with RStart _ => false | _ => true end
    then Some (set_th s i (MkRt (RStart (r_ge s)) (t_gc t) [] (t_q t) None)) else None
  | AStartStore i => (* kvthread.hh:264-265 *)
    let t := r_th s i in
    match t_pc t with RStart v => Some (set_th s i (MkRt RIn v [root] (t_q t) None)) | _ => None end
  | AFollow i q p => (* a load of a pointer from an object the thread has a pointer to *)
    let t := r_th s i in
    if is_in t && memb q (t_refs t) && memb p (r_succ s q)
    then Some (set_th s i (MkRt RIn (t_gc t) (p :: t_refs t) (t_q t) (t_bound t))) else None
  | ADrop i p => (* a pointer is forgotten *)
    let t := r_th s i in
    if is_in t then Some (set_th s i (MkRt RIn (t_gc t) (remove Nat.eq_dec p (t_refs t)) (t_q t) (t_bound t))) else None
  | AWrite i q ps => (* a store into an object, or the construction of one *)
    if is_in (r_th s i)
    then Some (MkRcu (r_ge s) (r_active s) (r_tick s) (r_th s) (fun x => if Nat.eqb x q then ps else r_succ s x) (r_retired s) (r_freed s)) else None
  | ARetire i p => (* record_rcu, kvthread.hh:333-338: the load of globalepoch; the rest is local *)
    let t := r_th s i in
    if is_in t
    then let s1 := set_th s i (MkRt RIn (t_gc t) (t_refs t) (t_q t ++ [(p, r_ge s)]) (t_bound t)) in
         Some (MkRcu (r_ge s1) (r_active s1) (r_tick s1) (r_th s1) (r_succ s1) (fun x => if Nat.eqb x p then Some (r_ge s) else r_retired s x) (r_freed s1))
    else None
  | ALoadBound i => (* kvthread.cc:113 *)
    let t := r_th s i in
    if is_in t then Some (set_th s i (MkRt RIn (t_gc t) (t_refs t) (t_q t) (Some (r_active s)))) else None
  | AFree i => (* kvthread.cc:83-102: the oldest object is released if its epoch is at most epoch_bound = active_epoch - 1 *)
    let t := r_th s i in
    match t_bound t, t_q t with
    | Some b, (p, e) :: q =>
      if is_in t && negb (ci_signed 64 (b - 1 - e) <? 0)
      then let s1 := set_th s i (MkRt RIn (t_gc t) (t_refs t) q (Some b)) in
           Some (MkRcu (r_ge s1) (r_active s1) (r_tick s1) (r_th s1) (r_succ s1) (r_retired s1) (fun x => if Nat.eqb x p then true else r_freed s x))
      else None
    | _, _ => None
    end
  | AStop i => (* kvthread.hh:270; the thread has forgotten its pointers *)
    let t := r_th s i in
    if is_in t then Some (set_th s i (MkRt RIdle 0 [] (t_q t) None)) else None
  | ATickLoad => match r_tick s with TIdle => Some (set_tick s (r_ge s) (r_active s) (TInc (r_ge s))) | _ => None end
  | ATickStore => match r_tick s with TInc v => Some (set_tick s (ci_wrap 64 (v + 2)) (r_active s) TStored) | _ => None end
  | AScanLoad => (* kvthread.hh:360 *)
    match r_tick s with TStored => Some (set_tick s (r_ge s) (r_active s) (TScan (r_ge s) (seq 0 n))) | _ => None end
  | AScanOne => (* kvthread.hh:361-366 *)
    match r_tick s with
    | TScan ae (i :: rest) =>
      let te := t_gc (r_th s i) in
      Some (set_tick s (r_ge s) (r_active s) (TScan (if negb (te =? 0) && (ci_signed 64 (te - ae) <? 0) then te else ae) rest))
    | _ => None
    end
  | AScanEnd => match r_tick s with TScan ae [] => Some (set_tick s (r_ge s) ae TIdle) | _ => None end
  end.
Fixpoint rexec (n : nat) (s : rcu) (l : list rlabel) : option rcu :=
  match l with [] => Some s | a :: l' => match rstep n s a with None => None | Some s1 => rexec n s1 l' end end.
