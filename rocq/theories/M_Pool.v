(** The memory pools of kvthread.hh/kvthread.cc, from which tree nodes are allocated: one
    free list per thread and per number of cache lines, linked through the first word of
    each free block, and refilled with a page from the system.  Plain [malloc]ed objects
    and the queue of retired objects (kvthread.hh:219-224, 252-259, 326-346) are included
    as far as memory is concerned; when a retired object may be released is M_Limbo's
    matter, here it may happen at any time.

    Left out: memdebug (off by default, so memdebug_size is 0), the mode without pools for
    valgrind (kvthread.cc:205-210), counters, callbacks (memtag -1), the choice between
    huge pages and posix_memalign (the size of a page is a parameter), failure of
    posix_memalign (abort) and of malloc. *)

From Coq Require Import List ZArith Bool.
Import ListNotations.
Open Scope Z_scope.

Inductive res (A : Type) := Fine (a : A) | Bad.
Arguments Fine {A} a.
Arguments Bad {A}.
Definition bind {A B} (x : res A) (f : A -> res B) : res B :=
  match x with Fine a => f a | Bad => Bad end.
Notation "'do' x <- e ; f" := (bind e (fun x => f))
  (at level 200, x pattern, e at level 100, f at level 200, right associativity).
(** An assertion, or memory that must be there: Bad if not. *)
Definition need (b : bool) : res unit := if b then Fine tt else Bad.

(** CACHE_LINE_SIZE (config.h) and pool_max_nlines (kvthread.hh:312). *)
Definition line : Z := 64.
Definition max_nlines : Z := 20.
(** memtag_pool_mask (mtcounters.hh:30) is 0xFF. *)
Definition pool_mask : Z := 255.

(** Memory holds one word of 8 bytes at each address; only addresses divisible by 8 are
    used.  [pages] and [chunks]: what the system has given for pools and by malloc, as
    address and size.  [pool t nl] is [pool_[nl - 1]] of thread [t] (kvthread.hh:313), 0
    for null.  [limbo t] is the thread's queue of retired objects, oldest first, with
    tags.  [vars]: the pointers the user got, in order. *)
Record state := {
  mem : Z -> Z;
  pages : list (Z * Z);
  chunks : list (Z * Z);
  pool : nat -> Z -> Z;
  limbo : nat -> list (Z * Z);
  vars : list Z
}.

Definition within (a : Z) (r : Z * Z) : bool := (fst r <=? a) && (a + 8 <=? fst r + snd r).
Definition mapped (st : state) (a : Z) : bool :=
  existsb (within a) (pages st) || existsb (within a) (chunks st).

Definition upd (m : Z -> Z) (a w : Z) : Z -> Z := fun x => if x =? a then w else m x.

(** Reading and writing a word. *)
Definition rd (st : state) (a : Z) : res Z := do _ <- need (mapped st a); Fine (mem st a).
Definition with_mem (st : state) (m : Z -> Z) : state :=
  {| mem := m; pages := pages st; chunks := chunks st; pool := pool st; limbo := limbo st;
     vars := vars st |}.
Definition wr (st : state) (a w : Z) : res state :=
  do _ <- need (mapped st a); Fine (with_mem st (upd (mem st) a w)).

Definition with_pool (st : state) (t : nat) (nl p : Z) : state :=
  {| mem := mem st; pages := pages st; chunks := chunks st;
     pool := fun t' nl' => if Nat.eqb t' t && (nl' =? nl) then p else pool st t' nl';
     limbo := limbo st; vars := vars st |}.
Definition with_page (st : state) (b n : Z) : state :=
  {| mem := mem st; pages := (b, n) :: pages st; chunks := chunks st; pool := pool st;
     limbo := limbo st; vars := vars st |}.
Definition with_chunks (st : state) (c : list (Z * Z)) : state :=
  {| mem := mem st; pages := pages st; chunks := c; pool := pool st; limbo := limbo st;
     vars := vars st |}.
Definition with_limbo (st : state) (t : nat) (q : list (Z * Z)) : state :=
  {| mem := mem st; pages := pages st; chunks := chunks st; pool := pool st;
     limbo := fun t' => if Nat.eqb t' t then q else limbo st t'; vars := vars st |}.
Definition with_var (st : state) (p : Z) : state :=
  {| mem := mem st; pages := pages st; chunks := chunks st; pool := pool st;
     limbo := limbo st; vars := vars st ++ [p] |}.

(** kvthread.cc:192-200 [initialize_pool], the loop from [off] on; [fuel] bounds the
    rounds. *)
Fixpoint init_loop (fuel : nat) (st : state) (p nextptr off sz unit : Z) : res state :=
  match fuel with
  | O => Bad
  | S f =>
    if off + unit <=? sz then
      do st <- wr st nextptr (p + off);
      init_loop f st p (p + off) (off + unit) sz unit
    else wr st nextptr 0
  end.
Definition initialize_pool (st : state) (p sz unit : Z) : res state :=
  init_loop (S (Z.to_nat sz)) st p p unit sz unit.

(** kvthread.cc:202-254 [refill_pool]; the system answers with the page at [base], of size
    [psz]. *)
Definition refill_pool (psz : Z) (st : state) (t : nat) (nl base : Z) : res state :=
  do _ <- need (pool st t nl =? 0);
  let st := with_page st base psz in
  do st <- initialize_pool st base psz (nl * line);
  Fine (with_pool st t nl base).

(** kvthread.hh:227. *)
Definition nlines (sz : Z) : Z := (sz + line - 1) / line.

(** [pool_[nl - 1]] must exist; the code asserts only the upper bound. *)
Definition in_pools (nl : Z) : bool := (1 <=? nl) && (nl <=? max_nlines).

(** kvthread.hh:226-239 [pool_allocate]. *)
Definition pool_allocate (psz : Z) (st : state) (t : nat) (sz base : Z) : res (state * Z) :=
  let nl := nlines sz in
  do _ <- need (in_pools nl);
  do st <- (if pool st t nl =? 0 then refill_pool psz st t nl base else Fine st);
  let p := pool st t nl in
  if p =? 0 then Fine (st, 0)
  else
    do w <- rd st p;
    Fine (with_pool st t nl w, p).

(** kvthread.hh:245-246 and 335-336: a block is put in front of the free list. *)
Definition push_pool (st : state) (t : nat) (nl p : Z) : res state :=
  do st <- wr st p (pool st t nl);
  Fine (with_pool st t nl p).

(** kvthread.hh:240-251 [pool_deallocate]. *)
Definition pool_deallocate (st : state) (t : nat) (p sz : Z) : res state :=
  let nl := nlines sz in
  do _ <- need (negb (p =? 0) && in_pools nl);
  push_pool st t nl p.

(** kvthread.hh:341-346 [record_rcu]: the queue is M_Limbo's, here a list. *)
Definition record_rcu (st : state) (t : nat) (p tag : Z) : state :=
  with_limbo st t (limbo st t ++ [(p, tag)]).

(** kvthread.hh:252-259 [pool_deallocate_rcu]. *)
Definition pool_deallocate_rcu (st : state) (t : nat) (p sz tag : Z) : res state :=
  let nl := nlines sz in
  do _ <- need (negb (p =? 0) && in_pools nl);
  Fine (record_rcu st t p (tag + nl)).

(** [::malloc]; the system answers [base]. *)
Definition sys_malloc (st : state) (sz base : Z) : state :=
  with_chunks st ((base, sz) :: chunks st).
(** [::free] of something that malloc has not returned is undefined. *)
Fixpoint drop (c : list (Z * Z)) (p : Z) : option (list (Z * Z)) :=
  match c with
  | [] => None
  | x :: c =>
    if fst x =? p then Some c
    else match drop c p with Some c' => Some (x :: c') | None => None end
  end.
Definition sys_free (st : state) (p : Z) : res state :=
  match drop (chunks st) p with Some c => Fine (with_chunks st c) | None => Bad end.

(** kvthread.hh:326-339 [free_rcu], for tags other than memtag(-1). *)
Definition free_rcu (st : state) (t : nat) (p tag : Z) : res state :=
  if Z.land tag pool_mask =? 0 then sys_free st p
  else
    let nl := Z.land tag pool_mask in
    do _ <- need (in_pools nl);
    push_pool st t nl p.

(** ** Leaf nodes *)

(** compiler.hh:696-701 [iceil]: round up to a multiple. *)
Definition iceil (x y : Z) : Z :=
  let mod_ := x mod y in x + (if mod_ =? 0 then 0 else y - mod_).
(** masstree_struct.hh:300; [ss] is sizeof(leaf). *)
Definition leaf_size (ss ksufsize : Z) : Z := iceil (ss + Z.min ksufsize 128) 64.
(** masstree_struct.hh:290. *)
Definition extrasize64 (ss sz : Z) : Z := sz / 64 - (ss + 63) / 64.
(** masstree_struct.hh:772-773: after the first outside suffix bag. *)
Definition mark_dead (e : Z) : Z := if 0 <=? e then - e - 1 else e.
(** masstree_struct.hh:320-323 [allocated_size]. *)
Definition allocated_size (ss e : Z) : Z :=
  let es := if 0 <=? e then e else - e - 1 in
  (ss + es * 64 + 63) / 64 * 64.

(** ** Programs *)

Inductive op :=
| PAlloc (t : nat) (sz base : Z)       (* pool_allocate; [base]: the system's page if one is needed *)
| PFree (t : nat) (k : nat) (sz : Z)   (* pool_deallocate of the k-th object *)
| PRetire (t : nat) (k : nat) (sz tag : Z)  (* pool_deallocate_rcu *)
| MAlloc (t : nat) (sz base : Z)       (* allocate *)
| MFree (t : nat) (k : nat)            (* deallocate *)
| MRetire (t : nat) (k : nat) (tag : Z) (* deallocate_rcu *)
| Release (t : nat)                    (* the oldest retired object of the thread is released *)
| Put (k : nat) (i w : Z)              (* the user writes the i-th word of the k-th object *)
| Get (k : nat) (i : Z).               (* the user reads it *)

Definition var (st : state) (k : nat) : res Z :=
  match nth_error (vars st) k with Some p => Fine p | None => Bad end.

Definition step (psz : Z) (st : state) (o : op) : res (state * option Z) :=
  match o with
  | PAlloc t sz base =>
    do (st, p) <- pool_allocate psz st t sz base;
    Fine (with_var st p, None)
  | PFree t k sz =>
    do p <- var st k;
    do st <- pool_deallocate st t p sz;
    Fine (st, None)
  | PRetire t k sz tag =>
    do p <- var st k;
    do st <- pool_deallocate_rcu st t p sz tag;
    Fine (st, None)
  | MAlloc t sz base =>
    (* kvthread.hh:205-211 *)
    Fine (with_var (sys_malloc st sz base) base, None)
  | MFree t k =>
    (* kvthread.hh:212-218 *)
    do p <- var st k;
    do _ <- need (negb (p =? 0));
    do st <- sys_free st p;
    Fine (st, None)
  | MRetire t k tag =>
    (* kvthread.hh:219-224 *)
    do p <- var st k;
    do _ <- need (negb (p =? 0));
    Fine (record_rcu st t p tag, None)
  | Release t =>
    (* kvthread.cc:86 *)
    match limbo st t with
    | [] => Fine (st, None)
    | (p, tag) :: q =>
      do st <- free_rcu (with_limbo st t q) t p tag;
      Fine (st, None)
    end
  | Put k i w =>
    do p <- var st k;
    do st <- wr st (p + 8 * i) w;
    Fine (st, None)
  | Get k i =>
    do p <- var st k;
    do w <- rd st (p + 8 * i);
    Fine (st, Some w)
  end.

(** kvthread.cc:32-40: all pools empty; memory holds anything. *)
Definition start (m : Z -> Z) : state :=
  {| mem := m; pages := []; chunks := []; pool := fun _ _ => 0; limbo := fun _ => [];
     vars := [] |}.

Fixpoint run (psz : Z) (st : state) (os : list op) : res (state * list (option Z)) :=
  match os with
  | [] => Fine (st, [])
  | o :: os =>
    do (st, x) <- step psz st o;
    do (st, xs) <- run psz st os;
    Fine (st, x :: xs)
  end.
