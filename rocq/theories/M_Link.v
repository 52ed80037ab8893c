(* The doubly-linked list of leaves under concurrency: btree_leaflink<N, true>, btree_leaflink.hh:30-96, one memory access
   at a time, sequentially consistent. Nodes are numbers; memory of unlinked nodes is not reused. *)
From Verif Require Import Lib.

(* next_: a pointer, or null, and the mark bit, btree_leaflink.hh:32-37. *)
Definition link := (option nat * bool)%type.
(* Where a thread is. L: link_split(n, nr), btree_leaflink.hh:55-69; U: unlink(n), 72-95; 1 and 2: the load and the
   compare-and-swap of lock_next, 39-48.
     L0 store nr->prev_; L3 store nr->next_; L4 store next->prev_; L5 store n->next_
     U3 load n->prev_; U4 compare-and-swap prev->next_; U5 store next->prev_; U6 store prev->next_ *)
Inductive lpc :=
| LIdle
| L0 (n nr : nat) | L1 (n nr : nat) | L2 (n nr v : nat) | L3 (n nr : nat) (next : option nat) | L4 (n nr : nat) (next : option nat) | L5 (n nr : nat)
| U1 (n : nat) | U2 (n v : nat) | U3 (n : nat) (next : option nat) | U4 (n : nat) (next : option nat) (prev : nat)
| U5 (n : nat) (next : option nat) (prev : nat) | U6 (n : nat) (next : option nat) (prev : nat).
(* l_lk: nodes that are locked or were unlinked; l_used: nodes that were ever in use; l_bad: a null pointer was followed. *)
Record lstate := MkLs { l_nx : nat -> link; l_pv : nat -> option nat; l_pc : nat -> lpc; l_lk : nat -> bool; l_used : nat -> bool; l_bad : bool }.
Definition lset {A} (f : nat -> A) (k : nat) (v : A) : nat -> A := fun x => if Nat.eqb x k then v else f x.
Definition link_eqb (a b : link) : bool :=
  match a, b with
  | (None, m), (None, m') => Bool.eqb m m'
  | (Some x, m), (Some y, m') => Nat.eqb x y && Bool.eqb m m'
  | _, _ => false
  end.
Definition first : nat := 0%nat.
(* One leaf. g and p: what the memory of other nodes contains. *)
Definition l_init (g : nat -> link) (p : nat -> option nat) : lstate :=
  MkLs (lset g first (None, false)) (lset p first None) (fun _ => LIdle) (fun _ => false) (lset (fun _ => false) first true) false.

(* A thread starts an operation, or it makes its next access. *)
Inductive llabel := BeginLink (i n nr : nat) | BeginUnlink (i n : nat) | Access (i : nat).
(* An operation that has finished. *)
Inductive ldone := DLink (n nr : nat) | DUnlink (n : nat).
Definition set_pc (s : lstate) (i : nat) (c : lpc) : lstate := MkLs (l_nx s) (l_pv s) (lset (l_pc s) i c) (l_lk s) (l_used s) (l_bad s).
Definition set_nx (s : lstate) (x : nat) (v : link) : lstate := MkLs (lset (l_nx s) x v) (l_pv s) (l_pc s) (l_lk s) (l_used s) (l_bad s).
Definition set_pv (s : lstate) (x : nat) (v : option nat) : lstate := MkLs (l_nx s) (lset (l_pv s) x v) (l_pc s) (l_lk s) (l_used s) (l_bad s).
Definition set_lk (s : lstate) (x : nat) (v : bool) : lstate := MkLs (l_nx s) (l_pv s) (l_pc s) (lset (l_lk s) x v) (l_used s) (l_bad s).
Definition set_used (s : lstate) (x : nat) : lstate := MkLs (l_nx s) (l_pv s) (l_pc s) (l_lk s) (lset (l_used s) x true) (l_bad s).

Definition access (s : lstate) (i : nat) : option (lstate * list ldone) :=
  let go s' := Some (s', []) in
  match l_pc s i with
  | LIdle => None
  | L0 n nr => go (set_pc (set_pv s nr (Some n)) i (L1 n nr))
  | L1 n nr =>
    match l_nx s n with
    | (None, _) => go (set_pc s i (L3 n nr None))
    | (Some v, true) => go s (* spin *)
    | (Some v, false) => go (set_pc s i (L2 n nr v))
    end
  | L2 n nr v =>
    if link_eqb (l_nx s n) (Some v, false) then go (set_pc (set_nx s n (Some v, true)) i (L3 n nr (Some v))) else go (set_pc s i (L1 n nr))
  | L3 n nr next => go (set_pc (set_nx s nr (next, false)) i (L4 n nr next))
  | L4 n nr next => go (set_pc (match next with Some b => set_pv s b (Some nr) | None => s end) i (L5 n nr))
  | L5 n nr => (* the caller unlocks n and nr some time later *)
    Some (set_pc (set_lk (set_lk (set_nx s n (Some nr, false)) n false) nr false) i LIdle, [DLink n nr])
  | U1 n =>
    match l_nx s n with
    | (None, _) => go (set_pc s i (U3 n None))
    | (Some v, true) => go s
    | (Some v, false) => go (set_pc s i (U2 n v))
    end
  | U2 n v => if link_eqb (l_nx s n) (Some v, false) then go (set_pc (set_nx s n (Some v, true)) i (U3 n (Some v))) else go (set_pc s i (U1 n))
  | U3 n next =>
    match l_pv s n with
    | Some p => go (set_pc s i (U4 n next p))
    | None => go (MkLs (l_nx s) (l_pv s) (l_pc s) (l_lk s) (l_used s) true)
    end
  | U4 n next p =>
    if link_eqb (l_nx s p) (Some n, false) then go (set_pc (set_nx s p (Some n, true)) i (U5 n next p)) else go (set_pc s i (U3 n next))
  | U5 n next p => go (set_pc (match next with Some b => set_pv s b (Some p) | None => s end) i (U6 n next p))
  | U6 n next p => Some (set_pc (set_nx s p (next, false)) i LIdle, [DUnlink n]) (* n stays locked: it is deleted *)
  end.
(* The callers: masstree_split.hh:117 links a new leaf to the right of a locked leaf; masstree_remove.hh:186-211 unlinks
   a locked leaf that has a left neighbour, and nobody locks it again. Only linked leaves that nobody works on are locked. *)
Definition lstep (s : lstate) (a : llabel) : option (lstate * list ldone) :=
  match a with
  | BeginLink i n nr =>
    match l_pc s i with
    | LIdle => if l_used s n && negb (l_lk s n) && negb (l_used s nr)
               then Some (set_pc (set_used (set_lk (set_lk s n true) nr true) nr) i (L0 n nr), []) else None
    | _ => None
    end
  | BeginUnlink i n =>
    match l_pc s i with
    | LIdle => if l_used s n && negb (l_lk s n) && match l_pv s n with Some _ => true | None => false end
               then Some (set_pc (set_lk s n true) i (U1 n), []) else None
    | _ => None
    end
  | Access i => access s i
  end.
Fixpoint lexec (s : lstate) (l : list llabel) : option (lstate * list ldone) :=
  match l with
  | [] => Some (s, [])
  | a :: l' => match lstep s a with
               | None => None
               | Some (s1, d1) => match lexec s1 l' with None => None | Some (s2, d2) => Some (s2, d1 ++ d2) end
               end
  end.
