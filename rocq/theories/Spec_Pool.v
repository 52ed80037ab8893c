(** What users of the pools and of malloc should see: every object has words of its own
    until it is released. *)

From Coq Require Import List ZArith Bool.
From Verif Require Import M_Pool.
Import ListNotations.
Open Scope Z_scope.

(** An object in use, retired by a thread (still there for readers), or released. *)
Inductive status := Live | Retired | Gone.
(** [o_pool]: from a pool, else from malloc.  [o_word i]: what was last written. *)
Record object := { o_size : Z; o_pool : bool; o_stat : status; o_word : Z -> option Z }.

(** The objects in the order they were made, and the retired ones in the order they were
    retired, with the thread. *)
Record world := { objs : list object; queue : list (nat * nat) }.

Definition nothing : world := {| objs := []; queue := [] |}.

Fixpoint replace {A} (l : list A) (i : nat) (a : A) : list A :=
  match l, i with
  | [], _ => []
  | _ :: t, O => a :: t
  | x :: t, S i => x :: replace t i a
  end.

Definition with_stat (o : object) (s : status) : object :=
  {| o_size := o_size o; o_pool := o_pool o; o_stat := s; o_word := o_word o |}.
Definition with_word (o : object) (i w : Z) : object :=
  {| o_size := o_size o; o_pool := o_pool o; o_stat := o_stat o;
     o_word := fun j => if j =? i then Some w else o_word o j |}.

Definition add (v : world) (sz : Z) (p : bool) : world :=
  {| objs := objs v ++ [{| o_size := sz; o_pool := p; o_stat := Live; o_word := fun _ => None |}];
     queue := queue v |}.
Definition set (v : world) (k : nat) (o : object) : world :=
  {| objs := replace (objs v) k o; queue := queue v |}.

(** The object must be live, of the given kind. *)
Definition live (v : world) (k : nat) (p : bool) : option object :=
  match nth_error (objs v) k with
  | Some o => match o_stat o with Live => if Bool.eqb (o_pool o) p then Some o else None | _ => None end
  | None => None
  end.

(** The oldest object thread [t] has retired, and the queue without it. *)
Fixpoint oldest (q : list (nat * nat)) (t : nat) : option (nat * list (nat * nat)) :=
  match q with
  | [] => None
  | (t', k) :: q =>
    if Nat.eqb t' t then Some (k, q)
    else match oldest q t with Some (k', q') => Some (k', (t', k) :: q') | None => None end
  end.

(** The word lies in the object. *)
Definition inside (o : object) (i : Z) : bool := (0 <=? i) && (8 * i + 8 <=? o_size o).

(** One operation: [None] if the user may not do it (an object that is not there, of the
    wrong kind or size, a size without a pool, a tag with low bits, a word outside the
    object or never written). Retired objects may be read but not written. *)
Definition meaning (v : world) (o : op) : option (world * option Z) :=
  match o with
  | PAlloc _ sz _ =>
    if (0 <? sz) && (sz <=? 20 * 64) then Some (add v sz true, None) else None
  | MAlloc _ sz _ => if 0 <? sz then Some (add v sz false, None) else None
  | PFree _ k sz =>
    match live v k true with
    | Some x => if o_size x =? sz then Some (set v k (with_stat x Gone), None) else None
    | None => None
    end
  | MFree _ k =>
    match live v k false with
    | Some x => Some (set v k (with_stat x Gone), None)
    | None => None
    end
  | PRetire t k sz tag =>
    match live v k true with
    | Some x =>
      if (o_size x =? sz) && (tag mod 256 =? 0) then
        Some ({| objs := replace (objs v) k (with_stat x Retired);
                 queue := queue v ++ [(t, k)] |}, None)
      else None
    | None => None
    end
  | MRetire t k tag =>
    match live v k false with
    | Some x =>
      if tag mod 256 =? 0 then
        Some ({| objs := replace (objs v) k (with_stat x Retired);
                 queue := queue v ++ [(t, k)] |}, None)
      else None
    | None => None
    end
  | Release t =>
    match oldest (queue v) t with
    | None => Some (v, None)
    | Some (k, q) =>
      match nth_error (objs v) k with
      | Some x => Some ({| objs := replace (objs v) k (with_stat x Gone); queue := q |}, None)
      | None => None
      end
    end
  | Put k i w =>
    match nth_error (objs v) k with
    | Some x =>
      match o_stat x with
      | Live => if inside x i then Some (set v k (with_word x i w), None) else None
      | _ => None
      end
    | None => None
    end
  | Get k i =>
    match nth_error (objs v) k with
    | Some x =>
      match o_stat x, inside x i, o_word x i with
      | Gone, _, _ => None
      | _, true, Some w => Some (v, Some w)
      | _, _, _ => None
      end
    | None => None
    end
  end.

Fixpoint meanings (v : world) (os : list op) : option (world * list (option Z)) :=
  match os with
  | [] => Some (v, [])
  | o :: os =>
    match meaning v o with
    | Some (v, x) =>
      match meanings v os with Some (v, xs) => Some (v, x :: xs) | None => None end
    | None => None
    end
  end.

(** The system gives memory that it has not given before (or that was freed), never null,
    pages aligned to cache lines and chunks to words, below 2^64. *)
Definition apart (b n : Z) (r : Z * Z) : Prop := b + n <= fst r \/ fst r + snd r <= b.
Definition unused (st : state) (b n : Z) : Prop :=
  0 < b /\ b + n <= 2 ^ 64 /\
  (forall r, In r (pages st) -> apart b n r) /\ (forall r, In r (chunks st) -> apart b n r).
Definition honest (psz : Z) (st : state) (o : op) : Prop :=
  match o with
  | PAlloc t sz base => pool st t (nlines sz) = 0 -> unused st base psz /\ base mod 64 = 0
  | MAlloc _ sz base => unused st base sz /\ base mod 8 = 0
  | _ => True
  end.
Fixpoint honest_run (psz : Z) (st : state) (os : list op) : Prop :=
  match os with
  | [] => True
  | o :: os => honest psz st o /\ forall st' x, step psz st o = Fine (st', x) -> honest_run psz st' os
  end.

(** Objects that are not released lie in different places, in memory the system has given;
    objects from pools start at cache lines. *)
Definition separate (st : state) (v : world) : Prop :=
  length (vars st) = length (objs v) /\
  (forall k x p, nth_error (objs v) k = Some x -> nth_error (vars st) k = Some p -> o_stat x <> Gone ->
     0 < p /\ (o_pool x = true -> p mod 64 = 0) /\
     exists r, In r (pages st ++ chunks st) /\ fst r <= p /\ p + o_size x <= fst r + snd r) /\
  (forall k k' x x' p p', k <> k' ->
     nth_error (objs v) k = Some x -> nth_error (vars st) k = Some p -> o_stat x <> Gone ->
     nth_error (objs v) k' = Some x' -> nth_error (vars st) k' = Some p' -> o_stat x' <> Gone ->
     p + o_size x <= p' \/ p' + o_size x' <= p).

(** ** How much the system is asked for *)

(** The size class: whole cache lines. *)
Definition class (sz : Z) : Z := (sz + 63) / 64.
Definition change (c : nat -> Z -> Z) (t : nat) (nl d : Z) : nat -> Z -> Z :=
  fun t' nl' => if Nat.eqb t' t && (nl' =? nl) then c t' nl' + d else c t' nl'.

(** How many spare blocks each thread has in each class, and how many pages the system has
    given so far. *)
Record store := { spare : nat -> Z -> Z; bought : Z }.
Definition empty_store : store := {| spare := fun _ _ => 0; bought := 0 |}.
Definition take (psz : Z) (s : store) (t : nat) (nl : Z) : store :=
  if spare s t nl =? 0
  then {| spare := change (spare s) t nl (psz / (64 * nl) - 1); bought := bought s + 1 |}
  else {| spare := change (spare s) t nl (-1); bought := bought s |}.
Definition give_back (s : store) (t : nat) (nl : Z) : store :=
  {| spare := change (spare s) t nl 1; bought := bought s |}.

(** Only an allocation by a thread with no spare block of the class needs a page, which is
    cut into as many blocks as fit; every block given back is spare again. *)
Definition deal (psz : Z) (v : world) (s : store) (o : op) : store :=
  match o with
  | PAlloc t sz _ => take psz s t (class sz)
  | PFree t _ sz => give_back s t (class sz)
  | Release t =>
    match oldest (queue v) t with
    | Some (k, _) =>
      match nth_error (objs v) k with
      | Some x => if o_pool x then give_back s t (class (o_size x)) else s
      | None => s
      end
    | None => s
    end
  | _ => s
  end.
Fixpoint deals (psz : Z) (v : world) (s : store) (os : list op) : store :=
  match os with
  | [] => s
  | o :: os =>
    match meaning v o with
    | Some (v', _) => deals psz v' (deal psz v s o) os
    | None => s
    end
  end.

(** Nothing is kept from malloc that is not an object still there. *)
Definition no_leak (st : state) (v : world) : Prop :=
  NoDup (map fst (chunks st)) /\
  forall r, In r (chunks st) -> exists k x, nth_error (vars st) k = Some (fst r) /\
    nth_error (objs v) k = Some x /\ o_stat x <> Gone /\ o_pool x = false /\ o_size x = snd r.
