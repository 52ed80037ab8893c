(* small_vector (small_vector.hh): elements as objects that are constructed, moved from and destroyed, storage inside the
   vector or on the heap. Any number of vectors of one element type and one N; elements hold a number. Not modelled:
   allocators with state, exceptions, iterators kept by the caller across calls, push_back of an rvalue and emplace_back
   (they differ from push_back in how the new element is made). *)
From Verif Require Import Lib.

(* A cell of storage: raw memory, or an object; Obj None: an object that has been moved from. *)
Inductive cell := Raw | Obj (o : option Z).
(* lv_ of vector i, small_vector.hh:71, or an allocation. *)
Inductive place := Inl (i : nat) | Hp (b : nat).
(* Comparison of first_ with lv_, small_vector.hh:111, 150. *)
Definition place_eqb (p q : place) : bool := match p, q with Inl i, Inl j => (i =? j)%nat | Hp a, Hp b => (a =? b)%nat | _, _ => false end.
(* Storage: lv_ (small_vector.hh:71) and the blocks of atraits::allocate (145); None: not there. *)
Definition mem := place -> option (list cell).
(* Storage with one block replaced. *)
Definition mput (m : mem) (p : place) (b : option (list cell)) : mem := fun q => if place_eqb q p then b else m q.
(* rep, small_vector.hh:67-74: first_, last_ - first_, capacity_ - first_. *)
Record sv := MkSv { v_first : place; v_size : nat; v_cap : nat }.
(* All vectors by name, storage, and the next block that atraits::allocate (small_vector.hh:145) returns; it never returns a block twice, where a real one may reuse freed ones. *)
Record vst := MkVst { s_env : nat -> option sv; s_mem : mem; s_next : nat }.
(* The vectors with one replaced. *)
Definition eput (e : nat -> option sv) (i : nat) (v : option sv) : nat -> option sv := fun j => if (j =? i)%nat then v else e j.

(* Access to cells. None: undefined behaviour (outside the storage, released storage, an object where there should be
   none, none where there should be one, or the value of an object that was moved from). *)
Fixpoint set_nth (b : list cell) (k : nat) (c : cell) : list cell :=
  match b, k with [], _ => [] | _ :: r, O => c :: r | x :: r, S k' => x :: set_nth r k' c end.
Definition cget (m : mem) (p : place) (k : nat) : option cell := match m p with Some b => nth_error b k | None => None end.
Definition cset (m : mem) (p : place) (k : nat) (c : cell) : mem := mput m p (match m p with Some b => Some (set_nth b k c) | None => None end).
(* atraits::construct with a value, atraits::destroy. *)
Definition construct (m : mem) (p : place) (k : nat) (v : Z) : option mem :=
  match cget m p k with Some Raw => Some (cset m p k (Obj (Some v))) | _ => None end.
Definition destroy (m : mem) (p : place) (k : nat) : option mem :=
  match cget m p k with Some (Obj _) => Some (cset m p k Raw) | _ => None end.
Definition value (m : mem) (p : place) (k : nat) : option Z := match cget m p k with Some (Obj (Some v)) => Some v | _ => None end.
(* atraits::construct(r_, mit, std::move( *it)), small_vector.hh:147. *)
Definition construct_moved (m : mem) (p : place) (k : nat) (q : place) (j : nat) : option mem :=
  match cget m p k, cget m q j with Some (Obj o), Some Raw => Some (cset (cset m p k (Obj None)) q j (Obj o)) | _, _ => None end.
(* *it = std::move( *last), small_vector.hh:333. *)
Definition assign_moved (m : mem) (p : place) (k j : nat) : option mem :=
  match cget m p k, cget m p j with Some (Obj o), Some (Obj _) => Some (cset (cset m p k (Obj None)) p j (Obj o)) | _, _ => None end.

(* Loops: destroy cnt objects from k on (small_vector.hh:109-110, 280-281, 292-293, 335-336); the move of grow, 146-149;
   resize's second loop, 294-295; copies, 305-306; erase's first loop, 332-333. *)
Fixpoint destroy_n (cnt : nat) (m : mem) (p : place) (k : nat) : option mem :=
  match cnt with O => Some m | S c => match destroy m p k with Some m1 => destroy_n c m1 p (S k) | None => None end end.
Fixpoint relocate (cnt : nat) (m : mem) (p q : place) (k : nat) : option mem :=
  match cnt with
  | O => Some m
  | S c => match construct_moved m p k q k with
           | Some m1 => match destroy m1 p k with Some m2 => relocate c m2 p q (S k) | None => None end
           | None => None
           end
  end.
Fixpoint fill (cnt : nat) (m : mem) (p : place) (k : nat) (v : Z) : option mem :=
  match cnt with O => Some m | S c => match construct m p k v with Some m1 => fill c m1 p (S k) v | None => None end end.
Fixpoint copy_n (cnt : nat) (m : mem) (p q : place) (k : nat) : option mem :=
  match cnt with
  | O => Some m
  | S c => match value m p k with
           | Some v => match construct m q k v with Some m1 => copy_n c m1 p q (S k) | None => None end
           | None => None
           end
  end.
Fixpoint shift (cnt : nat) (m : mem) (p : place) (it last : nat) : option mem :=
  match cnt with O => Some m | S c => match assign_moved m p last it with Some m1 => shift c m1 p (S it) (S last) | None => None end end.

(* atraits::deallocate: the block must be one of this size without objects (an object in it would be lost). *)
Definition all_raw (b : list cell) : bool := forallb (fun c => match c with Raw => true | _ => false end) b.
Definition release (m : mem) (p : place) (cap : nat) : option mem :=
  match m p with Some b => if (length b =? cap)%nat && all_raw b then Some (mput m p None) else None | None => None end.

(* The capacity chosen by grow, small_vector.hh:142-144: capacity() * 2 is an unsigned product, the loop doubles a size_t;
   None: the loop does not end. *)
Fixpoint double_to (fuel : nat) (c n : Z) : option Z :=
  if n <=? c then Some c else match fuel with O => None | S f => double_to f (c * 2 mod 2 ^ 64) n end.
Definition new_cap (cap n : Z) : option Z := double_to 64 (cap * 2 mod 2 ^ 32) n.
(* grow(n) of vector i, small_vector.hh:141-155. *)
Definition grow (i n : nat) (s : vst) : option vst :=
  match s_env s i with
  | None => None
  | Some v =>
    match new_cap (Z.of_nat (v_cap v)) (Z.of_nat n) with
    | None => None
    | Some c =>
      let q := Hp (s_next s) in
      match relocate (v_size v) (mput (s_mem s) q (Some (repeat Raw (Z.to_nat c)))) (v_first v) q 0 with
      | None => None
      | Some m =>
        let done m' := Some (MkVst (eput (s_env s) i (Some (MkSv q (v_size v) (Z.to_nat c)))) m' (S (s_next s))) in
        match v_first v with
        | Inl _ => done m
        | Hp b => match release m (Hp b) (v_cap v) with Some m' => done m' | None => None end
        end
      end
    end
  end.
(* r_.last_ == r_.capacity_, small_vector.hh:249. *)
Definition full (i : nat) (s : vst) : bool := match s_env s i with Some v => (v_size v =? v_cap v)%nat | None => false end.
(* The tests before grow, small_vector.hh:249-250, 287-288, 303-304. *)
Definition maybe_grow (b : bool) (i n : nat) (s : vst) : option vst := if b then grow i n s else Some s.
(* construct at last_ and ++last_, small_vector.hh:251-252. *)
Definition append (i : nat) (v : Z) (s : vst) : option vst :=
  match s_env s i with
  | None => None
  | Some x => match construct (s_mem s) (v_first x) (v_size x) v with
              | Some m => Some (MkVst (eput (s_env s) i (Some (MkSv (v_first x) (S (v_size x)) (v_cap x)))) m (s_next s))
              | None => None
              end
  end.
(* push_back(const T& x) with x outside all vectors, and with x = element k of vector j, small_vector.hh:248-253. fix_: the
   repaired code copies x before it grows. *)
Definition push (i : nat) (v : Z) (s : vst) : option vst := match maybe_grow (full i s) i 0 s with Some s1 => append i v s1 | None => None end.
Definition push_at (fix_ : bool) (i j k : nat) (s : vst) : option vst :=
  match s_env s j with
  | None => None
  | Some y =>
    if fix_ then match value (s_mem s) (v_first y) k with Some v => push i v s | None => None end
    else match maybe_grow (full i s) i 0 s with
         | None => None
         | Some s1 => match value (s_mem s1) (v_first y) k with Some v => append i v s1 | None => None end
         end
  end.
(* The copy constructor, small_vector.hh:92-97: one push_back for each element of j. *)
Fixpoint push_all (cnt i j k : nat) (s : vst) : option vst :=
  match cnt with O => Some s | S c => match push_at false i j k s with Some s1 => push_all c i j (S k) s1 | None => None end end.
(* Storage and r_ of vector i after a call. *)
Definition set_mem (s : vst) (m : mem) (i : nat) (v : sv) : vst := MkVst (eput (s_env s) i (Some v)) m (s_next s).

(* The calls, small_vector.hh:20-64, with the vectors they are made on. *)
Inductive vop := New (i : nat) | Copy (i j : nat) | Drop (i : nat) | Push (i : nat) (v : Z) | PushAt (i j k : nat) | Pop (i : nat) | Clear (i : nat)
  | Resize (i n : nat) (v : Z) | Erase (i a b : nat) | Put (i k : nat) (v : Z) | Assign (i j : nat).
(* Constructors, small_vector.hh:81-97; destructor, 107-113; pop_back, 272-276; clear, 279-283; resize, 286-296; erase, 329-339
   (positions as indexes); assignment to an element; operator=, 299-309. N: the template argument. *)
Definition vstep (fix_ : bool) (N : nat) (s : vst) (o : vop) : option vst :=
  match o with
  | New i => match s_env s i with Some _ => None | None => Some (MkVst (eput (s_env s) i (Some (MkSv (Inl i) 0 N))) (mput (s_mem s) (Inl i) (Some (repeat Raw N))) (s_next s)) end
  | Copy i j =>
    match s_env s i, s_env s j with
    | None, Some y => push_all (v_size y) i j 0 (MkVst (eput (s_env s) i (Some (MkSv (Inl i) 0 N))) (mput (s_mem s) (Inl i) (Some (repeat Raw N))) (s_next s))
    | _, _ => None
    end
  | Drop i =>
    match s_env s i with
    | None => None
    | Some x =>
      match destroy_n (v_size x) (s_mem s) (v_first x) 0 with
      | None => None
      | Some m =>
        match (match v_first x with Inl _ => Some m | Hp b => release m (Hp b) (v_cap x) end) with
        | None => None
        | Some m1 => match release m1 (Inl i) N with Some m2 => Some (MkVst (eput (s_env s) i None) m2 (s_next s)) | None => None end
        end
      end
    end
  | Push i v => push i v s
  | PushAt i j k => push_at fix_ i j k s
  | Pop i =>
    match s_env s i with
    | Some (MkSv p (S n) c) => match destroy (s_mem s) p n with Some m => Some (set_mem s m i (MkSv p n c)) | None => None end
    | _ => None
    end
  | Clear i =>
    match s_env s i with
    | Some x => match destroy_n (v_size x) (s_mem s) (v_first x) 0 with Some m => Some (set_mem s m i (MkSv (v_first x) 0 (v_cap x))) | None => None end
    | None => None
    end
  | Resize i n v =>
    match s_env s i with
    | None => None
    | Some x0 =>
      match maybe_grow (v_cap x0 <? n)%nat i n s with
      | None => None
      | Some s1 =>
        match s_env s1 i with
        | None => None
        | Some x =>
          match (if (n <? v_size x)%nat then destroy_n (v_size x - n) (s_mem s1) (v_first x) n else fill (n - v_size x) (s_mem s1) (v_first x) (v_size x) v) with
          | Some m => Some (set_mem s1 m i (MkSv (v_first x) n (v_cap x)))
          | None => None
          end
        end
      end
    end
  | Erase i a b =>
    match s_env s i with
    | None => None
    | Some x =>
      if (a =? b)%nat then Some s
      else match shift (v_size x - b) (s_mem s) (v_first x) a b with
           | None => None
           | Some m1 =>
             let n := (a + (v_size x - b))%nat in
             match destroy_n (v_size x - n) m1 (v_first x) n with Some m2 => Some (set_mem s m2 i (MkSv (v_first x) n (v_cap x))) | None => None end
           end
    end
  | Put i k v =>
    match s_env s i with
    | Some x => match cget (s_mem s) (v_first x) k with Some (Obj _) => Some (MkVst (s_env s) (cset (s_mem s) (v_first x) k (Obj (Some v))) (s_next s)) | _ => None end
    | None => None
    end
  | Assign i j =>
    match s_env s i, s_env s j with
    | Some x, Some y =>
      if (i =? j)%nat then Some s
      else match destroy_n (v_size x) (s_mem s) (v_first x) 0 with
           | None => None
           | Some m =>
             match maybe_grow (v_cap x <? v_cap y)%nat i (v_cap y) (set_mem s m i (MkSv (v_first x) 0 (v_cap x))) with
             | None => None
             | Some s1 =>
               match s_env s1 i with
               | None => None
               | Some x1 => match copy_n (v_size y) (s_mem s1) (v_first y) (v_first x1) 0 with Some m2 => Some (set_mem s1 m2 i (MkSv (v_first x1) (v_size y) (v_cap x1))) | None => None end
               end
             end
           end
    | _, _ => None
    end
  end.
(* A program of calls, one after the other. *)
Fixpoint vrun (fix_ : bool) (N : nat) (s : vst) (l : list vop) : option vst :=
  match l with [] => Some s | o :: l' => match vstep fix_ N s o with Some s' => vrun fix_ N s' l' | None => None end end.
(* Before the first vector. *)
Definition vst0 : vst := MkVst (fun _ => None) (fun _ => None) 0.
