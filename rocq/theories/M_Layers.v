(* Lookups, insertions, removals and layer collections of many threads over a tree of layers. Each layer is one object
   here: finding a row, writing a row, turning a row into a layer, and removing a row of one layer are single steps (what
   happens inside one layer is in M_Conc.v). Keys are byte strings of any length. *)
From Verif Require Import Lib.

(* Which row of a layer speaks for the rest r of a key, masstree_key.hh:133-160, masstree_struct.hh:497-506: the slice, and
   whether more than a slice is left (keylenx 64 a suffix, 128 a layer). A slice shorter than 8 bytes is kept with its length. *)
Definition lkey := (list Z * bool)%type.
Definition slice (r : list Z) : lkey := (firstn 8 r, (8 <? length r)%nat).
(* lv_, keylenx_ and the suffix of a row, masstree_struct.hh:195-245, 261-275. *)
Inductive lrow := RVal (v : Z) | RSuf (x : list Z) (v : Z) | RLay (L : nat).

(* A layer's rows as a list without order (the order within a layer is M_Tree.v's and M_Conc.v's): comparison of suffixes and
   slices (masstree_struct.hh:400-421), finding, removing and writing the row of a slice (ksearch.hh:60-171, masstree_remove.hh:161-176,
   masstree_insert.hh:128-137). *)
Fixpoint leqb (a b : list Z) : bool := match a, b with [], [] => true | x :: a', y :: b' => (x =? y) && leqb a' b' | _, _ => false end.
Definition kqb (p q : lkey) : bool := leqb (fst p) (fst q) && Bool.eqb (snd p) (snd q).
Fixpoint lget (q : lkey) (l : list (lkey * lrow)) : option lrow :=
  match l with [] => None | (p, x) :: l' => if kqb p q then Some x else lget q l' end.
Definition ldel (q : lkey) (l : list (lkey * lrow)) : list (lkey * lrow) := filter (fun e => negb (kqb (fst e) q)) l.
Definition lput (q : lkey) (x : lrow) (l : list (lkey * lrow)) : list (lkey * lrow) := (q, x) :: ldel q l.
(* leaf::assign with value w, masstree_struct.hh:497-516. *)
Definition new_row (r : list Z) (w : Z) : lrow := if (8 <? length r)%nat then RSuf (skipn 8 r) w else RVal w.

(* get; find_insert with finish(1); find_locked with finish(-1); the callback made by remove_leaf, masstree_remove.hh:151-159, 182-187. *)
Inductive lop := LGet | LPut (w : Z) | LRem | LGc.
(* Where a thread stands: k its key, o its operation, L the layer it is in, r the rest of the key there. *)
Inductive lpc :=
| LIdle
| LAt (k : list Z) (o : lop) (L : nat) (r : list Z)
| LDone (k : list Z) (o : lop) (res : option Z)
| LKill (L : nat) (q : lkey).     (* gc_layer has marked the layer below row q of L, whose lock it holds *)

(* rws: the rows of each layer. dead: deleted_layer(), masstree_struct.hh:456-458, 493-495. fl: layers made so far.
   lks: rows locked by a collection under way (the code locks the whole leaf). *)
Record lst := MkLS { rws : nat -> list (lkey * lrow); dead : nat -> bool; fl : nat; lks : list (nat * lkey); pcs : nat -> lpc }.

(* A thread is called, goes on, or gives up its insertion (finish(0), masstree_insert.hh:139-152). *)
Inductive lchoice := LStart (k : list Z) (o : lop) | LGo | LQuit.

(* Stores to one thread's place, one layer's rows, the lock of a row (nodeversion.hh:87-140 on the whole leaf), the mark of a
   collected layer (masstree_struct.hh:493-495), a new layer (leaf::make_root, masstree_struct.hh:309-315). *)
Definition setf {A} (f : nat -> A) (a : nat) (x : A) : nat -> A := fun z => if (z =? a)%nat then x else f z.
Definition go (s : lst) (t : nat) (p : lpc) : lst := MkLS (rws s) (dead s) (fl s) (lks s) (setf (pcs s) t p).
Definition wr (s : lst) (L : nat) (l : list (lkey * lrow)) : lst := MkLS (setf (rws s) L l) (dead s) (fl s) (lks s) (pcs s).
Definition lkb (s : lst) (L : nat) (q : lkey) : bool := existsb (fun e => (fst e =? L)%nat && kqb (snd e) q) (lks s).
Definition lk_add (s : lst) (L : nat) (q : lkey) : lst := MkLS (rws s) (dead s) (fl s) ((L, q) :: lks s) (pcs s).
Definition lk_del (s : lst) (L : nat) (q : lkey) : lst :=
  MkLS (rws s) (dead s) (fl s) (filter (fun e => negb ((fst e =? L)%nat && kqb (snd e) q)) (lks s)) (pcs s).
Definition kill (s : lst) (L : nat) : lst := MkLS (rws s) (setf (dead s) L true) (fl s) (lks s) (pcs s).
Definition grow (s : lst) (l : list (lkey * lrow)) : lst := MkLS (setf (rws s) (fl s) l) (setf (dead s) (fl s) false) (S (fl s)) (lks s) (pcs s).

(* find_locked's last case: the layer has been collected, start again from the top, masstree_get.hh:111-116. *)
Definition locked (s : lst) (t L : nat) (k : list Z) (o : lop) (s' : lst) : option lst :=
  if dead s L then Some (go s t (LAt k o 0 k)) else Some s'.

(* make_new_layer, masstree_insert.hh:61-126: the row with suffix x becomes a layer that holds it. Where the two keys share
   further slices, the code builds the chain of layers at once; here each is made by a step of its own, in which the table
   is the same. The code goes on in the new layer with its leaf locked; here others may come in between. *)
Definition new_layer (s : lst) (t : nat) (k : list Z) (w : Z) (L : nat) (r x : list Z) (v : Z) : lst :=
  go (wr (grow s [(slice x, new_row x v)]) L (lput (slice r) (RLay (fl s)) (rws s L))) t (LAt k (LPut w) (fl s) (skipn 8 r)).

(* One pass of find_unlocked or find_locked (masstree_get.hh:22-57, 70-118) in layer L, and what the cursor does there:
   find_insert and finish_insert (masstree_insert.hh:22-59, 128-152), finish_remove (masstree_remove.hh:161-176), gc_layer
   (masstree_remove.hh:23-115; the layer is collected when it is one empty leaf) with its callback (masstree_remove.hh:134-148). *)
Definition lstep (s : lst) (t : nat) (c : lchoice) : option lst :=
  match pcs s t, c with
  | LIdle, LStart k o => Some (go s t (LAt k o 0 k))
  | LAt k LGet L r, LGo =>
      Some (go s t match lget (slice r) (rws s L) with
                   | None => LDone k LGet None
                   | Some (RVal v) => LDone k LGet (Some v)
                   | Some (RSuf x v) => LDone k LGet (if leqb x (skipn 8 r) then Some v else None)
                   | Some (RLay L') => LAt k LGet L' (skipn 8 r)
                   end)
  | LAt k (LPut w) L r, LGo =>
      match lget (slice r) (rws s L) with
      | Some (RLay L') => Some (go s t (LAt k (LPut w) L' (skipn 8 r)))
      | None => locked s t L k (LPut w) (go (wr s L (lput (slice r) (new_row r w) (rws s L))) t (LDone k (LPut w) None))
      | Some (RVal v) => locked s t L k (LPut w) (go (wr s L (lput (slice r) (RVal w) (rws s L))) t (LDone k (LPut w) (Some v)))
      | Some (RSuf x v) => locked s t L k (LPut w)
          (if leqb x (skipn 8 r) then go (wr s L (lput (slice r) (RSuf x w) (rws s L))) t (LDone k (LPut w) (Some v))
           else new_layer s t k w L r x v)
      end
  (* finish(0), masstree_insert.hh:139-152: the insertion is given up *)
  | LAt k (LPut w) L r, LQuit => Some (go s t LIdle)
  | LAt k LRem L r, LGo =>
      match lget (slice r) (rws s L) with
      | Some (RLay L') => Some (go s t (LAt k LRem L' (skipn 8 r)))
      | None => locked s t L k LRem (go s t (LDone k LRem None))
      | Some (RVal v) => locked s t L k LRem (go (wr s L (ldel (slice r) (rws s L))) t (LDone k LRem (Some v)))
      | Some (RSuf x v) => locked s t L k LRem
          (if leqb x (skipn 8 r) then go (wr s L (ldel (slice r) (rws s L))) t (LDone k LRem (Some v)) else go s t (LDone k LRem None))
      end
  | LAt k LGc L r, LGo =>
      let q := (firstn 8 r, true) in
      match lget q (rws s L) with
      | Some (RLay L') =>
          if (8 <? length r)%nat then Some (go s t (LAt k LGc L' (skipn 8 r)))
          else if lkb s L q then None
          else match rws s L' with
               | [] => locked s t L k LGc (go (kill (lk_add s L q) L') t (LKill L q))
               | _ => locked s t L k LGc (go s t LIdle)
               end
      | _ => locked s t L k LGc (go s t LIdle)
      end
  | LKill L q, LGo => Some (go (lk_del (wr s L (ldel q (rws s L))) L q) t LIdle)
  | LDone _ _ _, LGo => Some (go s t LIdle)
  | _, _ => None
  end.

(* An empty table: layer 0 with no row (basic_table::initialize, masstree_struct.hh:541-545); runs. *)
Definition lstart : lst := MkLS (fun _ => []) (fun _ => false) 1 [] (fun _ => LIdle).
Definition levent := (nat * lchoice)%type.
Inductive lsteps : lst -> list (levent * lst) -> lst -> Prop :=
| LSteps_nil s : lsteps s [] s
| LSteps_cons s t c s1 l s2 : lstep s t c = Some s1 -> lsteps s1 l s2 -> lsteps s (((t, c), s1) :: l) s2.
