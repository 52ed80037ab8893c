(* Deferred reclamation in one thread: the queue of retired objects (kvthread.hh:37-76, 260-277, 318-338;
   kvthread.cc:70-138). Results None stand for a failed assertion, for reading a union member that was not the one
   written, or for a loop that did not end in the number of rounds allowed to it.
   Not modelled: the memory of the objects themselves and of the pools, memdebug, counters (ncounters is 0). *)
From Verif Require Import Lib M_Circular.

(* limbo_element, kvthread.hh:41-47: a null pointer marks an epoch, other pointers carry a tag. *)
Inductive slot := SMark (epoch : Z) | SPtr (ptr tag : Z).
(* limbo_group, kvthread.hh:50-57. next_ is a number of a group. *)
Record group := MkGroup { g_head : nat; g_tail : nat; g_epoch : Z; g_next : option nat; g_e : nat -> slot }.
(* limbo_group(), kvthread.hh:55-57. epoch_ and e_ are not initialised; they are not read before they are written. *)
Definition g_empty : group := MkGroup 0 0 0 None (fun _ => SMark 0).

(* What an observer of the thread sees: an object handed over at some epoch, an object released. *)
Inductive event := EHand (ptr tag epoch : Z) | EFree (ptr tag active : Z).

(* The thread (kvthread.hh:283-306) and the global epoch (mtd.cc:86). l_n groups are allocated. l_trace, newest last, is
   no part of the code. *)
Record limbo := MkLimbo { l_g : nat -> group; l_n : nat; l_head : nat; l_tail : nat; l_perform : Z; l_now : Z; l_trace : list event }.
Definition set_g (l : limbo) (i : nat) (g : group) : limbo :=
  MkLimbo (fun j => if Nat.eqb j i then g else l_g l j) (l_n l) (l_head l) (l_tail l) (l_perform l) (l_now l) (l_trace l).
Definition set_head (l : limbo) (i : nat) : limbo := MkLimbo (l_g l) (l_n l) i (l_tail l) (l_perform l) (l_now l) (l_trace l).
Definition set_tail (l : limbo) (i : nat) : limbo := MkLimbo (l_g l) (l_n l) (l_head l) i (l_perform l) (l_now l) (l_trace l).
Definition set_perform (l : limbo) (x : Z) : limbo := MkLimbo (l_g l) (l_n l) (l_head l) (l_tail l) x (l_now l) (l_trace l).
Definition add_event (l : limbo) (e : event) : limbo := MkLimbo (l_g l) (l_n l) (l_head l) (l_tail l) (l_perform l) (l_now l) (l_trace l ++ [e]).
(* epochinc, mtd.cc:933, n times. Modelled without wrap-around. *)
Definition ticks (n : nat) (l : limbo) : limbo := MkLimbo (l_g l) (l_n l) (l_head l) (l_tail l) (l_perform l) (l_now l + 2 * Z.of_nat n) (l_trace l).
Definition g_with_head (g : group) (h : nat) : group := MkGroup h (g_tail g) (g_epoch g) (g_next g) (g_e g).
Definition g_with_next (g : group) (n : option nat) : group := MkGroup (g_head g) (g_tail g) (g_epoch g) n (g_e g).
Definition upd (e : nat -> slot) (i : nat) (s : slot) : nat -> slot := fun j => if Nat.eqb j i then s else e j.
Definition g_with_slot (g : group) (i : nat) (s : slot) : group := MkGroup (g_head g) (g_tail g) (g_epoch g) (g_next g) (upd (g_e g) i s).

(* threadinfo::threadinfo, kvthread.cc:32-50; globalepoch(1), mtd.cc:86. *)
Definition l_init : limbo := MkLimbo (fun _ => g_empty) 1 0 0 0 1 [].

Section Limbo.
(* limbo_group::capacity, kvthread.hh:49, and rcu_free_count, kvthread.hh:261. *)
Context (cap : nat) (free_count : nat).
(* What the callbacks of masstree_remove.hh:134-147 and 310-342 hand over when they are run, after how many ticks of the
   global epoch each; a callback may depend on everything that happened. *)
Context (cb : list event -> Z -> list (Z * Z * nat)).

(* limbo_group::push_back, kvthread.hh:62-74. *)
Definition push_back (l : limbo) (i : nat) (ptr tag epoch : Z) : option limbo :=
  let g := l_g l i in
  if (g_tail g + 2 <=? cap)%nat then
    let g1 := if Nat.eqb (g_head g) (g_tail g) || negb (g_epoch g =? epoch)
              then MkGroup (g_head g) (S (g_tail g)) epoch (g_next g) (upd (g_e g) (g_tail g) (SMark epoch)) else g in
    Some (set_g l i (MkGroup (g_head g1) (S (g_tail g1)) (g_epoch g1) (g_next g1) (upd (g_e g1) (g_tail g1) (SPtr ptr tag))))
  else None.
(* threadinfo::refill_rcu, kvthread.cc:70-78. *)
Definition refill_rcu (l : limbo) : option limbo :=
  let t := l_tail l in
  let '(l1, j) := match g_next (l_g l t) with
                  | Some j => (l, j)
                  | None => (set_g (set_g (MkLimbo (l_g l) (S (l_n l)) (l_head l) (l_tail l) (l_perform l) (l_now l) (l_trace l)) (l_n l) g_empty)
                              t (g_with_next (l_g l t) (Some (l_n l))), l_n l)
                  end in
  if Nat.eqb (g_head (l_g l1 j)) 0 && Nat.eqb (g_tail (l_g l1 j)) 0 then Some (set_tail l1 j) else None.
(* threadinfo::record_rcu, kvthread.hh:333-338. *)
Definition record_rcu (l : limbo) (ptr tag : Z) : option limbo :=
  match (if (cap <? g_tail (l_g l (l_tail l)) + 2)%nat then refill_rcu l else Some l) with
  | None => None
  | Some l1 => push_back (add_event l1 (EHand ptr tag (l_now l1))) (l_tail l1) ptr tag (l_now l1)
  end.
Fixpoint record_all (l : limbo) (rs : list (Z * Z * nat)) : option limbo :=
  match rs with
  | [] => Some l
  | (p, t, n) :: rs' => match record_rcu (ticks n l) p t with None => None | Some l1 => record_all l1 rs' end
  end.
(* threadinfo::free_rcu, kvthread.hh:318-331: memtag(-1) marks a callback. *)
Definition free_rcu (l : limbo) (ptr tag active : Z) : option limbo :=
  let l1 := add_event l (EFree ptr tag active) in
  if tag =? -1 then record_all l1 (cb (l_trace l1) ptr) else Some l1.
(* The loop of limbo_group::clean_until, kvthread.cc:83-102; epoch_bound = active - 1. *)
Fixpoint clean_loop (fuel : nat) (l : limbo) (i : nat) (active : Z) (count : nat) (epoch : Z) : option (limbo * nat) :=
  let g := l_g l i in
  if Nat.eqb (g_head g) (g_tail g) then Some (l, count)
  else match fuel with
  | O => None
  | S fuel' =>
    match g_e g (g_head g) with
    | SPtr p t =>
      match free_rcu l p t active with
      | None => None
      | Some l1 =>
        let g1 := l_g l1 i in
        match count with
        | O => None
        | S O => Some (set_g l1 i (g_with_slot g1 (g_head g1) (SMark epoch)), O)
        | S count' => clean_loop fuel' (set_g l1 i (g_with_head g1 (S (g_head g1)))) i active count' epoch
        end
      end
    | SMark e =>
      if ci_signed 64 (active - 1 - e) <? 0 then Some (l, count)
      else clean_loop fuel' (set_g l i (g_with_head g (S (g_head g)))) i active count e
    end
  end.
(* limbo_group::clean_until, kvthread.cc:80-106. *)
Definition clean_until (l : limbo) (i : nat) (active : Z) (count : nat) : option (limbo * nat) :=
  match clean_loop (S cap) l i active count 0 with
  | None => None
  | Some (l1, c) =>
    let g := l_g l1 i in
    Some (if Nat.eqb (g_head g) (g_tail g) then set_g l1 i (MkGroup 0 0 (g_epoch g) (g_next g) (g_e g)) else l1, c)
  end.
(* The hook-up of emptied groups, kvthread.cc:127-131. *)
Definition hook (l : limbo) (empties : option (nat * nat)) : limbo :=
  match empties with
  | None => l
  | Some (eh, et) =>
    let l1 := set_g l et (g_with_next (l_g l et) (g_next (l_g l (l_tail l)))) in
    set_g l1 (l_tail l1) (g_with_next (l_g l1 (l_tail l1)) (Some eh))
  end.
(* The loop of hard_rcu_quiesce, kvthread.cc:114-131. empties = (empty_head, empty_tail). *)
Fixpoint quiesce_loop (fuel : nat) (l : limbo) (active : Z) (count : nat) (empties : option (nat * nat)) : option (limbo * nat) :=
  match count with
  | O => Some (hook l empties, count)
  | _ =>
    match fuel with
    | O => None
    | S fuel' =>
      let h := l_head l in
      match clean_until l h active count with
      | None => None
      | Some (l1, c) =>
        if negb (Nat.eqb (g_head (l_g l1 h)) (g_tail (l_g l1 h))) then Some (hook l1 empties, c)
        else
          let eh := match empties with None => h | Some (eh, _) => eh end in
          if Nat.eqb h (l_tail l1) then Some (set_tail (set_head l1 eh) eh, c)
          else match g_next (l_g l1 h) with
               | None => None
               | Some h' => quiesce_loop fuel' (set_head l1 h') active c (Some (eh, h))
               end
      end
    end
  end.
(* first_epoch, kvthread.hh:58-61. *)
Definition first_epoch (g : group) : option Z :=
  if Nat.eqb (g_head g) (g_tail g) then None else match g_e g (g_head g) with SMark e => Some e | SPtr _ _ => None end.
(* hard_rcu_quiesce, kvthread.cc:104-138. *)
Definition hard_rcu_quiesce (l : limbo) (active : Z) : option limbo :=
  let g := l_g l (l_head l) in
  let done (r : limbo * nat) := set_perform (fst r) (if Nat.eqb (snd r) 0 then ci_wrap 64 (active - 1) else ci_wrap 64 active) in
  if Nat.eqb (g_head g) (g_tail g) then Some (done (l, free_count))
  else match first_epoch g with
       | None => None
       | Some e => if ci_signed 64 (active - 1 - e) <? 0 then Some (done (l, free_count))
                   else match quiesce_loop (free_count + 2) l active free_count None with
                        | None => None
                        | Some r => Some (done r)
                        end
       end.
(* The collecting part of rcu_stop and rcu_quiesce, kvthread.hh:267-276. *)
Definition rcu_collect (l : limbo) (active : Z) : option limbo :=
  if l_perform l =? active then Some l else hard_rcu_quiesce l active.

(* Programs: objects handed over, ticks of the global epoch, and collections with the value of active_epoch they read. *)
Inductive lop := LRecord (ptr tag : Z) | LTick | LCollect (active : Z).
Definition lstep (l : limbo) (o : lop) : option limbo :=
  match o with
  | LRecord p t => record_rcu l p t
  | LTick => Some (ticks 1 l)
  | LCollect a => rcu_collect l a
  end.
Fixpoint lrun (l : limbo) (os : list lop) : option limbo :=
  match os with [] => Some l | o :: os' => match lstep l o with None => None | Some l1 => lrun l1 os' end end.
(* The values that active_epoch can have when it is read: it is a value the global epoch has or had (mtd.cc:930-935). *)
Fixpoint valid (l : limbo) (os : list lop) : Prop :=
  match os with
  | [] => True
  | o :: os' => match o with LCollect a => Z.odd a = true /\ 1 <= a <= l_now l | _ => True end /\
                match lstep l o with None => True | Some l1 => valid l1 os' end
  end.
End Limbo.
(* Ticks that pass while a callback runs. *)
Definition cb_ticks (rs : list (Z * Z * nat)) : Z := fold_right (fun x a => Z.of_nat (snd x) + a) 0 rs.
(* capacity: (4076 - 8 - 8) / 16. *)
Definition limbo_capacity : nat := 253.
Definition rcu_free_count : nat := 128.
