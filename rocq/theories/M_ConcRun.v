(* A schedule for the concurrent layer: threads run one at a time up to a place of choice. Only used for examples. *)
From Verif Require Import Lib M_Tree M_Stampc M_Conc.

(* What a thread does next when nothing interferes (masstree_struct.hh:632-713, masstree_insert.hh:22-59). *)
Definition auto (s : cst) (t : nat) : choice :=
  match pcs s t with
  | PIn y o n v l u => match u with None => if (l <? length (keys (nd s n)))%nat then Cmp l false else Kid None | Some _ => Kid None end
  | PLast _ _ _ _ _ | PLLast _ _ _ _ _ => Cmp 0 true
  | PLeaf _ _ _ _ => JunkRow None
  | WHave y (OPut w) n => if is_none (row_get y (rws (nd s n))) && negb (length (rws (nd s n)) <? W)%nat then Split else Ins
  | _ => Go
  end.
(* Runs of events, latest first. *)
Definition trace := (list (cevent * cst) * cst)%type.
Definition act (r : trace) (t : nat) (x : choice) : trace :=
  match step (snd r) t x with Some s' => (((t, x), s') :: fst r, s') | None => r end.
Fixpoint drive (fuel : nat) (stop : pct -> bool) (r : trace) (t : nat) : trace :=
  match fuel with
  | O => r
  | S f => if stop (pcs (snd r) t) then r else drive f stop (act r t (auto (snd r) t)) t
  end.
Definition at_done (p : pct) : bool := match p with PDone _ _ _ => true | _ => false end.
Definition at_leaf (p : pct) : bool := match p with PLeaf _ _ _ _ => true | _ => false end.
Definition at_dup (p : pct) : bool := match p with DUp _ _ _ _ _ => true | _ => false end.
Definition begin (r : trace) (t : nat) (y : Z) (o : op) : trace := act r t (Start y o).
Definition whole (r : trace) (t : nat) (y : Z) (o : op) : trace := act (drive 300 at_done (begin r t y o) t) t Go.
Fixpoint zs (k : nat) (a b : Z) : list Z := match k with O => [] | S k => a :: zs k (a + b) b end.
Definition puts (r : trace) (t : nat) (l : list Z) : trace := fold_left (fun r y => whole r t y (OPut y)) l r.
Definition rems (r : trace) (t : nat) (l : list Z) : trace := fold_left (fun r y => whole r t y ORem) l r.
Definition run0 : trace := ([], start).

(* Threads 1 to 8 go to the only leaf and stop there. *)
Definition runA : trace :=
  fold_left (fun r i => drive 20 at_leaf (begin r (S i) (nth i (zs 8 24110 10) 0) (OPut 7)) (S i)) (seq 0 8) run0.
(* Thread 0 fills 33 leaves under two internodes, and empties all but the first and the last few. *)
Definition runB : trace := puts runA 0 (zs 260 100 100).
Definition runC : trace := rems (rems runB 0 (zs 7 900 100 ++ zs 225 1600 100)) 0 (zs 14 24100 100).
(* Thread 9 removes the last row of a leaf and stops once the leaf is unlinked. *)
Definition runD : trace := drive 100 at_dup (begin runC 9 25500 ORem) 9.
(* Threads 1 to 8 finish: the last one splits the first leaf. *)
Definition runE : trace := fold_left (fun r i => act (drive 100 at_done r (S i)) (S i) Go) (seq 0 8) runD.
(* Thread 9 finishes its removal. *)
Definition runG : trace := act (drive 200 at_done runE 9) 9 Go.
