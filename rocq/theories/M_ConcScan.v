(* Scans that run while other threads look up, insert, remove and scan in the same layer, over M_Conc.v. A scanning thread
   only reads: it uses reach_leaf and advance_to_key of M_Conc.v to find leaves, and has a state of its own for the rest.
   Not modelled: going down into a layer and up again (scan_down, scan_up with a stack), prefetching, visit_leaf. *)
From Verif Require Import Lib M_Tree M_Stampc M_Conc.

(* What perm_ and ki_ still select: the slots from ki_ on, in the direction of the scan, with the slice and the value in
   each (masstree_scan.hh:51-56, 71-76). The slots are not copied, so values follow the leaf: see follow. The flag says whether
   the slot is still in use. *)
Definition view := list (Z * Z * bool).
(* Slots in use, and what slots may show in a leaf that has changed since v_ was read (masstree_scan.hh:196-209, 261-270). *)
Definition live (l : rows) : view := map (fun r => (fst r, snd r, true)) l.
Definition junk (l : list (Z * Z)) : view := map (fun r => (fst r, snd r, false)) l.

(* Where a scan stands (masstree_scan.hh:180-383). n_ and v_ are the leaf and its version. *)
Inductive phase :=
| FIdle
| FInit                                                    (* find_initial: in reach_leaf or advance_to_key, masstree_scan.hh:190, 212 *)
| FIni (n : nat) (v : cver) (l : view)                     (* permutation read and searched, masstree_scan.hh:196-198 *)
| FIniC (n : nat) (v : cver) (e : option Z) (l : view)     (* entry read, masstree_scan.hh:199-210 *)
| FRetry                                                   (* find_retry: in reach_leaf, masstree_scan.hh:242 *)
| FLow (n : nat) (v : cver)                                (* about to read the permutation and search it, masstree_scan.hh:247-248, 304-305 *)
| FNext (n : nat) (v : cver) (l : view)                    (* find_next, and its retry_entry, masstree_scan.hh:257-261 *)
| FEnt (n : nat) (v : cver) (k w : Z) (l : view)           (* entry read, masstree_scan.hh:263-272 *)
| FEnd (n : nat) (v : cver)                                (* no entry left, masstree_scan.hh:293 *)
| FAdv (n : nat)                                           (* unchanged: about to go to the neighbour, masstree_scan.hh:294 *)
| FStab (n : nat)                                          (* changed: about to take a stable version, masstree_scan.hh:303 *)
| FWalk (n : nat) (v : cver)                               (* reverse_scan_helper::stable, masstree_scan.hh:159-169 *)
| FDone (all : bool).                                      (* masstree_scan.hh:385; all: the scan was not stopped by the visitor *)

(* The scanner: direction, firstkey, emit_firstkey, root_, ka (its slice; sst: its length is 0, so that it is before
   every key with that slice), what visit_value was given, latest first (masstree_scan.hh:51-55, 309-332). *)
Record scn := MkSc { srv : bool; sf : Z; sem : bool; srt : nat; ska : Z; sst : bool; sout : list (Z * Z); sph : phase }.
(* The scan goes on in another place, masstree_scan.hh:342-383. *)
Definition with_ph (c : scn) (p : phase) : scn := MkSc (srv c) (sf c) (sem c) (srt c) (ska c) (sst c) (sout c) p.
(* visit_value, masstree_scan.hh:344-350; ka is assigned at masstree_scan.hh:280, 288. *)
Definition emit (c : scn) (k w : Z) (p : phase) : scn := MkSc (srv c) (sf c) (sem c) (srt c) k false ((k, w) :: sout c) p.
(* reverse_scan_helper::advance, masstree_scan.hh:152-157. *)
Definition back_to (c : scn) (k : Z) (p : phase) : scn := MkSc (srv c) (sf c) (sem c) (srt c) k true (sout c) p.
(* No scan yet (masstree_scan.hh:60-61). *)
Definition scn0 : scn := MkSc false 0 false 0 0 false [] FIdle.

(* helper.lower and lower_with_position, masstree_scan.hh:90-96, 134-145: the slots from there on, in scan order. *)
Definition from (rv : bool) (k : Z) (strict : bool) (l : rows) : rows :=
  if rv then rev (filter (fun r => if strict then fst r <? k else fst r <=? k) l) else filter (fun r => k <=? fst r) l.
(* helper.is_duplicate, masstree_scan.hh:85-89, 129-133 (upper_bound_ is only set in shift_clear). *)
Definition dupl (rv : bool) (k key : Z) : bool := if rv then k <=? key else key <=? k.

(* What a slot shows when it is read, masstree_scan.hh:202, 267. A value changed in place is seen in the slot. A removed row's slot keeps what it holds until the slot is used again,
   and then the leaf's version changes (M_Leafread.v, modstate_). *)
Definition follow1 (rs : rows) (e : Z * Z * bool) : Z * Z * bool :=
  match e with
  | (k, w, true) => match row_get k rs with Some w' => (k, w', true) | None => (k, w, false) end
  | _ => e
  end.
(* The same for the slots still selected by perm_ and ki_ (masstree_scan.hh:51-55). *)
Definition follow (s : cst) (p : phase) : phase :=
  match p with
  | FIni n v l => FIni n v (map (follow1 (rws (nd s n))) l)
  | FIniC n v e l => FIniC n v e (map (follow1 (rws (nd s n))) l)
  | FNext n v l => FNext n v (map (follow1 (rws (nd s n))) l)
  | FEnt n v k w l => FEnt n v k w (map (follow1 (rws (nd s n))) l)
  | _ => p
  end.

(* The layer with its threads (M_Conc.v), and each thread's scanner (masstree_scan.hh:326-329). *)
Record sstt := MkSS { cs : cst; sc : nat -> scn }.
(* After a step of M_Conc.v every scan sees the new values (masstree_scan.hh:202, 267 read n_->lv_). *)
Definition seen_by (s : sstt) (c : cst) : sstt := MkSS c (fun t => let x := sc s t in with_ph x (follow c (sph x))).
(* Thread t's scanner is x (masstree_scan.hh:326). *)
Definition put_sc (s : sstt) (t : nat) (c : cst) (x : scn) : sstt := MkSS c (setf (sc s) t x).

(* Steps of threads. *)
Inductive schoice :=
| SBase (x : choice)                              (* a step of M_Conc.v *)
| SStart (rv : bool) (f : Z) (em : bool)          (* basic_table::scan, rscan, masstree_scan.hh:389-403 *)
| SGo (j : list (Z * Z)) (stop : bool).           (* a step of the scan; j: what a changed leaf shows; stop: visit_value returns false *)

(* A thread that scans takes steps of M_Conc.v only to reach a leaf (masstree_scan.hh:190, 212, 242). *)
Definition base_ok (p : phase) (q : pct) : bool :=
  match p with
  | FIdle | FDone _ => true
  | FInit | FRetry => match q with PLeaf _ _ _ _ => false | _ => true end
  | _ => false
  end.
(* The thread is not in basic_table::scan (masstree_scan.hh:385-386). *)
Definition at_rest (p : phase) : bool := match p with FIdle | FDone _ => true | _ => false end.

(* One step of basic_table::scan, masstree_scan.hh:180-387. A step reads one word shared with other threads, or compares
   one version; reading perm_ and searching the leaf (masstree_scan.hh:196-198, 247-248, 304-305) is one step, as M_Conc.v
   does for lookups. *)
Definition scan_step (s : cst) (t : nat) (c : scn) (j : list (Z * Z)) (stop : bool) : option (cst * scn) :=
  match sph c with
  (* find_initial, masstree_scan.hh:180-236 *)
  | FInit => match pcs s t with
      | PLeaf y _ n v =>
          if v_del v then Some (go s t (PRoot (sf c) OGet (srt c)), c)
          else Some (go s t Idle, with_ph c (FIni n v (if same s n v then live (from (srv c) (sf c) false (rws (nd s n))) else junk j)))
      | _ => None
      end
  | FIni n v l =>
      let e := if same s n v then match l with (k, w, _) :: _ => if k =? sf c then Some w else None | [] => None end
               else match j with (_, w) :: _ => Some w | [] => None end in
      Some (s, with_ph c (FIniC n v e l))
  | FIniC n v e l =>
      if same s n v then
        match e with
        | Some w => if sem c then Some (s, emit c (sf c) w (if stop then FDone false else FNext n v (tl l))) else Some (s, with_ph c (FNext n v (tl l)))
        | None => Some (s, with_ph c (FNext n v l))
        end
      else Some (go s t (PAdv (sf c) OGet n v), with_ph c FInit)
  (* find_retry, masstree_scan.hh:238-250 *)
  | FRetry => match pcs s t with
      | PLeaf y _ n v => if v_del v then Some (go s t (PRoot (ska c) OGet (srt c)), c) else Some (go s t Idle, with_ph c (FLow n v))
      | _ => None
      end
  | FLow n v => Some (s, with_ph c (FNext n v (if same s n v then live (from (srv c) (ska c) (sst c) (rws (nd s n))) else junk j)))
  (* find_next, masstree_scan.hh:252-307 *)
  | FNext n v l =>
      if v_del v then Some (go s t (PRoot (ska c) OGet (srt c)), with_ph c FRetry)
      else if same s n v then match l with (k, w, _) :: l' => Some (s, with_ph c (FEnt n v k w l')) | [] => Some (s, with_ph c (FEnd n v)) end
      else match j with (k, w) :: j' => Some (s, with_ph c (FEnt n v k w (junk j'))) | [] => Some (s, with_ph c (FEnd n v)) end
  | FEnt n v k w l =>
      if same s n v then
        if dupl (srv c) (ska c) k then Some (s, with_ph c (FNext n v l)) else Some (s, emit c k w (if stop then FDone false else FNext n v l))
      else Some (s, with_ph c (FStab n))
  | FEnd n v => Some (s, with_ph c (if same s n v then FAdv n else FStab n))
  (* helper.advance, masstree_scan.hh:102-105, 152-157 *)
  | FAdv n =>
      if srv c then Some (s, match prv (nd s n) with Some b => back_to c (lo (nd s n)) (FStab b) | None => back_to c (lo (nd s n)) (FDone true) end)
      else Some (s, match nxt (nd s n) with Some b => with_ph c (FStab b) | None => with_ph c (FDone true) end)
  (* helper.stable, masstree_scan.hh:106-109, 158-170 *)
  | FStab n => if v_dirty (ver (nd s n)) then None else Some (s, with_ph c (if srv c then FWalk n (ver (nd s n)) else FLow n (ver (nd s n))))
  | FWalk n v => Some (s, with_ph c (match nxt (nd s n) with
      | Some b => if (ska c <? lo (nd s b)) || ((ska c =? lo (nd s b)) && sst c) then FLow n v else FStab b
      | None => FLow n v end))
  | FIdle | FDone _ => None
  end.

(* A step of thread t. *)
Definition sstep (s : sstt) (t : nat) (x : schoice) : option sstt :=
  match x with
  | SBase x => if base_ok (sph (sc s t)) (pcs (cs s) t) then match step (cs s) t x with Some c => Some (seen_by s c) | None => None end else None
  (* masstree_scan.hh:309-335 *)
  | SStart rv f em =>
      if at_rest (sph (sc s t)) && (0 <=? f) && (f <? 2 ^ 64) then
        match pcs (cs s) t with
        | Idle => Some (put_sc s t (go (cs s) t (PRoot f OGet (rootp (cs s)))) (MkSc rv f em (rootp (cs s)) f false [] FInit))
        | _ => None
        end
      else None
  | SGo j stop => match scan_step (cs s) t (sc s t) j stop with Some (c, x) => Some (put_sc s t c x) | None => None end
  end.

(* An empty layer, nobody scans (masstree_struct.hh:541-545, basic_table::initialize). *)
Definition sstart : sstt := MkSS start (fun _ => scn0).
(* Runs: any interleaving of the steps of any number of threads. *)
Definition sevent := (nat * schoice)%type.
Inductive ssteps : sstt -> list (sevent * sstt) -> sstt -> Prop :=
| ss_nil s : ssteps s [] s
| ss_cons s t x s1 l s2 : sstep s t x = Some s1 -> ssteps s1 l s2 -> ssteps s (((t, x), s1) :: l) s2.
