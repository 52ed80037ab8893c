(* A schedule for scans beside other operations. Only used for examples. *)
From Verif Require Import Lib M_Tree M_Stampc M_Conc M_ConcRun M_ConcScan.

(* What a thread does next when nothing interferes (masstree_scan.hh:180-387; M_ConcRun.v for the rest). *)
Definition snexts (s : sstt) (t : nat) : schoice :=
  match sph (sc s t) with
  | FIdle | FDone _ => SBase (auto (cs s) t)
  | p => if base_ok p (pcs (cs s) t) then SBase (auto (cs s) t) else SGo [] false
  end.
(* Runs of events, latest first. *)
Definition strace := (list (sevent * sstt) * sstt)%type.
Definition sact (r : strace) (t : nat) (x : schoice) : strace :=
  match sstep (snd r) t x with Some s' => (((t, x), s') :: fst r, s') | None => r end.
Fixpoint sdrive (fuel : nat) (stop : sstt -> bool) (r : strace) (t : nat) : strace :=
  match fuel with
  | O => r
  | S f => if stop (snd r) then r else sdrive f stop (sact r t (snexts (snd r) t)) t
  end.
Definition op_done (t : nat) (s : sstt) : bool := at_done (pcs (cs s) t).
Definition scan_done (t : nat) (s : sstt) : bool := match sph (sc s t) with FDone _ => true | _ => false end.
Definition reported (t k : nat) (s : sstt) : bool := (k <=? length (sout (sc s t)))%nat.
Definition swhole (r : strace) (t : nat) (y : Z) (o : op) : strace := sact (sdrive 300 (op_done t) (sact r t (SBase (Start y o))) t) t (SBase Go).
Definition sputs (r : strace) (t : nat) (l : list Z) : strace := fold_left (fun r y => swhole r t y (OPut y)) l r.
Definition srems (r : strace) (t : nat) (l : list Z) : strace := fold_left (fun r y => swhole r t y ORem) l r.
Definition srun0 : strace := ([], sstart).

(* Forty rows in several leaves. Thread 1 scans forward and thread 2 in reverse; when each has reported five rows thread 0
   makes leaves split at both ends, and a leaf in the middle go; then thread 1 and thread 2 go on to the end. *)
Definition srunA : strace := sputs srun0 0 (zs 40 100 100).
Definition srunB : strace := sdrive 100 (reported 1 5) (sact srunA 1 (SStart false 150 true)) 1.
Definition srunC : strace := sdrive 100 (reported 2 5) (sact srunB 2 (SStart true 3900 false)) 2.
Definition srunD : strace := srems (sputs srunC 0 (zs 8 610 10 ++ zs 8 3310 10)) 0 (zs 15 1600 100).
Definition srunE : strace := sdrive 400 (scan_done 1) srunD 1.
Definition srunF : strace := sdrive 400 (scan_done 2) srunE 2.
