(* What the calls of record ask for, and which of them have returned. *)
From Verif Require Import Lib Spec_Log M_Logbuf.

(* The log entry a call asks for: a put on a row that has an even (real) previous timestamp is a change of that row. *)
Definition entry_of (r : req) : entry :=
  match q_cmd r with
  | CPut => if (q_prev r =? 0) || Z.odd (q_prev r) then EPut (q_key r) (q_val r) (q_ts r) else EModify (q_key r) (q_val r) (q_ts r) (q_prev r)
  | CReplace => EReplace (q_key r) (q_val r) (q_ts r)
  | CRemove => ERemove (q_key r) (q_val r) (q_ts r)
  end.
Definition req_ok (r : req) : Prop := kv_ok (q_key r) (q_val r) (q_ts r) /\ 0 <= q_prev r < 2 ^ 64 /\ 0 <= q_epoch r < 2 ^ 64.
Definition act_ok (a : bact) : Prop := match a with Call _ r => req_ok r | _ => True end.
(* The calls that return in a step and in a run, in order. *)
Definition ret1 (s : lb) (a : bact) (s' : lb) : list req :=
  match a with
  | Call t r => match b_pc s' t with None => [r] | Some _ => [] end
  | Again t => match b_pc s t, b_pc s' t with Some r, None => [r] | _, _ => [] end
  | _ => []
  end.
Fixpoint returned (n : nat) (s : lb) (l : list bact) : list req :=
  match l with [] => [] | a :: l' => match bstep n s a with Ok s' => ret1 s a s' ++ returned n s' l' | _ => [] end end.
(* The bytes handed over so far: in the file, being written, and in the buffer. *)
Definition all_bytes (s : lb) : list Z :=
  b_file s ++ match b_write s with Some (x, _) => firstn (Z.to_nat x) (b_xbuf s) | None => [] end ++ firstn (Z.to_nat (b_pos s)) (b_buf s).
(* A thread waits for the return of its call in every state of a run. *)
Fixpoint waits_through (n t : nat) (s : lb) (l : list bact) : Prop :=
  b_pc s t <> None /\ match l with [] => True | a :: l' => match bstep n s a with Ok s' => waits_through n t s' l' | _ => True end end.
(* The file after a crash: the finished writes and the first m bytes of the one in progress. *)
Definition disk (s : lb) (m : nat) : list Z :=
  b_file s ++ match b_write s with Some (x, _) => firstn m (firstn (Z.to_nat x) (b_xbuf s)) | None => [] end.
(* Steps of calls that have begun and of the logger; the number of times a thread tries again. *)
Definition own_step (a : bact) : Prop := match a with Again _ | Round | Written => True | _ => False end.
Definition tries (t : nat) (l : list bact) : nat := length (filter (fun a => match a with Again u => (u =? t)%nat | _ => false end) l).
