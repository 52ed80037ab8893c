(* C59: the buffer of a log and the updates that wait for room in it. *)
From Verif Require Import Lib M_Log Spec_Log M_Logfile M_Logset M_Logbuf Spec_Logbuf P_Logbuf4 P_Logbuf5 P_Logbuf6 P_Logbuf7.

(* No store leaves the buffer, the list never points into the frame of a call that has returned, the walk ends. *)
Theorem C59_safe (n : nat) (j1 j2 : list Z) (ge we : Z) (l : list bact) :
  32 <= len j1 < 2 ^ 32 -> len j2 = len j1 -> brun n (lb_init j1 j2 ge we) l <> UB.
Proof. exact (run_safe n j1 j2 ge we l). Qed.
Print Assumptions C59_safe.
Definition junk (k : nat) : list Z := repeat 255 k.
Definition ra : req := MkReq CPut [107; 49] [7] 4 0 5.
Definition rm : req := MkReq CPut [107; 49] [8] 12 4 6.
Definition rb : req := MkReq CReplace [98] (repeat 9 50) 6 0 5.
Definition rd : req := MkReq CRemove [99] [] 9 8 6.
(* Thread 1 finds no room, the others pass it or wait behind it; a write runs while the buffer fills again. *)
Definition run1 : list bact := [Call 0 ra; Call 1 rb; Call 2 rd; Call 0 rm; Again 1; Clock; Round; Again 0; Again 1].
Definition run2 : list bact := [Again 0; Written; Round; Again 0; OtherWake 6; Call 2 ra].
Definition run3 : list bact := [Written; Round; Written; Clock; Round; Written].
Definition pcs (o : out) : option (list (option req)) := match o with Ok s => Some (map (b_pc s) [0; 1; 2]%nat) | _ => None end.
Example C59_safe_example : len (junk 140) = 140 /\ pcs (brun 3 (lb_init (junk 140) (junk 140) 5 0) run1) = Some [Some rm; None; None] /\
  pcs (brun 3 (lb_init (junk 140) (junk 140) 5 0) (run1 ++ run2)) = Some [None; None; None] /\
  match brun 3 (lb_init (junk 140) (junk 140) 5 0) (run1 ++ run2 ++ run3) with Ok s => b_wait s = None /\ len (b_file s) = 301 | _ => False end.
Proof. vm_compute. repeat split. Qed.

(* The bytes handed over read as the calls that have returned: each once, with its epoch, in the order of their returns. *)
Theorem C59_contents (n : nat) (j1 j2 : list Z) (ge we : Z) (l : list bact) (s : lb) :
  32 <= len j1 < 2 ^ 32 -> len j2 = len j1 -> 0 <= ge < 2 ^ 64 -> Forall act_ok l -> brun n (lb_init j1 j2 ge we) l = Ok s ->
  exists rs es, read_log (all_bytes s) = Some rs /\ map view rs = map Some es /\
    tagged 0 es = map (fun r => (q_epoch r, entry_of r)) (returned n (lb_init j1 j2 ge we) l).
Proof. exact (run_contents n j1 j2 ge we l s). Qed.
Print Assumptions C59_contents.
Definition views (b : list Z) : option (list (option entry)) := match read_log b with Some rs => Some (map view rs) | None => None end.
Example C59_contents_example : returned 3 (lb_init (junk 140) (junk 140) 5 0) (run1 ++ run2 ++ run3) = [ra; rd; rb; rm; ra] /\
  match brun 3 (lb_init (junk 140) (junk 140) 5 0) (run1 ++ run2 ++ run3) with
  | Ok s => views (all_bytes s) = Some (map Some [EEpoch 5; entry_of ra; EEpoch 6; entry_of rd; EEpoch 5; entry_of rb; EEpoch 6; entry_of rm; EEpoch 5; EWake; entry_of ra; EEpoch 7; EQuiesce])
  | _ => False
  end.
Proof. vm_compute. repeat split. Qed.

(* After a crash, with the write in progress cut at any byte, the file reads as the first k of these calls; those that had
   returned before a round of the logger whose write has ended are among them. *)
Theorem C59_crash (n : nat) (j1 j2 : list Z) (ge we : Z) (l1 l2 l3 : list bact) (s : lb) (m : nat) :
  32 <= len j1 < 2 ^ 32 -> len j2 = len j1 -> 0 <= ge < 2 ^ 64 ->
  let l := l1 ++ Round :: l2 ++ Written :: l3 in
  Forall act_ok l -> brun n (lb_init j1 j2 ge we) l = Ok s ->
  exists rs es k, read_log (disk s m) = Some rs /\ map view rs = map Some es /\
    tagged 0 es = map (fun r => (q_epoch r, entry_of r)) (firstn k (returned n (lb_init j1 j2 ge we) l)) /\
    (length (returned n (lb_init j1 j2 ge we) l1) <= k)%nat.
Proof. exact (run_crash n j1 j2 ge we l1 l2 l3 s m). Qed.
Print Assumptions C59_crash.
Example C59_crash_example : returned 3 (lb_init (junk 140) (junk 140) 5 0) [Call 0 ra; Call 1 rb; Call 2 rd] = [ra; rd] /\
  match brun 3 (lb_init (junk 140) (junk 140) 5 0) ([Call 0 ra; Call 1 rb; Call 2 rd] ++ Round :: [Again 1] ++ Written :: [Round]) with
  | Ok s => b_write s <> None /\ views (disk s 30) = Some (map Some [EEpoch 5; entry_of ra; EEpoch 6; entry_of rd; EEpoch 5])
  | _ => False
  end.
Proof. vm_compute. repeat split. discriminate. Qed.

(* Calls that wait return in the order in which they began to wait. *)
Theorem C59_fifo (n : nat) (j1 j2 : list Z) (ge we : Z) (l0 : list bact) (s : lb) (t1 t2 : nat) (r : req) (s1 : lb) (l : list bact) :
  32 <= len j1 < 2 ^ 32 -> len j2 = len j1 -> brun n (lb_init j1 j2 ge we) l0 = Ok s -> b_pc s t1 <> None ->
  bstep n s (Call t2 r) = Ok s1 -> b_pc s1 t2 <> None -> waits_through n t1 s1 l -> waits_through n t2 s1 l.
Proof. exact (fifo n j1 j2 ge we l0 s t1 t2 r s1 l). Qed.
Print Assumptions C59_fifo.
Example C59_fifo_example : pcs (brun 3 (lb_init (junk 140) (junk 140) 5 0) [Call 0 ra; Call 1 rb; Call 2 rd]) = Some [None; Some rb; None] /\
  pcs (brun 3 (lb_init (junk 140) (junk 140) 5 0) [Call 0 ra; Call 1 rb; Call 2 rd; Call 0 rm]) = Some [Some rm; Some rb; None] /\
  pcs (brun 3 (lb_init (junk 140) (junk 140) 5 0) [Call 0 ra; Call 1 rb; Call 2 rd; Call 0 rm; Round; Again 0; Again 0; Written; Round; Again 0]) = Some [Some rm; Some rb; None].
Proof. vm_compute. repeat split. Qed.

(* When every call that waits asks for no more than the buffer holds, the logger and the waiting threads can finish them
   all, without a new call. Missing: that they do under every fair schedule, which is false (C59_overtake_refuted). *)
Theorem C59_progress_partial (n : nat) (j1 j2 : list Z) (ge we : Z) (l0 : list bact) (s : lb) :
  32 <= len j1 < 2 ^ 32 -> len j2 = len j1 -> brun n (lb_init j1 j2 ge we) l0 = Ok s -> (forall t r, b_pc s t = Some r -> req_size r <= len j1) ->
  exists l s', brun n s l = Ok s' /\ Forall own_step l /\ (forall t, b_pc s' t = None) /\ (forall t r, b_pc s t = Some r -> In r (returned n s l)).
Proof. exact (progress n j1 j2 ge we l0 s). Qed.
Print Assumptions C59_progress_partial.
Example C59_progress_example : map req_size [ra; rb; rd; rm] = [59; 107; 57; 59] /\ pcs (brun 3 (lb_init (junk 140) (junk 140) 5 0) [Call 0 ra; Call 1 rb; Call 2 rd; Call 0 rm]) = Some [Some rm; Some rb; None] /\
  pcs (brun 3 (lb_init (junk 140) (junk 140) 5 0) ([Call 0 ra; Call 1 rb; Call 2 rd; Call 0 rm] ++ [Round; Again 1; Written; Round; Again 0])) = Some [None; None; None].
Proof. vm_compute. repeat split. Qed.

(* A call that asks for more than the buffer holds never returns, whatever the others do, and while it waits the log
   records no quiescence. *)
Theorem C59_big (n : nat) (j1 j2 : list Z) (ge we : Z) (l0 : list bact) (s : lb) (t : nat) (r : req) (l : list bact) (s' : lb) :
  32 <= len j1 < 2 ^ 32 -> len j2 = len j1 -> 0 <= ge < 2 ^ 64 -> Forall act_ok (l0 ++ l) ->
  brun n (lb_init j1 j2 ge we) l0 = Ok s -> b_pc s t = Some r -> len j1 < req_size r -> brun n s l = Ok s' ->
  waits_through n t s l /\ b_pc s' t = Some r /\
  exists rs rs' es new, read_log (all_bytes s) = Some rs /\ map view rs = map Some es /\
    read_log (all_bytes s') = Some rs' /\ map view rs' = map Some (es ++ new) /\ ~ In EQuiesce new.
Proof. exact (big n j1 j2 ge we l0 s t r l s'). Qed.
Print Assumptions C59_big.
Example C59_big_example : len (junk 100) < req_size rb /\ pcs (brun 3 (lb_init (junk 100) (junk 100) 5 0) [Call 1 rb]) = Some [None; Some rb; None] /\
  pcs (brun 3 (lb_init (junk 100) (junk 100) 5 0) ([Call 1 rb] ++ [Call 0 ra; Clock; Round; Written; Again 1; Clock; Round])) = Some [None; Some rb; None] /\
  match brun 3 (lb_init (junk 100) (junk 100) 5 0) ([Call 1 rb] ++ [Call 0 ra; Clock; Round; Written; Again 1; Clock; Round]) with Ok s => views (all_bytes s) = Some (map Some [EEpoch 5; entry_of ra]) | _ => False end /\
  match brun 3 (lb_init (junk 100) (junk 100) 5 0) [Call 0 ra; Clock; Round; Written; Clock; Round] with Ok s => views (all_bytes s) = Some (map Some [EEpoch 5; entry_of ra; EEpoch 7; EQuiesce]) | _ => False end.
Proof. vm_compute. repeat split. Qed.

(* Not every call of record returns: with the buffers of 20 MB of the code, after a call with a value of 20 MB and one that
   fills the buffer, the smallest put waits forever as well, whatever the others do. *)
Theorem C59_returns_refuted (n : nat) (j1 j2 : list Z) (ge we : Z) :
  (3 <= n)%nat -> len j1 = 20971520 -> len j2 = len j1 ->
  exists r0 r1 r2 s, req_ok r0 /\ req_ok r1 /\ req_ok r2 /\ req_size r2 = 57 /\
    brun n (lb_init j1 j2 ge we) [Call 0 r0; Call 1 r1; Call 2 r2] = Ok s /\ (forall l, waits_through n 0 s l /\ waits_through n 2 s l).
Proof. exact (big_witness n j1 j2 ge we). Qed.
Print Assumptions C59_returns_refuted.
Example C59_returns_example : exists j1 j2 : list Z, len j1 = 20971520 /\ len j2 = len j1.
Proof. destruct (some_len 20971520 ltac:(lia)) as (j & H). exists j, j. split; [exact H|reflexivity]. Qed.

(* Nor do calls that fit return under every fair schedule: a call can try any number of times, with the buffer written out
   before each, and find it used by newcomers every time. *)
Theorem C59_overtake_refuted (n : nat) (j1 j2 : list Z) (ge we : Z) :
  (2 <= n)%nat -> len j1 = 20971520 -> len j2 = len j1 ->
  exists r0 r1 s, req_ok r0 /\ req_ok r1 /\ req_size r0 <= len j1 /\ brun n (lb_init j1 j2 ge we) [Call 1 r1; Call 0 r0] = Ok s /\
    forall k, exists l s', brun n s l = Ok s' /\ waits_through n 0 s l /\ tries 0 l = k /\ returned n s l = repeat r1 k.
Proof. exact (overtake_witness n j1 j2 ge we). Qed.
Print Assumptions C59_overtake_refuted.
Example C59_overtake_example : req_size rb = len (junk 107) /\
  pcs (brun 3 (lb_init (junk 107) (junk 107) 5 0) [Call 2 rd; Call 1 rb; Round; Written; Call 2 rd; Again 1; Round; Written; Call 2 rd; Again 1]) = Some [None; Some rb; None].
Proof. vm_compute. repeat split. Qed.
