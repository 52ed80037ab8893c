(* C33: checkpoints written and loaded again. *)
From Coq Require Import Sorting.Sorted.
From Verif Require Import Lib M_Tree M_Scan M_Bag M_Rowrun Spec_String Spec_Map Spec_Row Spec_Scan M_Ckpt Spec_Ckpt P_Tree9b P_Bag3 P_Ckpt3 P_Ckpt4.

(* For any range boundaries of which the first is empty, the threads' files are written; whatever order their records are
   loaded in, afterwards every key has the row and timestamp it had, and none has appeared; loading ends once each thread
   had enough turns. If the ranges do not overlap no key is loaded twice. *)
Theorem C33_restores : forall ops rows starts gen e,
  Forall op_ok ops -> Forall (op_short maxkeylen) ops ->
  (forall k v, present ops k = Some v -> row_good (rows v)) -> small_table rows (present ops) -> starts_ok starts -> 0 <= gen < 2 ^ 64 -> scratch_ok e ->
  exists t rs N files turns, truns table_init ops = Ok (t, rs) /\ (forall fuel, (N <= fuel)%nat -> ck_files fuel e 0 gen t rows starts = Some files) /\
  forall sched, exists st l, ck_load gen (length starts) files sched = Some (st, l) /\
    (finished l -> forall k, bytes_ok k -> exists o, tstep (ld_table st) (OGet k) = Ok (ld_table st, o) /\ seen (ld_rows st) o = seen rows (present ops k)) /\
    (starts_apart starts -> ld_again st = []) /\
    ((forall i, (i < length starts)%nat -> (turns <= count_occ Nat.eq_dec sched i)%nat) -> finished l).
Proof. exact restores. Qed.
Print Assumptions C33_restores.

(* for the examples: three rows (the last marks a removal), a table with two layers, scratch memory, threads taking turns *)
Definition ex_h (v : Z) : list (rop * Z) :=
  if v =? 3 then [(RReplace [], 41)] else if Z.even v then [(RPut [(1, [7; 8])], 30); (RReplace [5], 10)] else [(RReplace [9; 9; 9], 50)].
Definition ex_rows (v : Z) : bag := match bag_run (ex_h v) with Some b => b | None => bag_empty end.
Lemma ex_rows_good v : row_good (ex_rows v).
Proof.
  unfold ex_rows, ex_h. destruct (v =? 3); [|destruct (Z.even v)]; match goal with |- context [bag_run ?h] => split; [vm_compute; split; [discriminate|reflexivity]|exists h] end.
  all: (split; [repeat constructor; cbn; lia|]); (split; [repeat split; vm_compute; reflexivity|]); vm_compute; reflexivity.
Qed.
Definition ex_scr (i : nat) : scratch := MkScr (fun _ => 99) (repeat (Z.of_nat i) 256) (repeat 77 keybuf_size).
Lemma ex_scr_ok : scratch_ok ex_scr.
Proof. intros i. split; apply repeat_length. Qed.
Definition ex_k (n : nat) : list Z := [Z.of_nat (n / 256); Z.of_nat (n mod 256)].
Definition ex_ck_ops : list top :=
  map (fun i => OPut (ex_k i) (Z.of_nat i)) (seq 1 40) ++ [OPut [] 2; OPut (repeat 1 9 ++ [4]) 5; OPut (repeat 1 9 ++ [6]) 3; ORemove (ex_k 17); OPut [0] 8].
Lemma all_ops (b : top -> bool) (p : top -> Prop) l : (forall o, b o = true -> p o) -> forallb b l = true -> Forall p l.
Proof. intros H E. rewrite Forall_forall. intros x X. apply H. rewrite forallb_forall in E. auto. Qed.
Definition okb (o : top) : bool :=
  match o with OGet k | ORemove k => forallb (fun x => (0 <=? x) && (x <? 256)) k | OPut k _ | OAbandon k => forallb (fun x => (0 <=? x) && (x <? 256)) k && (length k <=? 255)%nat | OGc _ => true end.
Lemma okb_ok ops : forallb okb ops = true -> Forall op_ok ops /\ Forall (op_short maxkeylen) ops.
Proof.
  assert (B : forall k, forallb (fun x => (0 <=? x) && (x <? 256)) k = true -> bytes_ok k).
  { intros k H. unfold bytes_ok. rewrite Forall_forall. intros x X. rewrite forallb_forall in H. specialize (H x X). unfold byte_ok. lia. }
  intros H. split; (eapply all_ops; [|exact H]); intros [k|k v|k|k|i] O; cbn [okb op_ok op_short] in *; auto; try (apply B; lia); try (apply andb_prop in O; destruct O as [O1 O2]; try (now apply B); apply Nat.leb_le in O2; exact O2).
Qed.
Definition ex_starts : list (list Z) := [[]; [0; 9]; [0; 30; 1]; repeat 1 9 ++ [5]].
Definition turns_of (n k : nat) : list nat := flat_map (fun _ => seq 0 n) (seq 0 k).
Definition write_load (ops : list top) (starts : list (list Z)) (n : nat) (sched : list nat) : option (ldst * list (Z * list Z)) :=
  match truns table_init ops with
  | Ok (t, _) => match ck_files 5000 ex_scr 0 12 t ex_rows starts with Some fs => ck_load 12 n fs sched | None => None end
  | Err _ => None
  end.
Definition get_seen (c : option (ldst * list (Z * list Z))) (k : list Z) : option (Z * list (option Z)) :=
  match c with Some (st, _) => match tstep (ld_table st) (OGet k) with Ok (_, o) => seen (ld_rows st) o | Err _ => None end | None => None end.
Definition done (c : option (ldst * list (Z * list Z))) : bool := match c with Some (_, l) => forallb (fun x => fst x =? 0) l | None => false end.
Definition again (c : option (ldst * list (Z * list Z))) : list (list Z) := match c with Some (st, _) => ld_again st | None => [] end.
Example C33_restores_ex : (Forall op_ok ex_ck_ops /\ Forall (op_short maxkeylen) ex_ck_ops) /\
  (forall k v, present ex_ck_ops k = Some v -> row_good (ex_rows v)) /\ small_table ex_rows (present ex_ck_ops) /\ starts_ok ex_starts /\ starts_apart ex_starts /\ scratch_ok ex_scr /\
  let c := write_load ex_ck_ops ex_starts 4 (turns_of 4 25) in
  done c = true /\ again c = [] /\ get_seen c (ex_k 17) = None /\ get_seen c (ex_k 3) = None /\ get_seen c (repeat 1 9 ++ [6]) = None /\
  get_seen c (repeat 1 9 ++ [4]) = seen ex_rows (Some 5) /\ get_seen c [] = seen ex_rows (Some 2) /\ get_seen c (ex_k 30) = seen ex_rows (Some 30) /\ seen ex_rows (Some 30) <> None.
Proof.
  split; [apply okb_ok; vm_compute; reflexivity|]. split; [intros; apply ex_rows_good|]. split; [apply small_by_ops; vm_compute; discriminate|].
  split; [split; [reflexivity|repeat constructor; cbn; unfold byte_ok; lia]|]. split; [split; [repeat constructor; vm_compute; discriminate|cbn; intuition discriminate]|].
  split; [exact ex_scr_ok|]. vm_compute. repeat split; discriminate.
Qed.

(* The same with the boundaries the server takes from the tree, for any number of threads. *)
Theorem C33_server_restores : forall ops rows n gen e,
  Forall op_ok ops -> Forall (op_short maxkeylen) ops ->
  (forall k v, present ops k = Some v -> row_good (rows v)) -> small_table rows (present ops) -> (0 < n)%nat -> 0 <= gen < 2 ^ 64 -> scratch_ok e ->
  exists t rs, truns table_init ops = Ok (t, rs) /\ forall starts, findpivots (t_heap t) (t_root t) n = Ok starts ->
  exists N files turns, (forall fuel, (N <= fuel)%nat -> ck_files fuel e 0 gen t rows starts = Some files) /\
  forall sched, exists st l, ck_load gen n files sched = Some (st, l) /\
    (finished l -> forall k, bytes_ok k -> exists o, tstep (ld_table st) (OGet k) = Ok (ld_table st, o) /\ seen (ld_rows st) o = seen rows (present ops k)) /\
    (~ In [] (tl starts) -> ld_again st = []) /\
    ((forall i, (i < n)%nat -> (turns <= count_occ Nat.eq_dec sched i)%nat) -> finished l).
Proof. exact server_restores. Qed.
Print Assumptions C33_server_restores.
Definition pivots (ops : list top) (n : nat) : res (list (list Z)) := match truns table_init ops with Ok (t, _) => findpivots (t_heap t) (t_root t) n | Err e => Err e end.
Definition server_load (ops : list top) (n m : nat) (sched : list nat) : option (ldst * list (Z * list Z)) := match pivots ops n with Ok s => write_load ops s m sched | Err _ => None end.
Example C33_server_restores_ex : pivots ex_ck_ops 3 = Ok [[]; [0; 16]; [0; 31]] /\ done (server_load ex_ck_ops 3 3 (turns_of 3 30)) = true /\
  get_seen (server_load ex_ck_ops 3 3 (turns_of 3 30)) (ex_k 30) = seen ex_rows (Some 30) /\ again (server_load ex_ck_ops 3 3 (turns_of 3 30)) = [].
Proof. vm_compute. repeat split. Qed.

(* The boundaries: as many as threads, in increasing order unless one of them is empty. The only way to fail is an internode
   whose leftmost child is null. *)
Theorem C33_boundaries : forall ops n, Forall op_ok ops -> (0 < n)%nat ->
  exists t rs, truns table_init ops = Ok (t, rs) /\
    ((exists starts, findpivots (t_heap t) (t_root t) n = Ok starts /\ length starts = n /\ starts_ok starts /\ (~ In [] (tl starts) -> starts_apart starts)) \/
     (findpivots (t_heap t) (t_root t) n = Err BadPtr /\ ~ (forall a i, hp_node (t_heap t) a = Some (NInter i) -> in_child i 0%nat <> None))).
Proof. exact server_starts. Qed.
Print Assumptions C33_boundaries.
Definition ex_many : list top := map (fun i => OPut (ex_k i) (Z.of_nat i)) (seq 1 260).
Example C33_boundaries_ex : (Forall op_ok ex_many) /\ pivots ex_many 5 = Ok [[]; [0; 106]; [0; 196]; [0; 247]; [1; 1]].
Proof. split; [apply okb_ok; vm_compute; reflexivity|]. vm_compute. reflexivity. Qed.

(* A checkpoint with five threads after 260 insertions and 15 removals follows a null pointer. *)
Theorem C33_null_child_refuted : exists ops, Forall op_ok ops /\ Forall (op_short maxkeylen) ops /\ length ops = 275%nat /\
  exists t rs, truns table_init ops = Ok (t, rs) /\ findpivots (t_heap t) (t_root t) 5 = Err BadPtr.
Proof.
  exists (ex_many ++ map (fun i => ORemove (ex_k i)) (seq 241 15)). split; [apply okb_ok; vm_compute; reflexivity|]. split; [apply okb_ok; vm_compute; reflexivity|]. split; [reflexivity|].
  destruct (server_starts (ex_many ++ map (fun i => ORemove (ex_k i)) (seq 241 15)) 5) as (t & rs & E & _); [apply okb_ok; vm_compute; reflexivity|lia|]. exists t, rs. split; [exact E|].
  assert (Q : match pivots (ex_many ++ map (fun i => ORemove (ex_k i)) (seq 241 15)) 5 with Err BadPtr => True | _ => False end) by (vm_compute; exact Logic.I).
  unfold pivots in Q. rewrite E in Q. destruct (findpivots _ _ _) as [|[]]; tauto.
Qed.
Print Assumptions C33_null_child_refuted.

(* A boundary taken from a slice of NUL bytes is empty, and an empty boundary does not end the range before it: every key is
   written by both threads and loaded twice. *)
Theorem C33_duplicate_refuted : exists ops n starts c, Forall op_ok ops /\ pivots ops n = Ok starts /\ write_load ops starts n (turns_of n 4) = Some c /\
  finished (snd c) /\ present ops [0] <> None /\ ld_again (fst c) = [[0; 0]; [0]].
Proof.
  exists [OPut [0] 1; OPut [0; 0] 2], 2%nat, [[]; []].
  assert (Q : done (write_load [OPut [0] 1; OPut [0; 0] 2] [[]; []] 2 (turns_of 2 4)) = true /\ again (write_load [OPut [0] 1; OPut [0; 0] 2] [[]; []] 2 (turns_of 2 4)) = [[0; 0]; [0]]) by (vm_compute; auto).
  destruct (write_load _ _ _ _) as [c|] eqn:E; [|destruct Q; discriminate]. exists c. destruct c as [st l]. cbn [done again] in Q. destruct Q as [Q1 Q2].
  split; [apply okb_ok; vm_compute; reflexivity|]. split; [vm_compute; reflexivity|]. split; [reflexivity|]. split; [|split; [vm_compute; discriminate|exact Q2]].
  unfold finished. rewrite Forall_forall. rewrite forallb_forall in Q1. intros x X. apply Z.eqb_eq. exact (Q1 x X).
Qed.
Print Assumptions C33_duplicate_refuted.

(* A server restarted with fewer threads than wrote the checkpoint loads only some of the files, and reports nothing. *)
Theorem C33_fewer_threads_refuted : exists ops n m starts c k, Forall op_ok ops /\ (0 < m < n)%nat /\ pivots ops n = Ok starts /\ ~ In [] (tl starts) /\
  write_load ops starts m (turns_of m 40) = Some c /\ finished (snd c) /\ seen ex_rows (present ops k) <> None /\ get_seen (Some c) k = None.
Proof.
  exists ex_ck_ops, 3%nat, 2%nat, [[]; [0; 16]; [0; 31]].
  assert (Q : done (write_load ex_ck_ops [[]; [0; 16]; [0; 31]] 2 (turns_of 2 40)) = true /\ get_seen (write_load ex_ck_ops [[]; [0; 16]; [0; 31]] 2 (turns_of 2 40)) (ex_k 35) = None) by (vm_compute; auto).
  destruct (write_load _ _ _ _) as [c|] eqn:E; [|destruct Q; discriminate]. exists c, (ex_k 35). destruct Q as [Q1 Q2].
  split; [apply okb_ok; vm_compute; reflexivity|]. split; [lia|]. split; [vm_compute; reflexivity|]. split; [cbn; intuition discriminate|]. split; [reflexivity|].
  split; [|split; [vm_compute; discriminate|exact Q2]]. destruct c as [st l]. cbn [done] in Q1. unfold finished. rewrite Forall_forall. rewrite forallb_forall in Q1. intros x X. apply Z.eqb_eq. exact (Q1 x X).
Qed.
Print Assumptions C33_fewer_threads_refuted.

(* A server restarted with more threads stops: a thread without a file finds a generation that is not the checkpoint's. *)
Theorem C33_more_threads : forall gen sched, gen <> 0 -> forall n files, (length files < n)%nat -> ck_load gen n files sched = None.
Proof. exact more_threads. Qed.
Print Assumptions C33_more_threads.
Example C33_more_threads_ex : server_load ex_ck_ops 3 4 [] = None /\ server_load ex_ck_ops 3 3 [] <> None.
Proof. vm_compute. split; [reflexivity|discriminate]. Qed.
