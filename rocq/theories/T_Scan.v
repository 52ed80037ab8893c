(* Properties of scans in one thread: C04, C05, and the scan part of C07. *)
From Verif Require Import Lib Spec_Map Spec_Scan M_Tree M_Scan P_Tree9b P_Scan5 T_Tree.

(* for the examples: collect the keys and values of a scan *)
Definition collect (limit : nat) (a : list (list Z * Z)) (k : list Z) (v : Z) : list (list Z * Z) * bool := (a ++ [(k, v)], (length a + 1 <? limit)%nat).
Definition ex_scan (ops : list top) (d : sdir) (start : list Z) (em : bool) (limit : nat) : res (list (list Z * Z) * Z) :=
  match truns table_init ops with
  | Ok (t, _) => tree_scan 5000 (t_heap t) (t_root t) d start em (repeat 99 256) (collect limit) []
  | Err e => Err e
  end.
Definition ex_prefix (n : nat) (x : Z) : list Z := repeat 5 n ++ [x].
(* keys in three layers, around multiples of eight bytes, and enough of them to split leaves *)
Definition ex_scan_ops : list top :=
  ex_ops ++ map (fun n => OPut (ex_prefix n 1) (Z.of_nat n)) (seq 0 20) ++ map (fun n => OPut (ex_prefix n 9) (Z.of_nat n)) [7; 8; 9; 15; 16; 17]%nat ++
  [OPut (repeat 5 8) 88; OPut (repeat 5 16) 66; OPut (repeat 255 255) 55; ORemove (ex_prefix 16 1); OAbandon (ex_prefix 30 1)].

(* A forward scan calls the scanner on exactly the bindings from the start key on, in increasing order, until it is told to stop. *)
Theorem C04_forward_scan : forall ops start em mem,
  Forall op_ok ops -> Forall (op_short maxkeylen) ops -> bytes_ok start -> (length start <= keybuf_size)%nat -> length mem = keybuf_size ->
  exists t rs L, truns table_init ops = Ok (t, rs) /\ enum_up (present ops) start em L /\
  forall (A : Type) (vis : A -> list Z -> Z -> A * bool), exists N, forall fuel a, (N <= fuel)%nat ->
    tree_scan fuel (t_heap t) (t_root t) Fwd start em mem vis a = Ok (visit_list vis a L).
Proof. exact c04_scan. Qed.
Print Assumptions C04_forward_scan.
Lemma ex_scan_ops_ok : Forall op_ok ex_scan_ops /\ Forall (op_short maxkeylen) ex_scan_ops.
Proof.
  assert (Q : forall {X} (p : X -> Prop) (b : X -> bool) l, (forall x, b x = true -> p x) -> forallb b l = true -> Forall p l).
  { intros X p b l H E. rewrite Forall_forall. intros x Hx. apply H. rewrite forallb_forall in E. auto. }
  set (bb := forallb (fun x => (0 <=? x) && (x <? 256))).
  assert (QB : forall k, bb k = true -> bytes_ok k). { intros k E. eapply Q; [|exact E]. intros x Hx. cbv beta in *. apply andb_prop in Hx. destruct Hx as [H1 H2]. apply Z.leb_le in H1. apply Z.ltb_lt in H2. split; auto. }
  split.
  - apply Q with (b := fun o => match o with OGet k | OPut k _ | OAbandon k | ORemove k => bb k | OGc _ => true end); [|vm_compute; reflexivity].
    intros o Ho. destruct o; cbn; auto.
  - apply Q with (b := fun o => match o with OPut k _ | OAbandon k => (length k <=? 255)%nat | _ => true end); [|vm_compute; reflexivity].
    intros o Ho. destruct o; cbn [op_short]; auto; apply Nat.leb_le in Ho; exact Ho.
Qed.
Example C04_forward_scan_ex : Forall op_ok ex_scan_ops /\ Forall (op_short maxkeylen) ex_scan_ops /\
  ex_scan ex_scan_ops Fwd (ex_prefix 16 1) true 5 =
    Ok ([(ex_prefix 17 1, 17); (ex_prefix 18 1, 18); (ex_prefix 19 1, 19); (ex_prefix 17 9, 17); (ex_prefix 16 9, 16)], 5) /\
  ex_scan ex_scan_ops Fwd (repeat 5 8) true 2 = Ok ([(repeat 5 8, 88); (ex_prefix 8 1, 8)], 2) /\
  ex_scan ex_scan_ops Fwd (repeat 5 8) false 2 = Ok ([(ex_prefix 8 1, 8); (ex_prefix 9 1, 9)], 2) /\
  (match ex_scan ex_scan_ops Fwd [] true 1000 with Ok (_, n) => n | Err _ => 0 end) = 40.
Proof. split; [apply ex_scan_ops_ok|]. split; [apply ex_scan_ops_ok|]. vm_compute. auto. Qed.

(* Without the length bound: insertion accepts a longer key and lookups find it, but a scan that meets it writes past its key buffer. *)
Theorem C04_scan_of_long_key_refuted : exists ops k v t rs, Forall op_ok ops /\ bytes_ok k /\ truns table_init ops = Ok (t, rs) /\ tstep t (OGet k) = Ok (t, Some v) /\
  forall fuel mem, (3 <= fuel)%nat -> length mem = keybuf_size ->
    tree_scan fuel (t_heap t) (t_root t) Fwd [] true mem (collect 10) [] = Err BadWrite.
Proof.
  exists [OPut (repeat 1 300) 7], (repeat 1 300), 7. eexists. eexists. split; [|split; [|split; [|split]]].
  - repeat constructor; lia.
  - repeat constructor; lia.
  - vm_compute. reflexivity.
  - vm_compute. reflexivity.
  - intros fuel mem H Hm. do 3 (destruct fuel as [|fuel]; [lia|]).
    do 256 (destruct mem as [|? mem]; [discriminate Hm|]). destruct mem; [|discriminate Hm]. vm_compute. reflexivity.
Qed.
Print Assumptions C04_scan_of_long_key_refuted.

(* A backward scan, in decreasing order. *)
Theorem C05_reverse_scan : forall ops start em mem,
  Forall op_ok ops -> Forall (op_short maxkeylen) ops -> bytes_ok start -> (length start <= keybuf_size)%nat -> length mem = keybuf_size ->
  exists t rs L, truns table_init ops = Ok (t, rs) /\ enum_down (present ops) start em L /\
  forall (A : Type) (vis : A -> list Z -> Z -> A * bool), exists N, forall fuel a, (N <= fuel)%nat ->
    tree_scan fuel (t_heap t) (t_root t) Rev start em mem vis a = Ok (visit_list vis a L).
Proof. exact c05_rscan. Qed.
Print Assumptions C05_reverse_scan.
Example C05_reverse_scan_ex :
  ex_scan ex_scan_ops Rev (ex_prefix 17 1) false 4 = Ok ([(repeat 5 16, 66); (ex_prefix 15 1, 15); (ex_prefix 14 1, 14); (ex_prefix 13 1, 13)], 4) /\
  ex_scan ex_scan_ops Rev (ex_prefix 17 1) true 2 = Ok ([(ex_prefix 17 1, 17); (repeat 5 16, 66)], 2) /\
  ex_scan ex_scan_ops Rev (repeat 255 255) true 3 = Ok ([(repeat 255 255, 55); (ex_long, 3); (ex_prefix 7 9, 7)], 3) /\
  ex_scan ex_scan_ops Rev [] true 3 = Ok ([([], 5)], 1).
Proof. vm_compute. auto. Qed.

(* Collecting layers, or an abandoned insertion, changes no scan. *)
Theorem C07_scans_unaffected_by_cleanup : forall ops1 o ops2 d, Forall op_ok (ops1 ++ o :: ops2) -> Forall (op_short maxkeylen) (ops1 ++ o :: ops2) ->
  (match o with OGet _ | OAbandon _ | OGc _ => True | OPut _ _ | ORemove _ => False end) ->
  exists t t' rs rs', truns table_init (ops1 ++ o :: ops2) = Ok (t, rs) /\ truns table_init (ops1 ++ ops2) = Ok (t', rs') /\
  forall start em mem (A : Type) (vis : A -> list Z -> Z -> A * bool), bytes_ok start -> (length start <= keybuf_size)%nat -> length mem = keybuf_size ->
  exists N, forall fuel a, (N <= fuel)%nat -> exists r,
    tree_scan fuel (t_heap t) (t_root t) d start em mem vis a = Ok r /\ tree_scan fuel (t_heap t') (t_root t') d start em mem vis a = Ok r.
Proof. exact c07_scan. Qed.
Print Assumptions C07_scans_unaffected_by_cleanup.
(* the collection removes a layer whose leaf the scan would otherwise pass through *)
Example C07_scans_unaffected_by_cleanup_ex :
  nodes_of (truns table_init (ex_layers ++ [OPut [9] 4])) = 3%nat /\ gc_of (truns table_init (ex_layers ++ OGc 0 :: [OPut [9] 4])) = [(0%nat, repeat 7 8)] /\
  ex_scan (ex_layers ++ OGc 0 :: [OPut [9] 4]) Fwd [] true 5 = Ok ([([9], 4)], 1) /\ ex_scan (ex_layers ++ [OPut [9] 4]) Fwd [] true 5 = Ok ([([9], 4)], 1).
Proof. vm_compute. auto. Qed.
