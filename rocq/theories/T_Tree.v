(* Properties of the table in one thread: C01, C02, C07, C08. *)
From Verif Require Import Lib Spec_Map M_Key M_Tree P_Tree9b.

(* ---- a history for the examples: splits at two levels, shared prefixes, removals, layer collection ---- *)
Definition ex_key (n : nat) : list Z := [Z.of_nat n / 256; Z.of_nat n mod 256].
Definition ex_puts (n : nat) : list top := map (fun j => OPut (ex_key j) (Z.of_nat j)) (seq 0 n).
Definition ex_long : list Z := repeat 7 20.
Definition ex_long2 : list Z := repeat 7 17 ++ [8].
Definition ex_ops : list top :=
  ex_puts 40 ++ [OPut ex_long 1; OPut ex_long2 2; OPut [] 5; OAbandon (ex_long ++ [9; 9]); ORemove ex_long; ORemove ex_long2; OGc 0] ++
  map (fun j => ORemove (ex_key j)) (seq 3 30) ++ [OGc 0; OPut ex_long 3; OGet ex_long; OGet [0; 5]; OGet [0; 1]; OGet []].
Definition results (t : table) (ops : list top) : list tres := match truns t ops with Ok (_, rs) => rs | Err _ => [] end.

(* The results of any history are those of the finite map. *)
Theorem C01_table_is_finite_map : forall ops, Forall op_ok ops -> exists t, truns table_init ops = Ok (t, snd (map_run map_empty ops)).
Proof. exact c01_map. Qed.
Print Assumptions C01_table_is_finite_map.
Example C01_table_is_finite_map_ex : Forall op_ok ex_ops /\ length ex_ops = 83%nat /\ skipn 79 (results table_init ex_ops) = [Some 3; None; Some 1; Some 5].
Proof. split; [|vm_compute; auto]. repeat constructor; cbn; try lia. Qed.

(* A lookup after any history returns the most recent write to exactly that key. *)
Theorem C01_lookup_returns_last_write : forall ops k, Forall op_ok ops -> bytes_ok k ->
  exists t rs, truns table_init ops = Ok (t, rs) /\ tstep t (OGet k) = Ok (t, present ops k).
Proof. exact c01_lookup. Qed.
Print Assumptions C01_lookup_returns_last_write.
Example C01_lookup_returns_last_write_ex : present ex_ops ex_long = Some 3 /\ present ex_ops ex_long2 = None /\ present ex_ops (ex_key 39) = Some 39 /\ last_write ex_ops ex_long2 = Some None.
Proof. vm_compute. auto. Qed.

(* An operation changes the lookup result of no key but the one it writes. *)
Theorem C01_other_keys_unchanged : forall ops o k, Forall op_ok ops -> op_ok o -> bytes_ok k -> write_of o k = None ->
  exists t t' rs r, truns table_init ops = Ok (t, rs) /\ tstep t o = Ok (t', r) /\ tree_get (t_heap t') (t_root t') k = tree_get (t_heap t) (t_root t) k.
Proof. exact c01_frame. Qed.
Print Assumptions C01_other_keys_unchanged.
Example C01_other_keys_unchanged_ex : write_of (ORemove (ex_key 35)) (ex_key 36) = None /\ present ex_ops (ex_key 36) = Some 36 /\ present ex_ops (ex_key 35) = Some 35.
Proof. vm_compute. auto. Qed.

(* Positioning for writing reports whether the key is present, and gives its value. *)
Theorem C02_insert_position_reports_presence : forall ops k, Forall op_ok ops -> bytes_ok k ->
  exists t rs h cu found, truns table_init ops = Ok (t, rs) /\
    (t1 <- fix_root t ;; find_insert (S (length k)) (t_heap t1) (t_root t1) k) = Ok (h, cu, found) /\
    (found = true <-> present ops k <> None) /\ (found = true -> exists v, cursor_value h cu = Ok v /\ present ops k = Some v).
Proof. exact c02_found. Qed.
Print Assumptions C02_insert_position_reports_presence.
Example C02_insert_position_reports_presence_ex : present ex_ops ex_long <> None /\ present ex_ops ex_long2 = None /\ bytes_ok ex_long2.
Proof. split; [vm_compute; congruence|]. split; [reflexivity|]. repeat constructor; lia. Qed.
Theorem C02_locked_position_reports_presence : forall ops k, Forall op_ok ops -> bytes_ok k ->
  exists t rs h cu, truns table_init ops = Ok (t, rs) /\
    (t1 <- fix_root t ;; find_locked (S (length k)) (t_heap t1) (t_root t1) (t_root t1) (key_make k)) = Ok (h, cu) /\
    (cu_state cu <> 0 <-> present ops k <> None) /\ (cu_state cu <> 0 -> exists v, cursor_value h cu = Ok v /\ present ops k = Some v).
Proof. exact c02_locked. Qed.
Print Assumptions C02_locked_position_reports_presence.
Example C02_locked_position_reports_presence_ex : present ex_ops ex_long <> None /\ present ex_ops ex_long2 = None.
Proof. split; [vm_compute; congruence|reflexivity]. Qed.

(* Every write reports what was there before. *)
Theorem C02_operations_report_previous_value : forall ops o, Forall op_ok (ops ++ [o]) ->
  exists t t' rs, truns table_init ops = Ok (t, rs) /\ tstep t o = Ok (t', map_reports (present ops) o).
Proof. exact c02_reports. Qed.
Print Assumptions C02_operations_report_previous_value.
Example C02_operations_report_previous_value_ex : map_reports (present ex_ops) (OPut ex_long 9) = Some 3 /\ map_reports (present ex_ops) (ORemove ex_long2) = None.
Proof. vm_compute. auto. Qed.

(* An abandoned insertion is never visible. *)
Theorem C02_abandoned_insert_invisible : forall ops1 k ops2, Forall op_ok (ops1 ++ OAbandon k :: ops2) ->
  exists t t' rs1 r rs2, truns table_init (ops1 ++ OAbandon k :: ops2) = Ok (t, rs1 ++ r :: rs2) /\ length rs1 = length ops1 /\ truns table_init (ops1 ++ ops2) = Ok (t', rs1 ++ rs2).
Proof. exact (fun ops1 k ops2 F => c_invisible ops1 (OAbandon k) ops2 F I). Qed.
Print Assumptions C02_abandoned_insert_invisible.
(* the abandoned insertion splits a full leaf, or creates a layer *)
Definition nodes_of (r : res (table * list tres)) : nat := match r with Ok (t, _) => hp_next (t_heap t) | Err _ => 0%nat end.
Example C02_abandoned_insert_invisible_ex :
  nodes_of (truns table_init (ex_puts 15)) = 1%nat /\ nodes_of (truns table_init (ex_puts 15 ++ [OAbandon [200]])) = 3%nat /\
  nodes_of (truns table_init [OPut ex_long 1; OAbandon ex_long2]) = 3%nat /\ results table_init (ex_puts 15 ++ [OAbandon [200]; OGet [200]; OGet [0; 3]]) = repeat None 17 ++ [Some 3].
Proof. vm_compute. auto. Qed.

(* Collecting layers, at any time, is never visible. *)
Theorem C07_layer_collection_invisible : forall ops1 i ops2, Forall op_ok (ops1 ++ OGc i :: ops2) ->
  exists t t' rs1 r rs2, truns table_init (ops1 ++ OGc i :: ops2) = Ok (t, rs1 ++ r :: rs2) /\ length rs1 = length ops1 /\ truns table_init (ops1 ++ ops2) = Ok (t', rs1 ++ rs2).
Proof. exact (fun ops1 i ops2 F => c_invisible ops1 (OGc i) ops2 F I). Qed.
Print Assumptions C07_layer_collection_invisible.
Theorem C07_collection_of_any_prefix_invisible : forall ops prefix ops2, Forall op_ok ops -> bytes_ok prefix -> Forall op_ok ops2 ->
  exists t rs h gc t1 t2 rs2, truns table_init ops = Ok (t, rs) /\ run_gc (t_heap t) (t_root t, prefix) = Ok (h, gc) /\
    truns t ops2 = Ok (t1, rs2) /\ truns (MkTable h (t_root t) (t_gc t ++ gc)) ops2 = Ok (t2, rs2).
Proof. exact c07_any_prefix. Qed.
Print Assumptions C07_collection_of_any_prefix_invisible.
(* a collection that does remove a layer, and the one it then schedules *)
Definition gc_of (r : res (table * list tres)) : list gcitem := match r with Ok (t, _) => t_gc t | Err _ => [] end.
Definition ex_layers : list top := [OPut ex_long 1; OPut ex_long2 2; ORemove ex_long; ORemove ex_long2].
Example C07_layer_collection_ex :
  gc_of (truns table_init ex_layers) = [(0%nat, repeat 7 16)] /\ gc_of (truns table_init (ex_layers ++ [OGc 0])) = [(0%nat, repeat 7 8)] /\
  gc_of (truns table_init (ex_layers ++ [OGc 0; OGc 0])) = [] /\ results table_init (ex_layers ++ [OGc 0; OPut ex_long 3; OGc 0; OGet ex_long; OGet ex_long2]) = [None; None; Some 1; Some 2; None; None; None; Some 3; None].
Proof. vm_compute. auto. Qed.
Example C07_any_prefix_ex : bytes_ok (repeat 7 8) /\ (match truns table_init ex_layers with Ok (t, _) => match run_gc (t_heap t) (t_root t, repeat 7 16) with Ok (_, gc) => gc | Err _ => [] end | Err _ => [] end) = [(0%nat, repeat 7 8)].
Proof. split; [repeat constructor; lia|]. vm_compute. auto. Qed.

(* No history reaches a null or wrong dereference, a failed assertion or a loop that does not end. *)
Theorem C08_operations_never_stuck : forall ops, Forall op_ok ops -> exists t rs, truns table_init ops = Ok (t, rs).
Proof. exact c08_total. Qed.
Print Assumptions C08_operations_never_stuck.
(* the error outcomes exist in the model: starting from an address that holds no node *)
Example C08_operations_never_stuck_ex : Forall op_ok ex_ops /\ (exists e, tstep (MkTable (t_heap table_init) 77%nat []) (OGet [1]) = Err e).
Proof. split; [repeat constructor; cbn; try lia|]. eexists. reflexivity. Qed.
