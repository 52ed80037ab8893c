(* C35: range queries; C42: replies to gets. *)
From Verif Require Import Lib M_Tree M_Scan M_Msgpack M_Query Spec_Map Spec_Scan Spec_Query P_Query T_Tree T_Scan.

(* A range query answers with the first n rows from the start key on, in order, with the columns asked for. buf: what
   earlier queries left in the query's key buffer. *)
Theorem C35_scan_partial ops start mem : Forall op_ok ops -> Forall (op_short maxkeylen) ops -> bytes_ok start -> (length start <= keybuf_size)%nat -> length mem = keybuf_size ->
  exists t rs L, truns table_init ops = Ok (t, rs) /\ enum_up (present ops) start true L /\
  forall rows junk buf fs f n seqno jcmd, columns fs f -> 0 < n < 2 ^ 31 -> exists N, forall fuel, (N <= fuel)%nat ->
    run_scan fuel Fwd rows junk buf mem t (seqno :: jcmd :: JStr start :: JInt n :: fs) = Some (seqno :: JInt (Cmd_Scan + 1) :: scan_reply f (firstn (Z.to_nat n) (rows_of rows L))).
Proof. exact (c35_up ops start mem). Qed.
Print Assumptions C35_scan_partial.
Theorem C35_rscan_partial ops start mem : Forall op_ok ops -> Forall (op_short maxkeylen) ops -> bytes_ok start -> (length start <= keybuf_size)%nat -> length mem = keybuf_size ->
  exists t rs L, truns table_init ops = Ok (t, rs) /\ enum_down (present ops) start true L /\
  forall rows junk buf fs f n seqno jcmd, columns fs f -> 0 < n < 2 ^ 31 -> exists N, forall fuel, (N <= fuel)%nat ->
    run_scan fuel Rev rows junk buf mem t (seqno :: jcmd :: JStr start :: JInt n :: fs) = Some (seqno :: JInt (Cmd_Scan + 1) :: scan_reply f (firstn (Z.to_nat n) (rows_of rows L))).
Proof. exact (c35_down ops start mem). Qed.
Print Assumptions C35_rscan_partial.
(* rows with two columns; value 88 stands for a deletion marker *)
Definition ex_rows (v : Z) : qrow := MkQRow (v =? 88) [[v]; [v; v]].
Definition ex_query (d : sdir) (buf : list Z) (req : list json) : option (list json) :=
  match truns table_init ex_scan_ops with Ok (t, _) => run_scan 5000 d ex_rows (fun _ => 9) buf (repeat 99 256) t req | Err _ => None end.
Example C35_example :
  ex_query Fwd (repeat 0 20) [JInt 5; JInt Cmd_Scan; JStr (repeat 5 8); JInt 3; JInt 1] =
    Some [JInt 5; JInt 5; JStr (ex_prefix 8 1); JStr [8; 8]; JStr (ex_prefix 9 1); JStr [9; 9]; JStr (ex_prefix 10 1); JStr [10; 10]] /\
  ex_query Rev [] [JInt 5; JInt Cmd_Scan; JStr (ex_prefix 17 1); JInt 2] =
    Some [JInt 5; JInt 5; JStr (ex_prefix 17 1); JArr [JStr [17]; JStr [17; 17]]; JStr (repeat 5 16); JArr [JStr [66]; JStr [66; 66]]] /\
  columns [JInt 1; JInt 0] [1; 0].
Proof. split; [vm_compute; reflexivity|]. split; [vm_compute; reflexivity|]. repeat constructor; lia. Qed.
(* A count is cut to 32 bits. *)
Theorem C35_count_refuted : exists n, 2 ^ 31 <= n < 2 ^ 63 /\ ex_query Fwd [] [JInt 5; JInt Cmd_Scan; JStr []; JInt n; JInt 0] = ex_query Fwd [] [JInt 5; JInt Cmd_Scan; JStr []; JInt 1; JInt 0] /\
  option_map (@length json) (ex_query Fwd [] [JInt 5; JInt Cmd_Scan; JStr []; JInt n; JInt 0]) = Some 4%nat /\
  option_map (@length json) (ex_query Fwd [] [JInt 5; JInt Cmd_Scan; JStr []; JInt 1000; JInt 0]) = Some 80%nat.
Proof. exists (2 ^ 32 + 1). split; [lia|]. split; [vm_compute; reflexivity|]. split; vm_compute; reflexivity. Qed.
Print Assumptions C35_count_refuted.
(* The client's own way of asking for columns violates a precondition of the server. *)
Theorem C35_client_scan_refuted fuel d rows junk buf mem t start f n seqno : run_scan fuel d rows junk buf mem t (sendscan start f n seqno) = None.
Proof. exact (client_scan_fails fuel d rows junk buf mem t start f n seqno). Qed.
Print Assumptions C35_client_scan_refuted.

(* A get of a present row answers with the columns asked for. *)
Theorem C42_present_partial ops k v fs f seqno jcmd : Forall op_ok ops -> bytes_ok k -> columns fs f -> present ops k = Some v ->
  exists t rs, truns table_init ops = Ok (t, rs) /\ forall rows, q_marker (rows v) = false ->
    run_get rows t (seqno :: jcmd :: JStr k :: fs) = Some (seqno :: JInt (Cmd_Get + 1) :: map JStr (selected f (rows v))).
Proof. exact (c42_present ops k v fs f seqno jcmd). Qed.
Print Assumptions C42_present_partial.
Example C42_example : present ex_ops ex_long = Some 3 /\ columns [JInt 1] [1] /\
  match truns table_init ex_ops with Ok (t, _) => run_get ex_rows t [JInt 5; JInt Cmd_Get; JStr ex_long; JInt 1] = Some [JInt 5; JInt 3; JStr [3; 3]] | Err _ => False end.
Proof. split; [vm_compute; reflexivity|]. split; [repeat constructor; lia|]. vm_compute. reflexivity. Qed.
(* The reply to a get of an absent key is the reply to a get of a row whose only column is the key. *)
Theorem C42_absent_refuted : forall k, bytes_ok k -> exists t0 t1 rs0 rs1 rows, truns table_init [] = Ok (t0, rs0) /\ truns table_init [OPut k 1] = Ok (t1, rs1) /\
  present [] k = None /\ present [OPut k 1] k = Some 1 /\ q_marker (rows 1) = false /\
  forall seqno, run_get rows t0 (sendgetwhole k seqno) = run_get rows t1 (sendgetwhole k seqno) /\ run_get rows t0 (sendgetwhole k seqno) = Some [JInt seqno; JInt (Cmd_Get + 1); JStr k].
Proof. exact c42_absent. Qed.
Print Assumptions C42_absent_refuted.
Theorem C42_client_get_refuted ops k v f seqno : Forall op_ok ops -> bytes_ok k -> present ops k = Some v ->
  exists t rs, truns table_init ops = Ok (t, rs) /\ forall rows, q_marker (rows v) = false -> run_get rows t (sendget k f seqno) = None.
Proof. exact (client_get_fails ops k v f seqno). Qed.
Print Assumptions C42_client_get_refuted.
