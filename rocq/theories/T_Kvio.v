(* C34: output buffering is transparent. *)
From Verif Require Import Lib M_Kvio Spec_Kvio P_Kvio.

(* A buffer with a connection. Whatever the kernel does short of failing, what it took and what waits are together what was
   written, and after a flush nothing waits. The run gets stuck only if the kernel stops taking bytes. *)
Theorem C34_transparent_partial junk os mem l : 0 < len mem < 2 ^ 32 -> no_failure os -> Forall op_fits l -> spaced 0 l -> ~ In KReset l ->
  match krun junk os l (new_kvout true mem) with
  | KOk (kv, _) => kv_sent kv ++ kv_held kv = written l /\ (last l KReset = KFlush -> kv_sent kv = written l)
  | KErr e => e = KBlocked /\ takes os < len (written l)
  end.
Proof. exact (kv_transparent junk os mem l). Qed.
Print Assumptions C34_transparent_partial.
Definition ex_out : list kop := [KAppend 1; KReserve 9 [2; 3]; KWrite [4; 5; 6; 7; 8]; KAppend 9; KAppend 10; KWrite (map Z.of_nat (seq 11 30)); KFlush].
Example C34_example : Forall op_fits ex_out /\ spaced 0 ex_out /\
  match krun (fun _ => 77) [WOk 1; WAgain; WOk 1; WOk 9; WOk 2; WAgain; WOk 40; WOk 40] ex_out (new_kvout true [0; 0; 0]) with
  | KOk (kv, os) => kv_sent kv = map Z.of_nat (seq 1 40) /\ kcap kv = 48 /\ os = [WOk 40]
  | KErr _ => False
  end.
Proof. split; [repeat constructor; vm_compute; discriminate|]. split; [vm_compute; intuition discriminate|]. vm_compute. auto. Qed.

(* A buffer without a connection, as used for checkpoints and datagrams. *)
Theorem C34_buffer_partial junk mem l : 0 < len mem < 2 ^ 32 -> Forall op_fits l -> spaced 0 l -> ~ In KFlush l ->
  exists kv os', krun junk [] l (new_kvout false mem) = KOk (kv, os') /\ kv_held kv = since_reset [] l /\ kv_sent kv = [].
Proof. exact (kv_buffer junk mem l). Qed.
Print Assumptions C34_buffer_partial.
Example C34_buffer_example : since_reset [] [KAppend 1; KWrite [2; 3; 4]; KReset; KReserve 5 [6; 7]; KAppend 8] = [6; 7; 8] /\
  match krun (fun _ => 77) [] [KAppend 1; KWrite [2; 3; 4]; KReset; KReserve 5 [6; 7]; KAppend 8] (new_kvout false [0; 0]) with
  | KOk (kv, _) => kv_held kv = [6; 7; 8] /\ kcap kv = 8
  | KErr _ => False
  end.
Proof. vm_compute. auto. Qed.

(* After a failed write that followed a partial one, the next flush sends the same bytes again. *)
Theorem C34_error_refuted : exists junk os mem l kv os', krun junk os l (new_kvout true mem) = KOk (kv, os') /\ Forall op_fits l /\ spaced 0 l /\ 0 < len mem < 2 ^ 32 /\ last l KReset = KFlush /\
  written l = [1; 2] /\ kv_sent kv = [1; 1; 2] /\ kv_held kv = [].
Proof. exact kv_error_witness. Qed.
Print Assumptions C34_error_refuted.
(* Without the bound on the space: the 32-bit sum of lengths wraps around and the copy leaves the buffer. *)
Theorem C34_size_refuted : exists l, Forall op_fits l /\ forall junk, krun junk [] l (new_kvout false (repeat 0 256)) = KErr KBadWrite.
Proof. exact kv_size_witness. Qed.
Print Assumptions C34_size_refuted.
