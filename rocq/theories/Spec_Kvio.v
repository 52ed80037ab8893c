(* What a user of an output buffer writes. *)
From Verif Require Import Lib M_Kvio.

Definition op_bytes (o : kop) : list Z := match o with KAppend c => [c] | KReserve _ s | KWrite s => s | KFlush | KReset => [] end.
Definition written (l : list kop) : list Z := flat_map op_bytes l.
(* At most the reserved space is used. *)
Definition op_fits (o : kop) : Prop := match o with KReserve m s => len s <= m | _ => True end.
(* The space asked for between two flushes (or resets) stays within 2^31 bytes; acc: since the last one. *)
Definition op_space (o : kop) : Z := match o with KAppend _ => 1 | KReserve m _ => m | KWrite s => len s | KFlush | KReset => 0 end.
Fixpoint spaced (acc : Z) (l : list kop) : Prop :=
  match l with [] => True | o :: l' => let a := match o with KFlush | KReset => 0 | _ => acc + op_space o end in a <= 2 ^ 31 /\ spaced a l' end.
(* What a buffer without a connection holds: everything since the last reset. *)
Fixpoint since_reset (acc : list Z) (l : list kop) : list Z :=
  match l with [] => acc | KReset :: l' => since_reset [] l' | o :: l' => since_reset (acc ++ op_bytes o) l' end.
Definition no_failure (os : list wres) : Prop := ~ In WFail os.
Definition takes (os : list wres) : Z := len (filter (fun o => match o with WOk _ => true | _ => false end) os).
