(* Timestamps, timestamp.hh:30-46, as 64-bit numbers. Not modelled: now(), set_timespec and other uses of double. *)
From Verif Require Import Lib.

(* KVTS_HIGHPART, timestamp.hh:30. *)
Definition high (t : Z) : Z := Z.shiftr t 32.
(* KVTS_LOWPART, timestamp.hh:31. *)
Definition low (t : Z) : Z := t mod 2 ^ 32.
(* timestamp(), timestamp.hh:35-39, for the time of day sec, usec. *)
Definition timestamp (sec usec : Z) : Z := Z.lor (Z.shiftl sec 32 mod 2 ^ 64) (usec mod 2 ^ 32).
(* timestamp_sub, timestamp.hh:41-46. *)
Definition timestamp_sub (a b : Z) : Z :=
  let a := (a - b) mod 2 ^ 64 in if 999999 <? low a then (a - (2 ^ 32 - 1000000)) mod 2 ^ 64 else a.
