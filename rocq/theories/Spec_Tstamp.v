(* Times in microseconds. *)
From Verif Require Import Lib.

(* A timestamp that stands for sec seconds and usec microseconds. *)
Definition stands (t sec usec : Z) : Prop := 0 <= sec < 2 ^ 32 /\ 0 <= usec < 1000000 /\ t = sec * 2 ^ 32 + usec.
(* The same as a number of microseconds. *)
Definition micros (t m : Z) : Prop := exists sec usec, stands t sec usec /\ m = sec * 1000000 + usec.
