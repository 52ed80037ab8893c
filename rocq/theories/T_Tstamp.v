(* C66: timestamps and their differences. *)
From Verif Require Import Lib M_Stamp M_Tstamp Spec_Tstamp P_Tstamp.

(* timestamp() stands for the time of day, for seconds below 2^32, and its parts are seconds and microseconds. *)
Theorem C66_timestamp_partial : forall s u, 0 <= s < 2 ^ 32 -> 0 <= u < 1000000 -> stands (timestamp s u) s u /\ high (timestamp s u) = s /\ low (timestamp s u) = u.
Proof. exact stamp_stands. Qed.
Print Assumptions C66_timestamp_partial.
Example C66_timestamp_example : high (timestamp 1700000000 999999) = 1700000000 /\ low (timestamp 1700000000 999999) = 999999.
Proof. split; reflexivity. Qed.
(* From 2^32 seconds on, in the year 2106, timestamps begin again. *)
Theorem C66_timestamp_refuted : exists s u s' u', 0 <= u < 1000000 /\ 0 <= u' < 1000000 /\ s' < s /\ timestamp s u < timestamp s' u'.
Proof. exact late_ex. Qed.
Print Assumptions C66_timestamp_refuted.

(* Timestamps are in the order of the times they stand for. *)
Theorem C66_order : forall a b m n, micros a m -> micros b n -> (a < b <-> m < n) /\ (a = b <-> m = n).
Proof. exact order. Qed.
Print Assumptions C66_order.
Example C66_order_example : micros (5 * 2 ^ 32 + 7) 5000007 /\ micros (4 * 2 ^ 32 + 999999) 4999999.
Proof. split; [exists 5, 7|exists 4, 999999]; repeat split; lia. Qed.

(* timestamp_sub gives the difference of the times, with microseconds below a million. Full statement, for all timestamps of rows, refuted
   below. *)
Theorem C66_sub_partial : forall a b m n, micros a m -> micros b n -> n <= m -> micros (timestamp_sub a b) (m - n).
Proof. exact sub_ok. Qed.
Print Assumptions C66_sub_partial.
(* 5.000007 - 4.999999 seconds. *)
Example C66_sub_example : timestamp_sub (5 * 2 ^ 32 + 7) (4 * 2 ^ 32 + 999999) = 8.
Proof. reflexivity. Qed.
(* update_timestamp makes timestamps that stand for no time: its result for a row of 5.999999 seconds, less 1 second, is printed as
   3.2000000. *)
Theorem C66_sub_refuted : exists x b, (exists m, micros x m) /\ (exists n, micros b n) /\ b <= x /\ low (timestamp_sub (update_ts x x) b) = 2000000.
Proof. exact sub_after. Qed.
Print Assumptions C66_sub_refuted.
