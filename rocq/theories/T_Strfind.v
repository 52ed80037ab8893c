(* C62: searching in strings and matching patterns. *)
From Verif Require Import Lib M_Strfind Spec_Strfind P_Strfind1 P_Strfind2 P_Strfind3.

(* find_left, of a byte and of a string, from any start: the leftmost index not before start, or -1. *)
Theorem C62_find_left (s : list Z) (start : Z) (x : list Z) (c : Z) :
  (exists r, find_left s start x = At r /\ leftmost (occurs s x) (Z.max 0 start) r) /\ exists r, find_left_c s start c = At r /\ leftmost (occurs s [c]) (Z.max 0 start) r.
Proof. exact (conj (find_left_ok s start x) (find_left_c_ok s start c)). Qed.
Print Assumptions C62_find_left.
(* "abcab": "ab" from 1 is at 3, "ac" nowhere, "" from 5 at 5; the byte b from -4 at 1. *)
Example C62_find_left_example : find_left [97; 98; 99; 97; 98] 1 [97; 98] = At 3 /\ find_left [97; 98; 99; 97; 98] 0 [97; 99] = At (-1) /\ find_left [97; 98; 99; 97; 98] 5 [] = At 5 /\ find_left_c [97; 98; 99; 97; 98] (-4) 98 = At 1.
Proof. repeat split. Qed.

(* find_right of a byte, from any start; of a string when start is at or beyond the end (the default) or leaves room for the
   string: the rightmost index not after start, or -1. Partial: other starts, see C62_find_right_refuted. *)
Theorem C62_find_right_partial (s : list Z) (start : Z) (x : list Z) (c : Z) :
  (len s <= start \/ start + len x <= len s -> exists r, find_right false s start x = At r /\ rightmost (occurs s x) start r) /\ exists r, find_right_c s start c = At r /\ rightmost (occurs s [c]) start r.
Proof. exact (conj (fun H => find_right_ok false s start x (or_intror H)) (find_right_c_ok s start c)). Qed.
Print Assumptions C62_find_right_partial.
Example C62_find_right_example : find_right false [97; 98; 99; 97; 98] 99 [97; 98] = At 3 /\ find_right false [97; 98; 99; 97; 98] 2 [97; 98] = At 0 /\ find_right_c [97; 98; 99; 97; 98] 3 98 = At 1.
Proof. repeat split. Qed.

(* String("ab").find_right("bc", 1) reads a byte behind the string. *)
Theorem C62_find_right_refuted : exists s start x, find_right false s start x = Wild.
Proof. exact right_out. Qed.
Print Assumptions C62_find_right_refuted.

(* With start bounded by the last index that leaves room, find_right is right for all arguments. *)
Theorem C62_find_right_repaired (s : list Z) (start : Z) (x : list Z) : exists r, find_right true s start x = At r /\ rightmost (occurs s x) start r.
Proof. exact (find_right_ok true s start x (or_introl eq_refl)). Qed.
Print Assumptions C62_find_right_repaired.
Example C62_find_right_repaired_example : find_right true [97; 98] 1 [98; 99] = At (-1) /\ find_right true [97; 98; 99] 2 [98; 99] = At 1.
Proof. repeat split. Qed.

(* glob_match decides the documented language for patterns without [, and stays inside of both strings. Partial: see
   C62_class_refuted and C62_glob_out_refuted. *)
Theorem C62_glob_partial (s p : list Z) : ~ In 91 p -> exists b, glob_match false s p = Some b /\ (b = true <-> glob p s).
Proof. exact (fun H => glob_match_ok false s p (or_intror H)). Qed.
Print Assumptions C62_glob_partial.
(* "*a?*\**" matches "xxaab*c" and not "xxaabc"; the empty string matches "**" and not "*?". *)
Example C62_glob_example : ~ In 91 [42; 97; 63; 42; 92; 42; 42] /\ glob_match false [120; 120; 97; 97; 98; 42; 99] [42; 97; 63; 42; 92; 42; 42] = Some true /\
  glob_match false [120; 120; 97; 97; 98; 99] [42; 97; 63; 42; 92; 42; 42] = Some false /\ glob_match false [] [42; 42] = Some true /\ glob_match false [] [42; 63] = Some false.
Proof. split; [simpl; intuition discriminate|repeat split]. Qed.

(* Classes are wrong: "[a]" does not match "a" but matches "]", and "[^a]" matches "a". *)
Theorem C62_class_refuted : glob [91; 97; 93] [97] /\ glob_match false [97] [91; 97; 93] = Some false /\ ~ glob [91; 97; 93] [93] /\ glob_match false [93] [91; 97; 93] = Some true /\
  ~ glob [91; 94; 97; 93] [97] /\ glob_match false [97] [91; 94; 97; 93] = Some true.
Proof. exact class_wrong. Qed.
Print Assumptions C62_class_refuted.

(* A class that is not closed makes it read behind the pattern: "x" against "[?". *)
Theorem C62_glob_out_refuted : exists s p, glob_match false s p = None.
Proof. exact glob_out. Qed.
Print Assumptions C62_glob_out_refuted.

(* With the loop over the members begun at the first of them, all patterns. *)
Theorem C62_glob_repaired (s p : list Z) : exists b, glob_match true s p = Some b /\ (b = true <-> glob p s).
Proof. exact (glob_match_ok true s p (or_introl eq_refl)). Qed.
Print Assumptions C62_glob_repaired.
(* "*[]b][^]c]" matches "x]a" and "bb", not "bc"; "[?" matches "[x". *)
Example C62_glob_repaired_example : let p := [42; 91; 93; 98; 93; 91; 94; 93; 99; 93] in
  map (fun s => glob_match true s p) [[120; 93; 97]; [98; 98]; [98; 99]] = [Some true; Some true; Some false] /\ glob_match true [91; 120] [91; 63] = Some true.
Proof. split; reflexivity. Qed.
