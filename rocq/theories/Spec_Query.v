(* What a get and a range query should answer. *)
From Verif Require Import Lib M_Tree M_Msgpack M_Query Spec_Map Spec_Scan.

(* The columns asked for; all of them if none is named. *)
Definition selected (f : list Z) (r : qrow) : list (list Z) := match f with [] => q_cols r | _ => map (q_col r) f end.
(* One column is sent as a string, several as an array. *)
Definition fields_json (l : list (list Z)) : json := match l with [] => JNull | [x] => JStr x | _ => JArr (map JStr l) end.
(* Column numbers of a request. *)
Definition columns (fs : list json) (f : list Z) : Prop := Forall2 (fun j c => j = JInt c /\ - 2 ^ 15 <= c < 2 ^ 15) fs f.
(* The rows of a table, a binding of a deletion marker being no row. *)
Definition rows_of (rows : Z -> qrow) (L : list (list Z * Z)) : list (list Z * qrow) :=
  filter (fun e => negb (q_marker (snd e))) (map (fun e => (fst e, rows (snd e))) L).
Definition scan_reply (f : list Z) (L : list (list Z * qrow)) : list json := flat_map (fun e => [JStr (fst e); fields_json (selected f (snd e))]) L.
