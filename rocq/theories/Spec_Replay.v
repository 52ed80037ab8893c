(* How the updates of one key appear in the logs. Histories are newest first, as in Spec_Row. *)
From Verif Require Import Lib M_Msgpack M_Bag Spec_Log Spec_Row M_Rowrun M_Replay.

(* The values a client sends for a change set: column numbers and strings, alternating. *)
Inductive sent : list json -> list (Z * list Z) -> Prop :=
| sent_nil : sent [] []
| sent_cons c i v cs ch : (c = JInt i \/ c = JUns i) -> 0 <= i < 2 ^ 32 -> len v < 2 ^ 31 -> sent cs ch -> sent (c :: JStr v :: cs) ((i, v) :: ch).

(* The timestamp of the newest update; 0: none. *)
Definition last_stamp (h : list (rop * Z)) : Z := match h with [] => 0 | (_, ts) :: _ => ts end.
(* es are the log entries of the history h of key k. The first update creates the row, later column changes name the
   timestamp of the row they change. *)
Fixpoint logged (k : list Z) (h : list (rop * Z)) (es : list entry) : Prop :=
  match h, es with
  | [], [] => True
  | (RReplace v, ts) :: older, e :: es' => e = EReplace k v ts /\ logged k older es'
  | (RPut ch, ts) :: older, e :: es' =>
    (exists cs, sent cs ch /\ e = match older with [] => EPut k (flat_map unparse cs) ts | _ => EModify k (flat_map unparse cs) ts (last_stamp older) end) /\
    logged k older es'
  | _, _ => False
  end.
(* Timestamps are even, increase, and have not wrapped around. *)
Fixpoint stamped (h : list (rop * Z)) : Prop :=
  match h with [] => True | (_, ts) :: older => Z.even ts = true /\ last_stamp older < ts < 2 ^ 64 /\ stamped older end.
(* A logged change set that still fits a row together with the 24 bytes of a delta marker. *)
Definition marker_fits (e : entry) : Prop := match e with EModify _ v _ _ => 30 + len v < 2 ^ 16 | _ => True end.
(* The entries of key k. *)
Definition of_key (k : list Z) (es : list entry) : list entry :=
  filter (fun e => match update_key e with Some k' => if list_eq_dec Z.eq_dec k' k then true else false | None => false end) es.
(* The row of a key whose older updates were all applied, or restored from a checkpoint. *)
Definition start (c0 : chain) (older : list (rop * Z)) : Prop :=
  match older with [] => c0 = CNil | _ => exists b, bag_run older = Some b /\ c0 = CRow b end.
(* A history of updates that fit a row, with timestamps in order. *)
Definition hist_ok (h : list (rop * Z)) : Prop := Forall (fun o => rop_ok (fst o)) h /\ throughout fits_bag (map fst h) /\ stamped h.
