(* The effect of replaying log records on rows (log.cc, struct logrecord: run and apply; log.hh, row_delta_marker).
   The table is a map from keys to what is stored under them; that find_insert and finish act like a map is the
   subject of M_Tree. Results None stand for undefined behaviour or a failed assertion. Rows are value_bag rows.
   Not modelled: memory accounting, the counters ti.mark, observe_phantoms (replay assigns no timestamps). *)
From Verif Require Import Lib M_Key M_Msgpack M_Bag M_Log Spec_Log.

(* What is stored under a key: nothing; a row; a delta marker, which is a row with an odd timestamp whose only column
   holds a row_delta_marker (marker_type_, prev_ts_, prev_; log.hh:207-212) and the change set behind it. The fields
   prev_ts_ and prev_ are kept beside the bytes of the column. *)
Inductive chain := CNil | CRow (b : bag) | CDelta (b : bag) (prev_ts : Z) (prev : chain).
(* sizeof(row_delta_marker): an int padded to 8 bytes, a timestamp, a pointer. *)
Definition sz_delta : nat := 24.

(* The timestamp of what cur_value points to. *)
Definition chain_ts (c : chain) : option Z := match c with CNil => None | CRow b | CDelta b _ _ => Some (bag_timestamp b) end.
(* row_is_delta_marker, log.hh:214-223, kvproto.hh:52-55. A plain row with an odd timestamp has its column 0 read as a
   row_marker; mt_delta is 2. *)
Definition is_delta (c : chain) : option bool :=
  match c with
  | CNil => Some false
  | CDelta _ _ _ => Some true
  | CRow b => if Z.odd (bag_timestamp b) then v <- bag_col b 0; m <- ld v 0 4; if m =? 2 then None else Some false
              else Some false
  end.

(* parse_changeset, log.cc:509-524. Each round reads at least two bytes. *)
Fixpoint parse_loop (fuel : nat) (s : list Z) : option changes :=
  match s with
  | [] => Some []
  | _ => match fuel with
         | O => None
         | S f => x <- read_int c_unsigned s;
                  y <- read_str (snd x);
                  r <- parse_loop f (snd y);
                  Some ((fst x, fst y) :: r)
         end
  end.
Definition parse_changeset (s : list Z) : option changes := parse_loop (length s) s.

(* The commands. *)
Inductive rcmd := KPut | KReplace | KModify (prev_ts : Z).
Record rrec := MkRr { r_cmd : rcmd; r_val : list Z; r_ts : Z }.
(* logrecord::run up to apply, log.cc:486-500: a remove becomes the writing of a row_marker, marker_type_ = mt_remove = 1,
   with the timestamp made odd. The command stays logcmd_remove, which apply treats like logcmd_put. *)
Definition rec_of (e : entry) : option rrec :=
  match e with
  | EPut _ v ts => Some (MkRr KPut v ts)
  | EReplace _ v ts => Some (MkRr KReplace v ts)
  | ERemove _ _ ts => Some (MkRr KPut (le_bytes 4 1) (Z.lor ts 1))
  | EModify _ v ts prev => Some (MkRr (KModify prev) v ts)
  | _ => None
  end.

(* The delta marker of log.cc:567-577. The bytes in front of the change set, which the marker's fields overwrite, are
   taken to be 0. *)
Definition make_delta (v : list Z) (ts prev_ts : Z) (below : chain) : option chain :=
  b <- bag_create1 (repeat 0 sz_delta ++ v) (Z.lor ts 1); Some (CDelta b prev_ts below).

(* apply from "check out of date" on, log.cc:535-578, at the place that cur_value points to. The flag tells whether apply goes on to
   the clean-up. *)
Definition act_here (r : rrec) (c : chain) : option (chain * bool) :=
  match chain_ts c with
  | Some t => if r_ts r <=? t then Some (c, false) else
              match r_cmd r with
              | KPut => ch <- parse_changeset (r_val r); b <- bag_create ch (r_ts r); Some (CRow b, true)
              | KReplace => b <- bag_create1 (r_val r) (r_ts r); Some (CRow b, true)
              | KModify p =>
                if t =? p
                then ch <- parse_changeset (r_val r);
                     match c with
                     | CRow b => b' <- bag_update b ch (r_ts r); Some (CRow b', true)
                     | _ => None (* t is odd: prev_ts of a modify record is even, log.cc:336-341 *)
                     end
                else d <- make_delta (r_val r) (r_ts r) p c; Some (d, true)
              end
  | None => match r_cmd r with
            | KPut => ch <- parse_changeset (r_val r); b <- bag_create ch (r_ts r); Some (CRow b, true)
            | KReplace => b <- bag_create1 (r_val r) (r_ts r); Some (CRow b, true)
            | KModify p => d <- make_delta (r_val r) (r_ts r) p c; Some (d, true)
            end
  end.
(* The search for the place, log.cc:530-534. *)
Fixpoint place (r : rrec) (c : chain) : option (chain * bool) :=
  d <- is_delta c;
  match c with
  | CDelta b p below =>
    if r_ts r <? bag_timestamp b then x <- place r below; Some (CDelta b p (fst x), snd x)
    else act_here r c
  | _ => act_here r c
  end.

(* One round of the clean-up, log.cc:581-601: the last delta marker is applied to the row below it, if it fits. None: it
   stops. *)
Fixpoint clean_round (c : chain) : option (option chain) :=
  match c with
  | CDelta b p below =>
    d <- is_delta below;
    if d : bool then x <- clean_round below; match x with Some below' => Some (Some (CDelta b p below')) | None => Some None end
    else match below with
         | CRow old =>
           if p =? bag_timestamp old then
             v <- bag_col b 0;
             (if (length v <? sz_delta)%nat then None else
              ch <- parse_changeset (skipn sz_delta v);
              b' <- bag_update old ch ((bag_timestamp b - 1) mod 2 ^ 64);
              Some (Some (CRow b')))
           else Some None
         | _ => Some None
         end
  | _ => Some None
  end.
(* The loop of log.cc:580-604. Every round shortens the chain. *)
Fixpoint depth (c : chain) : nat := match c with CDelta _ _ below => S (depth below) | _ => O end.
Fixpoint clean (fuel : nat) (c : chain) : option chain :=
  d <- is_delta c;
  if d : bool then
    x <- clean_round c;
    match x with
    | None => Some c
    | Some c' => match fuel with O => None | S f => clean f c' end
    end
  else Some c.
(* logrecord::apply, log.cc:526-605; found is c <> CNil. *)
Definition apply (r : rrec) (c : chain) : option chain :=
  x <- place r c;
  if snd x : bool then clean (depth (fst x)) (fst x) else Some (fst x).

(* logrecord::run, log.cc:486-507, on the whole table, and the records of a replay one after the other. *)
Definition rtable := list Z -> chain.
Definition rt_empty : rtable := fun _ => CNil.
Definition rt_set (t : rtable) (k : list Z) (c : chain) : rtable := fun k' => if list_eq_dec Z.eq_dec k' k then c else t k'.
Definition run_entry (t : rtable) (e : entry) : option rtable :=
  match update_key e, rec_of e with
  | Some k, Some r => c <- apply r (t k); Some (rt_set t k c)
  | _, _ => Some t
  end.
Fixpoint run_entries (t : rtable) (l : list entry) : option rtable :=
  match l with [] => Some t | e :: l' => t' <- run_entry t e; run_entries t' l' end.
(* run_get1 after recovery, kvrow.hh:139-149: a row with an odd timestamp is a marker and counts as absent. *)
Definition rt_get (t : rtable) (k : list Z) (col : Z) : option (option (list Z)) :=
  match t k with
  | CNil => Some None
  | CRow b | CDelta b _ _ => if Z.odd (bag_timestamp b) then Some None else v <- bag_col b col; Some (Some v)
  end.
(* loginfo::record of a parsed request, log.cc:370-378: the change set that is logged. *)
Definition record_parsed (cs : list json) : list Z := write_array_header (len cs) ++ flat_map unparse cs.
