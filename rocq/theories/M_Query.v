(* Get and scan requests: kvrow.hh:96-137 and 267-347, mtd.cc:959-968, 996-1006. One thread. Rows are taken abstractly, as
   a list of columns (M_Bag and M_Array have the representations); rows of type value_string are left out, and so are
   scan_versions. None: a precondition fails (json.hh). *)
From Verif Require Import Lib M_Tree M_Scan M_Msgpack.

Record qrow := MkQRow { q_marker : bool; q_cols : list (list Z) }.
(* value_bag::col, value_bag.hh:113-118; value_array::col, value_array.hh:82-87. *)
Definition q_col (r : qrow) (c : Z) : list Z := if (0 <=? c) && (c <? len (q_cols r)) then nth (Z.to_nat c) (q_cols r) [] else [].
Definition Cmd_Get : Z := 2. (* kvproto.hh:22-23 *)
Definition Cmd_Scan : Z := 4.

(* Json::as_i, json.hh:1873-1876; doubles are left out. *)
Definition as_i (j : json) : option Z := match j with JInt x => Some x | JUns x => Some (to_signed 64 x) | _ => None end.
Definition as_s (j : json) : option (list Z) := match j with JStr s => Some s | _ => None end.
(* The loops that fill f_, kvrow.hh:131-134, 317-320. index_type is short, value_bag.hh:24. *)
Fixpoint get_fields (l : list json) : option (list Z) :=
  match l with
  | [] => Some []
  | j :: l' => match as_i j, get_fields l' with Some c, Some f => Some (to_signed 16 c :: f) | _, _ => None end
  end.
(* query::emit_fields, kvrow.hh:97-107: what is appended to the reply. *)
Definition emit_fields (r : qrow) (f : list Z) : list json :=
  match f with [] => map (fun i => JStr (q_col r (Z.of_nat i))) (seq 0 (length (q_cols r))) | _ => map (fun c => JStr (q_col r c)) f end.
(* push_back on a Json: null becomes an array, json.hh *)
Definition j_push (j x : json) : json := match j with JNull => JArr [x] | JArr l => JArr (l ++ [x]) | _ => j end.
(* query::emit_fields1, kvrow.hh:109-121; req is null beforehand. *)
Definition emit_fields1 (r : qrow) (f : list Z) : json :=
  if (Nat.eqb (length f) 0 && (len (q_cols r) =? 1)) || Nat.eqb (length f) 1
  then JStr (q_col r (match f with [] => 0 | c :: _ => c end))
  else fold_left j_push (emit_fields r f) JNull.

(* query::run_get, kvrow.hh:124-138, and the end of onego, mtd.cc:1004. A missing key leaves the request as it is. *)
Definition run_get (rows : Z -> qrow) (t : table) (req : list json) : option (list json) :=
  match req with
  | seqno :: _ :: jk :: fs =>
    match as_s jk with
    | None => None
    | Some k =>
      match tree_get (t_heap t) (t_root t) k with
      | Err _ => None
      | Ok (Some v) =>
        if q_marker (rows v) then Some (seqno :: JInt (Cmd_Get + 1) :: jk :: fs)
        else match get_fields fs with None => None | Some f => Some (seqno :: JInt (Cmd_Get + 1) :: emit_fields (rows v) f) end
      | Ok None => Some (seqno :: JInt (Cmd_Get + 1) :: jk :: fs)
      end
    end
  | _ => None
  end.

(* query_json_scanner, kvrow.hh:267-312. Strings share memory: sk_heap has every block that was scankey_, the last one
   being the current one; a key in the reply is a block, a position and a length. sk_bad: the loop of visit_value did not
   end within its fuel. *)
Record skst := MkSk { sk_heap : list (list Z); sk_pos : Z; sk_left : Z; sk_out : list (nat * Z * Z * json); sk_bad : bool }.
Definition sk_cur (s : skst) : list Z := last (sk_heap s) [].
(* kvrow.hh:293-296. String::make_uninitialized: a block with unspecified contents. *)
Fixpoint sk_reserve (fuel : nat) (junk : nat -> Z) (n : Z) (s : skst) : skst :=
  if sk_pos s + n <=? len (sk_cur s) then s
  else match fuel with
       | O => MkSk (sk_heap s) (sk_pos s) (sk_left s) (sk_out s) true
       | S f => let m := if len (sk_cur s) =? 0 then 1024 else len (sk_cur s) * 2 in
                sk_reserve f junk n (MkSk (sk_heap s ++ [map junk (seq 0 (Z.to_nat m))]) 0 (sk_left s) (sk_out s) (sk_bad s))
       end.
Definition set_last {A} (l : list A) (x : A) : list A := removelast l ++ [x].
(* visit_value, kvrow.hh:288-305. *)
Definition visit_value (rows : Z -> qrow) (junk : nat -> Z) (f : list Z) (s : skst) (k : list Z) (v : Z) : skst * bool :=
  if q_marker (rows v) then (s, true)
  else
    let s1 := sk_reserve (S (length k)) junk (len k) s in
    let p := Z.to_nat (sk_pos s1) in
    let b := firstn p (sk_cur s1) ++ k ++ skipn (p + length k) (sk_cur s1) in
    let nleft := to_signed 32 (sk_left s1 - 1) in
    (MkSk (set_last (sk_heap s1) b) (sk_pos s1 + len k) nleft
          (sk_out s1 ++ [(length (sk_heap s1) - 1, sk_pos s1, len k, emit_fields1 (rows v) f)%nat]) (sk_bad s1), negb (nleft =? 0)).
(* A String of the reply is read when the reply is sent. *)
Definition sk_read (heap : list (list Z)) (b : nat) (pos n : Z) : list Z := firstn (Z.to_nat n) (skipn (Z.to_nat pos) (nth b heap [])).
Definition sk_reply (s : skst) : list json :=
  flat_map (fun e => match e with (b, pos, n, j) => [JStr (sk_read (sk_heap s) b pos n); j] end) (sk_out s).
(* query::run_scan, run_rscan, kvrow.hh:314-323, 338-347; buf: scankey_ as an earlier query left it. *)
Definition run_scan (fuel : nat) (d : sdir) (rows : Z -> qrow) (junk : nat -> Z) (buf mem : list Z) (t : table) (req : list json) : option (list json) :=
  match req with
  | seqno :: _ :: jk :: jn :: fs =>
    match as_s jk, as_i jn, get_fields fs with
    | Some k, Some n, Some f =>
      if n <=? 0 then None (* the assertion *)
      else match tree_scan fuel (t_heap t) (t_root t) d k true mem (visit_value rows junk f) (MkSk [buf] 0 (to_signed 32 n) [] false) with
           | Ok (s, _) => if sk_bad s then None else Some (seqno :: JInt (Cmd_Scan + 1) :: sk_reply s)
           | Err _ => None
           end
    | _, _, _ => None
    end
  | _ => None
  end.
(* The requests of the client, mtclient.hh:76-98, 125-143; a vector of columns is sent as an array inside the request. *)
Definition sendscan (first : list Z) (f : list Z) (n seqno : Z) : list json := [JInt seqno; JInt Cmd_Scan; JStr first; JInt n; JArr (map JInt f)].
Definition sendscanwhole (first : list Z) (n seqno : Z) : list json := [JInt seqno; JInt Cmd_Scan; JStr first; JInt n].
Definition sendget (k : list Z) (f : list Z) (seqno : Z) : list json := [JInt seqno; JInt Cmd_Get; JStr k; JArr (map JInt f)].
Definition sendgetcol (k : list Z) (c seqno : Z) : list json := [JInt seqno; JInt Cmd_Get; JStr k; JInt c].
Definition sendgetwhole (k : list Z) (seqno : Z) : list json := [JInt seqno; JInt Cmd_Get; JStr k].
