(* Message codec theorems: C27 (round trip), C28 (chunking), C29 (skipping), C37 (datagrams), C38 (decoder safety). *)
From Verif Require Import Lib M_Key M_Msgpack Spec_Msgpack P_Msgpack4 P_Msgpack5 P_Msgpack6 P_Msgpack7.

(* ------------------------------------------------------------------ C27 *)
(* Any message value is decoded to the same value, and decoding consumes exactly its bytes, whatever follows and
   whatever a reused decoder decoded before. *)
Theorem C27_message_roundtrip : forall j p u, json_ok j ->
  exists p', consume (sp_reset p) (unparse j ++ u) = RRet p' u /\ sp_success p' = true /\ jsame j (sp_json p').
Proof. exact roundtrip. Qed.
Print Assumptions C27_message_roundtrip.

(* Integers written at any C type are read at any C type that can hold them. *)
Theorem C27_integer_roundtrip : forall tw tr x u, In tw c_types -> In tr c_types -> fits tw x -> fits tr x ->
  read_int tr (write_int tw x ++ u) = Some (x, u).
Proof. exact int_roundtrip. Qed.
Print Assumptions C27_integer_roundtrip.

(* The same for the fixed 9-byte integer formats. *)
Theorem C27_wide_integer_roundtrip : forall tr x u, In tr c_types -> fits tr x ->
  ((- 2 ^ 63 <= x < 2 ^ 63) -> read_int tr (write_wide_i x ++ u) = Some (x, u)) /\
  ((0 <= x < 2 ^ 64) -> read_int tr (write_wide_u x ++ u) = Some (x, u)).
Proof. exact wide_roundtrip. Qed.
Print Assumptions C27_wide_integer_roundtrip.

Theorem C27_bool_roundtrip : forall b u, read_bool (write_bool b ++ u) = Some (b, u).
Proof. exact bool_roundtrip. Qed.
Print Assumptions C27_bool_roundtrip.

Theorem C27_double_roundtrip : forall d u, 0 <= d < 2 ^ 64 -> read_double (write_double d ++ u) = Some (d, u).
Proof. exact double_roundtrip. Qed.
Print Assumptions C27_double_roundtrip.

Theorem C27_string_roundtrip : forall s u, len s < 2 ^ 31 -> read_str (write_string s ++ u) = Some (s, u).
Proof. exact str_roundtrip. Qed.
Print Assumptions C27_string_roundtrip.

Theorem C27_array_header_roundtrip : forall n u, 0 <= n < 2 ^ 32 -> read_array_header (write_array_header n ++ u) = Some (n, u).
Proof. exact array_header_roundtrip. Qed.
Print Assumptions C27_array_header_roundtrip.

(* a put request, and a nested value with every kind of element, followed by another message *)
Definition ex_put : json := JArr [JInt 7; JInt 6; JStr [107; 101; 121]; JInt 0; JStr (repeat 120 40)].
Definition ex_nested : json :=
  JObj [([97], JArr [JNull; JBool true; JInt (-129); JUns (2 ^ 63); JDouble 4614253070214989087]);
        ([98], JObj [([], JStr (repeat 255 300))]); ([99], JArr [])].
Lemma ex_put_ok : json_ok ex_put.
Proof. repeat (constructor; cbn; try lia; unfold byte_ok; try lia). Qed.
Example C27_message_roundtrip_ex : json_ok ex_nested /\
  (match consume sp_init (unparse ex_nested ++ [1; 2]) with RRet p' u => sp_success p' = true /\ sp_json p' = ex_nested /\ u = [1; 2] | _ => False end).
Proof. split; [|vm_compute; auto]. repeat (constructor; cbn; try lia; unfold byte_ok; try lia); intuition discriminate. Qed.
Example C27_integer_roundtrip_ex : In c_long c_types /\ In c_int c_types /\ fits c_long (-40000) /\ fits c_int (-40000) /\
  write_int c_long (-40000) = [210; 255; 255; 99; 192].
Proof. vm_compute. intuition discriminate. Qed.
Example C27_wide_integer_roundtrip_ex : In c_ulong c_types /\ fits c_ulong (2 ^ 64 - 1) /\ length (write_wide_u (2 ^ 64 - 1)) = 9%nat.
Proof. vm_compute. intuition discriminate. Qed.
Example C27_string_roundtrip_ex : len (repeat 9 1000) < 2 ^ 31 /\ read_str (write_string (repeat 9 1000) ++ [5]) = Some (repeat 9 1000, [5]).
Proof. vm_compute. auto. Qed.
Example C27_double_roundtrip_ex : 0 <= 4614253070214989087 < 2 ^ 64.
Proof. lia. Qed.
Example C27_array_header_roundtrip_ex : write_array_header 70000 = [221; 0; 1; 17; 112] /\ write_array_header 3 = [147].
Proof. vm_compute. auto. Qed.

(* ------------------------------------------------------------------ C28 *)
(* Any division of a stream into pieces gives the result of decoding it at once: the same parser state (value,
   success, failure, incomplete), the same unconsumed bytes. *)
Theorem C28_chunk_independence : forall q pieces, feed_pieces (sp_reset q) pieces = consume (sp_reset q) (concat pieces).
Proof. exact chunks. Qed.
Print Assumptions C28_chunk_independence.

(* Hence any division of a message and what follows it decodes to the message. *)
Theorem C28_chunked_roundtrip : forall j p u pieces, json_ok j -> concat pieces = unparse j ++ u ->
  exists p', feed_pieces (sp_reset p) pieces = RRet p' u /\ sp_success p' = true /\ jsame j (sp_json p').
Proof. exact chunks_roundtrip. Qed.
Print Assumptions C28_chunked_roundtrip.

(* Reading a value through a window over a long input is the same as decoding the input at once. *)
Theorem C28_windowed_read : forall s, parser_read_json s = consume sp_init s.
Proof. exact windows_read. Qed.
Print Assumptions C28_windowed_read.

(* cut inside a header, inside a string and between values; one byte at a time *)
Example C28_chunk_independence_ex :
  match feed_pieces sp_init (map (fun b => [b]) (unparse ex_nested ++ [3])) with
  | RRet p u => sp_success p = true /\ sp_json p = ex_nested /\ u = [3] | _ => False end.
Proof. vm_compute. auto. Qed.
Example C28_chunked_roundtrip_ex : json_ok ex_put /\ exists pieces, concat pieces = unparse ex_put ++ [9] /\ length pieces = 3%nat /\ nth 0 pieces [] = [149; 7; 6; 163].
Proof. split; [exact ex_put_ok|]. exists [[149; 7; 6; 163]; firstn 20 (skipn 4 (unparse ex_put)); skipn 24 (unparse ex_put) ++ [9]]. vm_compute. auto. Qed.
(* longer than one window *)
Example C28_windowed_read_ex : let s := unparse (JStr (repeat 65 (64 * 80))) in
  match parser_read_json s with RRet p u => sp_success p = true /\ u = [] | _ => False end /\ (window < length s)%nat.
Proof. split; [vm_compute; auto|]. apply Nat.ltb_lt. vm_compute. reflexivity. Qed.

(* ------------------------------------------------------------------ C29 *)
(* Skipping is exact for sequences of null, booleans, strings and integers of up to 32 bits. *)
Theorem C29_skip_exact_partial : forall l u, Forall json_ok l -> Forall narrow l ->
  skip_primitives (length l) (flat_map unparse l ++ u) = Some u.
Proof. exact skip_narrow. Qed.
Print Assumptions C29_skip_exact_partial.

(* At the first 64-bit integer or double the position stays where it is however many values are to be skipped. *)
Theorem C29_skip_stops_at_wide : forall l1 w l2 n u, Forall json_ok (l1 ++ w :: l2) -> Forall narrow l1 -> primitive w -> ~ narrow w ->
  (length l1 <= n)%nat -> skip_primitives n (flat_map unparse (l1 ++ w :: l2) ++ u) = Some (flat_map unparse (w :: l2) ++ u).
Proof. exact skip_wide. Qed.
Print Assumptions C29_skip_stops_at_wide.

(* So the property fails. *)
Theorem C29_skip_exact_refuted : exists l u, Forall json_ok l /\ Forall primitive l /\ skip_primitives (length l) (flat_map unparse l ++ u) <> Some u.
Proof. exists [JInt (2 ^ 40)], [1]. repeat split; repeat constructor; try lia. vm_compute. discriminate. Qed.
Print Assumptions C29_skip_exact_refuted.

(* What the server logs of a put request [seq, command, key, changes...]: the changes, if seq and command are narrow... *)
Theorem C29_logged_changes_partial : forall l cs u, Forall json_ok l -> Forall narrow l -> length l = 3%nat -> len (l ++ cs) < 2 ^ 31 ->
  put_changeset (unparse (JArr (l ++ cs)) ++ u) = Some (flat_map unparse cs ++ u).
Proof. exact skip_put. Qed.
Print Assumptions C29_logged_changes_partial.

(* ...but with a 64-bit sequence number the whole request: replay takes the sequence number for a column. *)
Theorem C29_logged_changes_refuted : exists seq key cs, json_ok (JArr (JInt seq :: JInt 6 :: JStr key :: cs)) /\
  put_changeset (unparse (JArr (JInt seq :: JInt 6 :: JStr key :: cs))) = Some (flat_map unparse (JInt seq :: JInt 6 :: JStr key :: cs)) /\
  put_changeset (unparse (JArr (JInt seq :: JInt 6 :: JStr key :: cs))) <> Some (flat_map unparse cs).
Proof.
  exists (2 ^ 32), [107], [JInt 0; JStr [118]]. split; [|split; [reflexivity|discriminate]].
  repeat (constructor; cbn; try lia; unfold byte_ok; try lia).
Qed.
Print Assumptions C29_logged_changes_refuted.

Example C29_skip_exact_ex : let l := [JInt (-200); JStr [1; 2]; JBool false; JUns 70000; JNull] in Forall json_ok l /\ Forall narrow l /\ flat_map unparse l <> [].
Proof. cbv zeta. repeat split; try discriminate; repeat (constructor; cbn; try lia; unfold byte_ok; try lia). Qed.
Example C29_skip_stops_at_wide_ex : let l1 := [JInt 3] in let w := JDouble 0 in Forall json_ok (l1 ++ w :: [JNull]) /\ Forall narrow l1 /\ primitive w /\ ~ narrow w.
Proof. cbv zeta. cbn. repeat split; auto; repeat (constructor; cbn; try lia). Qed.
Example C29_logged_changes_ex : put_changeset (unparse ex_put) = Some (0 :: write_string (repeat 120 40)).
Proof. reflexivity. Qed.

(* ------------------------------------------------------------------ C37 *)
(* A complete request in a datagram is the request executed, whatever is left in the buffer from earlier ones. *)
Theorem C37_complete_datagram : forall p buf l, json_ok (JArr l) ->
  exists j, udp_request p (udp_receive buf (unparse (JArr l))) = Some j /\ jsame (JArr l) j.
Proof. exact udp_complete. Qed.
Print Assumptions C37_complete_datagram.

(* But an incomplete one is completed with bytes of an earlier datagram and executed: here a truncated remove request
   for key "k" after a put, whose key becomes that of the put. *)
Definition ex_stale : list Z := unparse (JArr [JInt 1; JInt 6; JStr [97; 98]; JInt 0; JStr [118]]) ++ repeat 0 (64 * 64 - 9).
Definition ex_truncated : list Z := [147; 2; 8].
Theorem C37_datagram_own_bytes_refuted : exists p buf dgram, bytes_ok buf /\ bytes_ok dgram /\ length buf = (64 * 64)%nat /\
  udp_request p dgram = None /\ udp_request p (udp_receive buf dgram) = Some (JArr [JInt 2; JInt 8; JStr [97; 98]]).
Proof.
  exists sp_init, ex_stale, ex_truncated. repeat split; try (vm_compute; reflexivity).
  - apply bytes_okb_spec. vm_compute. reflexivity.
  - apply bytes_okb_spec. vm_compute. reflexivity.
Qed.
Print Assumptions C37_datagram_own_bytes_refuted.

Example C37_complete_datagram_ex : json_ok ex_put /\ udp_request sp_init (udp_receive ex_stale (unparse ex_put)) = Some ex_put.
Proof. split; [exact ex_put_ok|vm_compute; reflexivity]. Qed.

(* ------------------------------------------------------------------ C38 *)
(* On any bytes, in any division into pieces, the decoder does nothing undefined (no invalid pointer, no negative or
   overflowing size) unless the input has a header with a 32-bit length of 2^31 or more. *)
Theorem C38_decoder_safe_partial : forall q pieces, bytes_ok (concat pieces) -> feed_pieces (sp_reset q) pieces = RUndef ->
  exists pre s1, concat pieces = pre ++ s1 /\ long_header s1.
Proof. exact chunks_safe. Qed.
Print Assumptions C38_decoder_safe_partial.

(* Such a header does break it: the length is held in a signed int. *)
Theorem C38_decoder_safe_refuted : exists s, bytes_ok s /\ length s = 5%nat /\ consume sp_init s = RUndef.
Proof. exists [219; 128; 0; 0; 0]. repeat split; try (vm_compute; reflexivity). apply bytes_okb_spec. vm_compute. reflexivity. Qed.
Print Assumptions C38_decoder_safe_refuted.

(* the hypotheses hold for the refuting input; garbage without such a header is rejected or left incomplete *)
Example C38_decoder_safe_ex : feed_pieces sp_init [[219; 128]; [0; 0; 0]] = RUndef /\ long_header [219; 128; 0; 0; 0] /\
  (match consume sp_init [130; 193; 0; 7] with RRet p u => sp_error p = true | _ => False end) /\
  (match consume sp_init [221; 127; 255] with RRet p u => sp_done p = false /\ u = [] | _ => False end).
Proof. repeat split; try (vm_compute; auto; fail). exists 219, [128; 0; 0; 0]. repeat split; cbn; auto. vm_compute. discriminate. Qed.
