(* Consequences used by the codec theorems. *)
From Verif Require Import Lib M_Key P_Key M_Msgpack Spec_Msgpack P_Msgpack1 P_Msgpack2 P_Msgpack3 P_Msgpack4 P_Msgpack5 P_Msgpack6.

Lemma chunks q pieces : feed_pieces (sp_reset q) pieces = consume (sp_reset q) (concat pieces).
Proof. rewrite feed_pieces_all by (auto using normal_ok). now apply feed_is_consume. Qed.

Lemma chunks_roundtrip j p u pieces : json_ok j -> concat pieces = unparse j ++ u ->
  exists p', feed_pieces (sp_reset p) pieces = RRet p' u /\ sp_success p' = true /\ jsame j (sp_json p').
Proof. intros Hj E. rewrite chunks, E. now apply roundtrip. Qed.

Lemma udp_complete p buf l : json_ok (JArr l) -> exists j, udp_request p (udp_receive buf (unparse (JArr l))) = Some j /\ jsame (JArr l) j.
Proof.
  intros Hj. unfold udp_request, udp_receive. destruct (roundtrip (JArr l) p (skipn (length (unparse (JArr l))) buf) Hj) as (p' & E & S & J).
  rewrite E, S. destruct (sp_json p'); inversion J; subst. eauto.
Qed.

Lemma chunks_safe q pieces : bytes_ok (concat pieces) -> feed_pieces (sp_reset q) pieces = RUndef ->
  exists pre s1, concat pieces = pre ++ s1 /\ long_header s1.
Proof. intros Hb H. rewrite chunks in H. now apply (decoder_safe q). Qed.
Lemma windows_read s : parser_read_json s = consume sp_init s.
Proof. unfold parser_read_json. rewrite read_windows_all by (auto using normal_ok). now apply feed_is_consume. Qed.
