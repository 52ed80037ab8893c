(* C63: base64 and URI component encodings. *)
From Verif Require Import Lib M_Strenc Spec_Strenc P_Strenc1 P_Strenc2 P_Strenc3.

(* encode_base64 writes the base64 text of RFC 4648, padded or not, inside of its reservation. Partial: strings below half
   a gigabyte, see C63_long_refuted. *)
Theorem C63_encode_partial (pad : bool) (s : list Z) : bytes_ok s -> (len s + 2) * 4 < 2 ^ 31 -> encode_base64 pad s = EOk (base64 pad s).
Proof. exact (encode_ok pad s). Qed.
Print Assumptions C63_encode_partial.
(* "foob", from RFC 4648: Zm9vYg==; the bytes 255 254 253. *)
Example C63_encode_example : bytes_ok [102; 111; 111; 98] /\ (len [102; 111; 111; 98] + 2) * 4 < 2 ^ 31 /\ base64 true [102; 111; 111; 98] = [90; 109; 57; 118; 89; 103; 61; 61] /\ base64 false [102; 111; 111; 98] = [90; 109; 57; 118; 89; 103] /\ encode_base64 true [255; 254; 253] = EOk [47; 47; 55; 57].
Proof. split; [repeat constructor; unfold byte_ok; lia|]. repeat split. Qed.

(* At half a gigabyte the size of the reservation overflows. *)
Theorem C63_long_refuted (pad : bool) (s : list Z) : len s = 2 ^ 29 -> encode_base64 pad s = EUb.
Proof. exact (long_text pad s). Qed.
Print Assumptions C63_long_refuted.
Example C63_long_example : exists s : list Z, bytes_ok s /\ len s = 2 ^ 29.
Proof. exists (repeat 0 (Z.to_nat (2 ^ 29))). split; [apply bytes_ok_repeat0|]. rewrite len_repeat. apply Z2Nat.id. lia. Qed.

(* decode_base64, for any text u with any number of = behind it: true and the bytes u stands for, or false just when u has a byte
   that is not in the alphabet or a single last digit; inside of its reservation. *)
Theorem C63_decode_partial (u : list Z) (k : nat) :
  bytes_ok u -> (forall u', u <> u' ++ [61]) -> (len u + Z.of_nat k) * 3 < 2 ^ 31 -> decode_base64 (u ++ repeat 61 k) = match unbase64 u with Some o => EOk o | None => ENo end.
Proof. exact (decode_ok u k). Qed.
Print Assumptions C63_decode_partial.
Example C63_decode_example : (forall u', [90; 109; 57; 118; 89; 103] <> u' ++ [61]) /\ decode_base64 ([90; 109; 57; 118; 89; 103] ++ repeat 61 2) = EOk [102; 111; 111; 98] /\
  decode_base64 [90; 109; 57; 118; 89] = ENo /\ decode_base64 [90; 109; 61; 118] = ENo /\ decode_base64 [90; 109; 57; 33] = ENo.
Proof.
  split; [|repeat split]. intros u' E. apply (f_equal (@rev Z)) in E. rewrite rev_app_distr in E. discriminate.
Qed.

(* Round trip. *)
Theorem C63_round_trip_partial (pad : bool) (s : list Z) : bytes_ok s -> (len s + 2) * 4 < 2 ^ 31 -> exists t, encode_base64 pad s = EOk t /\ decode_base64 t = EOk s.
Proof. exact (round_trip pad s). Qed.
Print Assumptions C63_round_trip_partial.
Example C63_round_trip_example : bytes_ok [0; 128; 255; 61; 10] /\ encode_base64 true [0; 128; 255; 61; 10] = EOk [65; 73; 68; 47; 80; 81; 111; 61] /\ decode_base64 [65; 73; 68; 47; 80; 81; 111; 61] = EOk [0; 128; 255; 61; 10].
Proof. split; [repeat constructor; unfold byte_ok; lia|]. split; reflexivity. Qed.

(* Different texts decode to the same bytes: the last bits are not compared with zero (QQ and QR are both A). *)
Theorem C63_unique_refuted : exists t1 t2 s, t1 <> t2 /\ decode_base64 t1 = EOk s /\ decode_base64 t2 = EOk s /\ encode_base64 false s = EOk t1.
Proof. exact many_texts. Qed.
Print Assumptions C63_unique_refuted.

(* encode_uri_component writes unreserved characters and % with two digits for the others; the text stands for the string and
   for no other. *)
Theorem C63_uri (s : list Z) : bytes_ok s -> percent (encode_uri_component s) s /\ forall s', percent (encode_uri_component s) s' -> s' = s.
Proof. exact (uri_all s). Qed.
Print Assumptions C63_uri.
(* "Ab -%" followed by 255. *)
Example C63_uri_example : bytes_ok [65; 98; 32; 45; 37; 255] /\ encode_uri_component [65; 98; 32; 45; 37; 255] = [65; 98; 37; 50; 48; 45; 37; 50; 53; 37; 70; 70].
Proof. split; [repeat constructor; unfold byte_ok; lia|reflexivity]. Qed.
