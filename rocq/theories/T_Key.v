(* Property theorems: C03 (distinct keys never collide), C06 (slice order is byte-string order). *)
From Verif Require Import Lib Spec_String M_Key P_Key.

(* C06: comparing two keys slice by slice, as the tree does layer by layer, decides lexicographic order. *)
Theorem C06_slice_order_is_lexicographic : forall a b : list Z,
  bytes_ok a -> bytes_ok b ->
  exists c, key_compare_layers (S (length a)) (key_make a) (key_make b) = Some c /\
            (c ?= 0) = lex_compare a b.
Proof. exact key_compare_layers_correct. Qed.
Print Assumptions C06_slice_order_is_lexicographic.

Example C06_witness :
  bytes_ok [97;98;99;100;101;102;103;104;0;255] /\ bytes_ok [97;98;99;100;101;102;103;104;1] /\
  lex_compare [97;98;99;100;101;102;103;104;0;255] [97;98;99;100;101;102;103;104;1] = Lt /\
  key_compare_layers 20 (key_make [97;98;99;100;101;102;103;104;0;255]) (key_make [97;98;99;100;101;102;103;104;1]) = Some (-1).
Proof. repeat split; try (apply bytes_okb_spec; reflexivity). Qed.

(* C06: the library's string comparison (used for suffixes) is the same order. *)
Theorem C06_string_compare_is_lexicographic : forall a b : list Z,
  (str_compare a b ?= 0) = lex_compare a b.
Proof. exact str_compare_lex. Qed.
Print Assumptions C06_string_compare_is_lexicographic.

(* C06: one layer's comparison, as stated by its callers: negative/positive decide the order of the whole
   strings; zero means equal short keys, or equal first slices with the order decided by the suffixes. *)
Theorem C06_one_layer_compare : forall a b : list Z, bytes_ok a -> bytes_ok b ->
  let c := key_compare (slice_make_comparable a) (len a) (slice_make_comparable b) (len b) in
  (c < 0 -> lex_compare a b = Lt) /\ (c > 0 -> lex_compare a b = Gt) /\
  (c = 0 -> (len a <= 8 /\ a = b) \/
            (8 < len a /\ 8 < len b /\ firstn 8 a = firstn 8 b /\
             lex_compare a b = lex_compare (skipn 8 a) (skipn 8 b))).
Proof. exact key_compare_lex. Qed.
Print Assumptions C06_one_layer_compare.

(* C03: the layered comparison calls two keys equal only if they are the same byte string. *)
Theorem C03_distinct_keys_never_collide : forall a b : list Z, bytes_ok a -> bytes_ok b ->
  (key_compare_layers (S (length a)) (key_make a) (key_make b) = Some 0 <-> a = b).
Proof. exact key_layers_distinct. Qed.
Print Assumptions C03_distinct_keys_never_collide.

Example C03_witness_trailing_nul : bytes_ok [97] /\ bytes_ok [97;0] /\
  slice_make_comparable [97] = slice_make_comparable [97;0] /\
  key_compare_layers 3 (key_make [97]) (key_make [97;0]) = Some (-1).
Proof. repeat split; try (apply bytes_okb_spec; reflexivity). Qed.

(* C03: a key is determined by its slice, its length capped at 9, and its suffix. *)
Theorem C03_decomposition_injective : forall a b : list Z, bytes_ok a -> bytes_ok b ->
  slice_make_comparable a = slice_make_comparable b ->
  Z.min (len a) 9 = Z.min (len b) 9 -> skipn 8 a = skipn 8 b -> a = b.
Proof. exact slice_inj. Qed.
Print Assumptions C03_decomposition_injective.

(* C06: shifting a key exposes exactly the rest of the string, and undoing all shifts restores it. *)
Theorem C06_shift_and_unshift : forall a : list Z, bytes_ok a -> 8 < len a ->
  key_suffix (key_make a) = skipn 8 a /\
  k_ikey (key_shift (key_make a)) = slice_make_comparable (skipn 8 a) /\
  k_len (key_shift (key_make a)) = len a - 8 /\
  key_unshift_all (key_shift (key_make a)) = key_make a.
Proof.
  exact (fun a H L => conj (key_suffix_rep _ [] a (key_make_rep a))
    (conj (proj2 (proj2 (proj2 (proj1 (key_shift_unshift a H L)))))
      (conj eq_refl (proj2 (key_shift_unshift a H L))))).
Qed.
Print Assumptions C06_shift_and_unshift.

(* C06: unparsing a slice with its length restores the bytes it was made from. *)
Theorem C06_slice_roundtrip : forall s buflen l,
  bytes_ok s -> 0 <= l -> l <= len s -> 0 <= buflen ->
  unparse_comparable_len buflen (slice_make_comparable s) l = firstn (Z.to_nat (Z.min (Z.min l 8) buflen)) s.
Proof. exact unparse_comparable_len_spec. Qed.
Print Assumptions C06_slice_roundtrip.

(* C06: the word-at-a-time equality test agrees with byte comparison. *)
Theorem C06_equals_sloppy_is_memcmp : forall a b l, bytes_ok a -> bytes_ok b ->
  (8 <= length a)%nat -> (8 <= length b)%nat -> 0 <= l -> l <= len a -> l <= len b ->
  equals_sloppy a b l = true <-> firstn (Z.to_nat l) a = firstn (Z.to_nat l) b.
Proof. exact equals_sloppy_spec. Qed.
Print Assumptions C06_equals_sloppy_is_memcmp.

Example C06_equals_sloppy_witness :
  equals_sloppy [1;2;3;4;5;6;7;8] [1;2;3;9;9;9;9;9] 3 = true /\
  equals_sloppy [1;2;3;4;5;6;7;8] [1;2;3;9;9;9;9;9] 4 = false.
Proof. split; vm_compute; reflexivity. Qed.
