(* C64: natural comparison of strings. *)
From Verif Require Import Lib M_Natcmp Spec_Natcmp P_Natcmp P_Natcmp2 P_Natcmp3 P_Natcmp4.

(* The comparison always gives a result, and it is 0 just for equal strings; also in the repaired code. *)
Theorem C64_equal : forall rep a b, (exists z, natural_compare rep a b = Some z) /\ (natural_compare rep a b = Some 0 <-> a = b).
Proof. exact (fun rep a b => conj (compare_total rep a b) (compare_zero rep a b)). Qed.
Print Assumptions C64_equal.
(* "a1" and "A1" differ, "a01" and "a1" differ. *)
Example C64_equal_example : natural_compare false [97; 49] [65; 49] = Some 32 /\ natural_compare false [97; 48; 49] [97; 49] = Some 1 /\ natural_compare false [97; 49; 46; 53] [97; 49; 46; 53] = Some 0.
Proof. repeat split; reflexivity. Qed.

(* Numbers behind the same text without digits are ordered by their values, however long they are; those behind a minus sign the other
   way round; equal values by their length. *)
Theorem C64_numbers : forall rep p a b z, Forall (fun x => ~ digit x) p -> number a -> number b ->
  natural_compare rep (p ++ a) (p ++ b) = Some z -> (z < 0 <-> number_before p a b).
Proof. exact compare_numbers. Qed.
Print Assumptions C64_numbers.
(* "x9" < "x10", and "-10" < "-9". *)
Example C64_numbers_example : (Forall (fun x => ~ digit x) [120] /\ number [57] /\ number [49; 48] /\ natural_compare false ([120] ++ [57]) ([120] ++ [49; 48]) = Some (-1)) /\
  (signed [45] /\ natural_compare false ([45] ++ [49; 48]) ([45] ++ [57]) = Some (-1)) /\ value [49; 48] = 10.
Proof. unfold number, digit, signed. repeat split; try discriminate; repeat constructor; try lia; intros C; lia. Qed.

(* Exchanging the strings exchanges the result: full statement for the code refuted below; it holds if one of the strings has no
   '.', and always in the repaired code. *)
Theorem C64_antisym_partial : forall rep a b x y, rep = true \/ ~ In 46 a \/ ~ In 46 b ->
  natural_compare rep a b = Some x -> natural_compare rep b a = Some y -> Z.sgn y = - Z.sgn x.
Proof. exact compare_sym. Qed.
Print Assumptions C64_antisym_partial.
(* "a-1" and "a10"; "1.05" and "1.5" in the repaired code. *)
Example C64_antisym_example : (~ In 46 [97; 45; 49]) /\ natural_compare false [97; 45; 49] [97; 49; 48] = Some (-1) /\ natural_compare false [97; 49; 48] [97; 45; 49] = Some 1 /\
  natural_compare true [49; 46; 48; 53] [49; 46; 53] = Some (-1) /\ natural_compare true [49; 46; 53] [49; 46; 48; 53] = Some 1.
Proof. repeat split; try reflexivity. simpl. intuition lia. Qed.

(* "1.0" is less than "1.1" and "1.1" is less than "1.0". *)
Theorem C64_antisym_refuted : exists a b, below false a b /\ below false b a.
Proof. exact (ex_intro _ _ (ex_intro _ _ both_less)). Qed.
Print Assumptions C64_antisym_refuted.

(* The comparison is no order, with or without the repair: "0" < "a" < "{" < "0". *)
Theorem C64_transitive_refuted : forall rep, exists a b c, below rep a b /\ below rep b c /\ below rep c a.
Proof. exact (fun rep => ex_intro _ _ (ex_intro _ _ (ex_intro _ _ (cycle rep)))). Qed.
Print Assumptions C64_transitive_refuted.

(* Nor is it, with the repair, on strings of digits and periods: "0.1" < "0.1.1" < "0.01" < "0.1". *)
Theorem C64_transitive_digits_refuted : exists a b c, Forall (fun x => digit x \/ x = 46) (a ++ b ++ c) /\ below true a b /\ below true b c /\ below true c a.
Proof. exact cycle_digits. Qed.
Print Assumptions C64_transitive_digits_refuted.

(* Texts without digits are in lexicographic order; case matters only between texts that are otherwise equal. *)
Theorem C64_text : forall rep a b z, Forall (fun x => ~ digit x) a -> Forall (fun x => ~ digit x) b -> natural_compare rep a b = Some z -> (z < 0 <-> text_before a b).
Proof. exact compare_text. Qed.
Print Assumptions C64_text.
(* "ab" < "B", "B" < "b" and "B" < "ba". *)
Example C64_text_example : (Forall (fun x => ~ digit x) [97; 98; 66] /\ natural_compare false [97; 98] [66] = Some (-1)) /\ natural_compare false [66] [98] = Some (-32) /\
  natural_compare false [66] [98; 97] = Some (-1) /\ text_before [66] [98] /\ text_before [66] [98; 97].
Proof. unfold digit, text_before. repeat split; try reflexivity; [repeat constructor; lia| |left; simpl; auto]. right. split; [reflexivity|]. simpl. lia. Qed.

(* Numbers with the same integer part and fractions behind the same text are ordered by their values. Full statement for all fractions
   refuted below; it holds if neither fraction is 0 and they begin with the same number of zeros, and, in the repaired code, with
   any numbers of zeros. *)
Theorem C64_fractions_partial : forall rep p i f g z, Forall (fun x => ~ digit x) p -> number i -> number f -> number g -> value f <> 0 -> value g <> 0 -> rep = true \/ lead f = lead g ->
  natural_compare rep (p ++ i ++ [46] ++ f) (p ++ i ++ [46] ++ g) = Some z -> (z < 0 <-> fraction_before p f g).
Proof. exact compare_fractions. Qed.
Print Assumptions C64_fractions_partial.
(* "x1.15" < "x1.2", and "-1.2" < "-1.15". *)
Example C64_fractions_example : number [49; 53] /\ value [49; 53] = 15 /\ lead [49; 53] = lead [50] /\ natural_compare false ([120] ++ [49] ++ [46] ++ [49; 53]) ([120] ++ [49] ++ [46] ++ [50]) = Some (-1) /\
  fraction_before [120] [49; 53] [50] /\ natural_compare false ([45] ++ [49] ++ [46] ++ [50]) ([45] ++ [49] ++ [46] ++ [49; 53]) = Some (-1).
Proof.
  unfold number, digit. repeat split; try reflexivity; try discriminate; [repeat constructor; lia|]. left. split; [|left; unfold frac_lt; cbn; lia]. intros [C|(q & c & C & _)]; [discriminate|]. apply (f_equal (@length Z)) in C. rewrite app_length in C. simpl in C. lia.
Qed.
(* "1.001" is less than "1.0", with or without the repair. *)
Theorem C64_fractions_refuted : forall rep, exists f g, number f /\ number g /\ frac_lt g f /\ below rep ([49; 46] ++ f) ([49; 46] ++ g).
Proof. exact fraction_wrong. Qed.
Print Assumptions C64_fractions_refuted.

(* The second part of an IP address or a version is a number and no fraction: if a further period follows in one of the strings, the second parts
   are ordered by value. *)
Theorem C64_parts : forall rep p i f g t u z, Forall (fun x => ~ digit x) p -> number i -> number f -> number g -> value f <> value g -> ends t -> ends u -> dotted t \/ dotted u ->
  natural_compare rep (p ++ i ++ [46] ++ f ++ t) (p ++ i ++ [46] ++ g ++ u) = Some z -> (z < 0 <-> value f < value g).
Proof. exact parts. Qed.
Print Assumptions C64_parts.
(* "v1.9.7" < "v1.10", where "v1.9" > "v1.10". *)
Example C64_parts_example : dotted [46; 55] /\ ends [] /\ natural_compare false ([118] ++ [49] ++ [46] ++ [57] ++ [46; 55]) ([118] ++ [49] ++ [46] ++ [49; 48] ++ []) = Some (-1) /\
  natural_compare false [118; 49; 46; 57] [118; 49; 46; 49; 48] = Some 1.
Proof. split; [exists 55, []; split; auto; lia|]. repeat split; reflexivity. Qed.

(* Behind the same text, a digit comes before the letters and after all other bytes. *)
Theorem C64_classes : forall rep p x y a b z, Forall (fun c => ~ digit c) p -> digit x -> ~ digit y -> natural_compare rep (p ++ x :: a) (p ++ y :: b) = Some z -> (z < 0 <-> letter y).
Proof. exact classes. Qed.
Print Assumptions C64_classes.
(* "x1" < "xa", "x1" > "x-". *)
Example C64_classes_example : digit 49 /\ letter 97 /\ ~ digit 45 /\ natural_compare false ([120] ++ 49 :: []) ([120] ++ 97 :: []) = Some (-1) /\ natural_compare false ([120] ++ 49 :: []) ([120] ++ 45 :: []) = Some 1.
Proof. unfold digit, letter. repeat split; try reflexivity; lia. Qed.

(* The same for fractions of different values inside texts: a period that ends a sentence does not make them addresses. What is
   missing is as above. *)
Theorem C64_fractions_text_partial : forall rep p i f g t u z, Forall (fun x => ~ digit x) p -> number i -> number f -> number g -> value f <> 0 -> value g <> 0 -> ~ frac_eq f g -> rep = true \/ lead f = lead g ->
  ends t -> ends u -> ~ dotted t -> ~ dotted u -> natural_compare rep (p ++ i ++ [46] ++ f ++ t) (p ++ i ++ [46] ++ g ++ u) = Some z -> (z < 0 <-> fraction_before p f g).
Proof. exact fractions_text. Qed.
Print Assumptions C64_fractions_text_partial.
(* "1.15." < "1.2. x". *)
Example C64_fractions_text_example : ends [46] /\ ~ dotted [46] /\ ~ dotted [46; 32; 120] /\ natural_compare false ([] ++ [49] ++ [46] ++ [49; 53] ++ [46]) ([] ++ [49] ++ [46] ++ [50] ++ [46; 32; 120]) = Some (-1).
Proof.
  split; [simpl; unfold digit; lia|]. split; [intros (c & r & C & _); discriminate|]. split; [|reflexivity]. intros (c & r & C & D). injection C as <- <-. lia.
Qed.
