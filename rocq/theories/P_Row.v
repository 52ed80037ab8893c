(* Row histories. *)
From Verif Require Import Lib Spec_Row.

Lemma top_nonneg ch : 0 <= top_col ch.
Proof. induction ch as [|[j v] ch IH]; cbn [top_col fold_right fst]; [lia|]. fold (top_col ch). lia. Qed.
Lemma lookup_top ch i : top_col ch <= i -> lookup i ch = None.
Proof.
  induction ch as [|[j v] ch IH]; intros Ht; auto. cbn [lookup top_col fold_right fst] in *. fold (top_col ch) in Ht.
  replace (j =? i) with false by lia. apply IH. lia.
Qed.
Lemma columns_nonneg h : 0 <= columns h.
Proof. induction h as [|[ch|v] h IH]; cbn [columns]; lia. Qed.
Lemma written_above h i : columns h <= i -> last_written h i = [].
Proof.
  induction h as [|[ch|v] h IH]; cbn [columns last_written]; intros Hi; auto.
  - rewrite lookup_top by lia. apply IH. lia.
  - now replace (i =? 0) with false by lia.
Qed.
Lemma row_after_len h : len (row_after h) = columns h.
Proof. unfold row_after, len. rewrite map_length, seq_length. pose proof (columns_nonneg h). lia. Qed.
Lemma row_after_nth h i : nth i (row_after h) [] = last_written h (Z.of_nat i).
Proof.
  unfold row_after. destruct (Z_lt_le_dec (Z.of_nat i) (columns h)).
  - rewrite nth_indep with (d' := last_written h (Z.of_nat 0)) by (rewrite map_length, seq_length; lia).
    rewrite (map_nth (fun i => last_written h (Z.of_nat i))). now rewrite seq_nth by lia.
  - rewrite nth_overflow by (rewrite map_length, seq_length; lia). now rewrite written_above.
Qed.
Lemma row_after_put ch h : updated (row_after h) ch (row_after (RPut ch :: h)).
Proof.
  split; [rewrite !row_after_len; reflexivity|]. intros i. rewrite !row_after_nth. cbn [last_written]. now destruct (lookup _ _).
Qed.
Lemma row_after_replace v h : row_after (RReplace v :: h) = [v].
Proof. reflexivity. Qed.
