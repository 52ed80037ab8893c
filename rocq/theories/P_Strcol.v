(* Columns and checkpoints of string rows. *)
From Verif Require Import Lib M_Bag M_Strrow.

Lemma index_parts off l : 0 <= off < 2 ^ 16 -> 0 <= l < 2 ^ 16 -> index_offset (make_index off l) = off /\ index_length (make_index off l) = l.
Proof.
  intros Ho Hl. unfold make_index, index_offset, index_length. change (2 ^ 32) with 4294967296. change (2 ^ 16) with 65536 in *. rewrite (Z.mod_small (off + l * 65536) 4294967296) by lia. split.
  - rewrite Z.mod_add by lia. apply Z.mod_small. lia.
  - rewrite Z.div_add by lia. rewrite Z.div_small by lia. lia.
Qed.
Lemma rd_some m off n : 0 <= off -> 0 <= n -> off + n <= len m -> rd m off n = Some (firstn (Z.to_nat n) (skipn (Z.to_nat off) m)).
Proof. intros A B C. unfold rd. rewrite (proj2 (Z.leb_le 0 off)), (proj2 (Z.leb_le 0 n)), (proj2 (Z.leb_le (off + n) (len m))) by lia. reflexivity. Qed.
Lemma col_whole r : sr_col r 0 = Some (sr_s r).
Proof.
  unfold sr_col. cbn [Z.eqb]. rewrite rd_some by (pose proof (len_nonneg (sr_s r)); lia). cbn [Z.to_nat skipn]. rewrite firstn_all2; auto. unfold len. lia.
Qed.
Lemma col_range r off l : 0 <= off < 2 ^ 16 -> 0 <= l < 2 ^ 16 -> 0 < off + l -> sr_col r (make_index off l) = Some (firstn (Z.to_nat l) (skipn (Z.to_nat off) (sr_s r))).
Proof.
  intros Ho Hl H. destruct (index_parts off l Ho Hl) as (E1 & E2). unfold sr_col. destruct (Z.eqb_spec (make_index off l) 0) as [E|_].
  { rewrite E in E1, E2. cbn in E1, E2. lia. }
  rewrite E1, E2. cbv zeta. set (s := sr_s r). pose proof (len_nonneg s). rewrite rd_some by lia. f_equal.
  destruct (Z.le_gt_cases (len s) off) as [G|G].
  - rewrite (skipn_all2 s) by (unfold len in *; lia). rewrite (@skipn_all2 _ (Z.to_nat off) s) by (unfold len in *; lia). rewrite !firstn_nil. reflexivity.
  - rewrite (Z.min_r (len s) off) by lia. destruct (Z.le_gt_cases l (len s - off)); [rewrite Z.min_r by lia; reflexivity|]. rewrite Z.min_l by lia. rewrite !firstn_all2; auto; rewrite skipn_length; unfold len in *; lia.
Qed.
Lemma init_map m : forall v, init m = Some v -> map Some v = m.
Proof.
  induction m as [|[x|] m IH]; intros v; cbn [init]; try discriminate; [intros E; injection E as <-; reflexivity|]. destruct (init m) as [w|]; [|discriminate]. intros E. injection E as <-. cbn [map]. rewrite (IH w); auto.
Qed.
Lemma col_reads r : sr_col r 0 = Some (sr_s r) /\ forall off l, 0 <= off < 2 ^ 16 -> 0 <= l < 2 ^ 16 -> 0 < off + l ->
  sr_col r (make_index off l) = Some (firstn (Z.to_nat l) (skipn (Z.to_nat off) (sr_s r))).
Proof. split; [apply col_whole|]. intros. apply col_range; auto. Qed.
Lemma create_col v ts : sr_col (sr_create1 v ts) 0 = Some (map Some v) /\ sr_timestamp (sr_create1 v ts) = ts.
Proof. split; [apply col_whole|reflexivity]. Qed.
Lemma checkpoint_same r v : init (sr_checkpoint_write r) = Some v -> sr_checkpoint_read v (sr_timestamp r) = r.
Proof. intros E. apply init_map in E. unfold sr_checkpoint_read, sr_create1, sr_timestamp. rewrite E. destruct r. reflexivity. Qed.
Lemma checkpoint_col r v : sr_col r 0 = Some (map Some v) -> exists w, init (sr_checkpoint_write r) = Some w /\ sr_checkpoint_read w (sr_timestamp r) = r /\ w = v.
Proof.
  intros E. rewrite col_whole in E. injection E as E. assert (I : init (sr_checkpoint_write r) = Some v) by (unfold sr_checkpoint_write; rewrite E; clear; induction v as [|x v IH]; cbn [map init]; [reflexivity|rewrite IH; reflexivity]).
  exists v. split; auto. split; auto. apply checkpoint_same. auto.
Qed.
Lemma empty_range v ts : sr_col (sr_create1 v ts) (make_index 0 0) = Some (map Some v).
Proof. apply create_col. Qed.
