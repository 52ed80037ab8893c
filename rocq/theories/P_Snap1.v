(* Snapshots of one column. *)
From Verif Require Import Lib M_Bag M_Array P_Array.

Lemma snapshot_one h r i : 0 <= i < vv_ncol r -> vv_ncol r <= len (vv_cols r) -> len (vv_cols r) < 2 ^ 15 ->
  exists s, vv_snapshot h r None [i] = Some (h, s) /\ vv_ncol s = vv_ncol r /\ vv_col h s i = vv_col h r i.
Proof.
  intros Hi Hn Hl. unfold vv_snapshot. cbn [vv_cols vv_ts vv_cap]. unfold cols_at. rewrite (proj2 (Z.leb_le 0 i)) by lia.
  assert (Hc : (Z.to_nat i < length (vv_cols r))%nat) by (unfold len in *; lia). destruct (nth_error (vv_cols r) (Z.to_nat i)) as [c|] eqn:E; [|apply nth_error_None in E; lia].
  destruct (cols_set_ok (repeat None (Z.to_nat (vv_ncol r))) (Z.to_nat i) c) as (cols' & -> & L & N & _); [rewrite repeat_length; lia|]. eexists. split; [reflexivity|]. split; [reflexivity|].
  unfold vv_col, arr_col. cbn [vv_ncol vv_cols]. destruct (i mod 2 ^ 32 <? vv_ncol r mod 2 ^ 32); auto. rewrite Z.mod_small by (change (2 ^ 15) with 32768 in *; change (2 ^ 32) with 4294967296; lia). unfold cols_at. rewrite (proj2 (Z.leb_le 0 i)) by lia. rewrite E.
  assert (X : nth_error cols' (Z.to_nat i) = Some c).
  { rewrite (nth_error_nth' cols' None) by (rewrite L, repeat_length; lia). rewrite N. rewrite Nat.eqb_refl. reflexivity. }
  rewrite X. reflexivity.
Qed.
