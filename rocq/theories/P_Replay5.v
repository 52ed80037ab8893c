(* Where replay fails. *)
From Coq Require Import Permutation.
From Verif Require Import Lib M_Key P_Key M_Msgpack Spec_Msgpack P_Msgpack5 M_Bag M_Log Spec_Log Spec_Row M_Array M_Rowrun P_Row P_Bag1 P_Bag2 P_Bag3 Spec_Replay M_Replay P_Replay1 P_Replay2 P_Replay3 P_Replay4.

(* A change set that fits a row but not a delta marker. *)
Definition big : list Z := repeat 7 (Z.to_nat 65510).
Definition big_h : list (rop * Z) := [(RPut [(0, big)], 4); (RPut [(0, [5])], 2)].
Definition big_es : list entry := [EModify [107] (flat_map unparse [JInt 0; JStr big]) 4 2; EPut [107] (flat_map unparse [JInt 0; JStr [5]]) 2].
Lemma big_marker : exists k h es, hist_ok h /\ logged k h es /\ run_entries rt_empty es = None /\
  exists t, run_entries rt_empty (rev es) = Some t /\ rt_get t k 0 = Some (Some (last_written (map fst h) 0)).
Proof.
  exists [107], big_h, big_es. split.
  { split; [repeat constructor; lia|]. split; [|cbn; lia]. cbn [map fst big_h throughout]. unfold fits_bag. repeat split; vm_compute; reflexivity. }
  split. { cbn [logged big_h big_es]. split; [exists [JInt 0; JStr big]; split; [|reflexivity]|split; [exists [JInt 0; JStr [5]]; split; [|reflexivity]|exact I]]; (constructor; [now left|lia|vm_compute; reflexivity|constructor]). }
  split. { assert (H : match run_entries rt_empty big_es with None => true | Some _ => false end = true) by (vm_compute; reflexivity). destruct (run_entries rt_empty big_es); [discriminate|reflexivity]. }
  assert (H : match run_entries rt_empty (rev big_es) with
              | Some t => match rt_get t [107] 0 with Some (Some v) => bytes_eqb v big | _ => false end
              | None => false
              end = true) by (vm_compute; reflexivity).
  destruct (run_entries rt_empty (rev big_es)) as [t|]; [|discriminate]. exists t. split; auto. destruct (rt_get t [107] 0) as [[v|]|]; try discriminate.
  change (last_written (map fst big_h) 0) with big. do 2 f_equal. clear - H. revert H. generalize big. induction v as [|x v IH]; intros [|y w]; cbn [bytes_eqb]; try easy. intros H. apply andb_true_iff in H. destruct H as [H1 H2]. f_equal; [lia|auto].
Qed.

(* Records of parsed requests. *)
Lemma parsed_fails cs : 0 < len cs -> parse_changeset (record_parsed cs) = None.
Proof.
  intros Hn. unfold parse_changeset, record_parsed.
  assert (A : exists b u, write_array_header (len cs) = b :: u /\ forall s, read_int c_unsigned (b :: s) = None).
  { unfold write_array_header. destruct (len cs <? 16) eqn:E1; [|destruct (len cs <? 65536) eqn:E2].
    - exists (144 + len cs), []. split; [reflexivity|]. intros s.
      assert (R : In (144 + len cs) (map (fun i => 144 + i) [1;2;3;4;5;6;7;8;9;10;11;12;13;14;15])). { apply in_map_iff. exists (len cs). split; auto. cbn [In]. lia. }
      cbn [map In] in R. repeat (destruct R as [<-|R]; [reflexivity|]). destruct R.
    - eexists 220, _. split; [reflexivity|]. reflexivity.
    - eexists 221, _. split; [reflexivity|]. reflexivity. }
  destruct A as (b & u & -> & A). cbn [app length parse_loop]. now rewrite A.
Qed.
Lemma parsed_record_fails k cs ts t : 0 < len cs -> Z.even ts = true -> match chain_ts (t k) with Some x => x < ts | None => True end -> (forall b, t k = CRow b -> even_ts b) ->
  run_entry t (EPut k (record_parsed cs) ts) = None.
Proof.
  intros Hn Ht Hu He. unfold run_entry, update_key, rec_of, apply. pose proof (parsed_fails cs Hn) as P.
  assert (A : act_here (MkRr KPut (record_parsed cs) ts) (t k) = None).
  { unfold act_here. cbn [r_ts r_cmd r_val]. rewrite P. destruct (t k) as [|b|b p c]; cbn [chain_ts] in *; [reflexivity| |]; replace (ts <=? bag_timestamp b) with false by lia; reflexivity. }
  destruct (t k) as [|b|b p c]; unfold place; fold place; cbn [chain_ts] in Hu.
  - cbn [is_delta]. now rewrite A.
  - cbn [is_delta]. rewrite (He b eq_refl). now rewrite A.
  - cbn [is_delta r_ts]. replace (ts <? bag_timestamp b) with false by lia. now rewrite A.
Qed.
Lemma request_record seq cmd key cs ch : json_ok seq -> narrow seq -> json_ok cmd -> narrow cmd -> json_ok (JStr key) -> sent cs ch -> len cs + 3 < 2 ^ 31 ->
  exists v, put_changeset (unparse (JArr (seq :: cmd :: JStr key :: cs))) = Some v /\ parse_changeset v = Some ch.
Proof.
  intros A1 A2 B1 B2 K S L. exists (flat_map unparse cs). split; [|now apply parse_sent].
  pose proof (skip_put [seq; cmd; JStr key] cs []) as H. rewrite !app_nil_r in H. apply H; auto. { repeat constructor; auto. } rewrite len_app. change (len [seq; cmd; JStr key]) with 3. lia.
Qed.
(* Removals after a history. *)
Lemma remove_after k h v ts t : hist_ok h -> start (t k) h -> Z.even ts = true -> last_stamp h <= ts -> run_entry t (ERemove k v ts) = None.
Proof.
  intros H S E L. apply remove_fails; auto. unfold start in S. destruct h as [|o h]; [now rewrite S|]. destruct S as (b & B & ->).
  destruct (hist_run _ H) as (b' & B1 & B2). rewrite B in B1. injection B1 as <-. cbn [under]. unfold even_ts. rewrite B2. split; [|lia]. apply last_range. apply H.
Qed.
Lemma parsed_after k h cs ts t : hist_ok h -> start (t k) h -> Z.even ts = true -> last_stamp h < ts -> 0 < len cs -> run_entry t (EPut k (record_parsed cs) ts) = None.
Proof.
  intros H S E L N. apply parsed_record_fails; auto; unfold start in S; destruct h as [|o h]; try (rewrite S; cbn [chain_ts]; easy); destruct S as (b & B & EQ); rewrite EQ;
  destruct (hist_run _ H) as (b' & B1 & B2); rewrite B in B1; injection B1 as <-.
  - cbn [chain_ts]. now rewrite B2.
  - intros b1 [= <-]. unfold even_ts. rewrite B2. apply last_range. apply H.
Qed.
