(* Property C56: gets of versioned array rows while they are updated in place. *)
From Verif Require Import Lib M_Rowver Spec_Rowver P_Rowver4 P_Rowver3.

(* C56. A get that has ended answers with the columns of a value the row had at a moment of the get: the updates that
   had ended by then have taken effect, in order, and nothing of any other. Missing: gets during which 2^31 - 1 or more
   updates begin, see C56_wrap_refuted, and gets of one column, which may read outside the row (C56_absent_refuted) or,
   through run_get1, without looking at the version (C56_get1_refuted, C56_get1_null_refuted). *)
Theorem C56_get_partial : forall cols0 es s t f res, Forall ev_ok es -> vrun (v_init cols0) es = Some s -> v_rd s t = RDone f res ->
  since t es + 1 < 2 ^ 31 -> exists cols, was_value cols0 es t f cols /\ res = answer f cols.
Proof. exact get_atomic. Qed.
Print Assumptions C56_get_partial.
(* The first copy is torn (old column 0, new column 1), the second is not. *)
Example C56_get_ex : exists s, Forall ev_ok retry /\ vrun (v_init [1; 1]) retry = Some s /\ v_rd s 0%nat = RDone [] [2; 2] /\ since 0 retry + 1 < 2 ^ 31.
Proof. eexists. split; [exact retry_ok|]. split; [vm_compute; reflexivity|]. split; [vm_compute; reflexivity|]. vm_compute. reflexivity. Qed.

(* A get reads outside the row only if it asks for one column and the row had no such column at a moment of the get. *)
Theorem C56_get_inside : forall cols0 es s t f, Forall ev_ok es -> vrun (v_init cols0) es = Some s -> v_rd s t = RBad f ->
  exists cols i, was_value cols0 es t f cols /\ f = [i] /\ (length cols <= i)%nat.
Proof. exact get_safe. Qed.
Print Assumptions C56_get_inside.
Theorem C56_absent_refuted : exists cols0 es s t f, Forall ev_ok es /\ vrun (v_init cols0) es = Some s /\ v_rd s t = RBad f.
Proof. exact past_witness. Qed.
Print Assumptions C56_absent_refuted.

(* When no update is in progress the row's columns are those of all updates so far, in order. *)
Theorem C56_value : forall cols0 es s, Forall ev_ok es -> vrun (v_init cols0) es = Some s -> v_w s = None ->
  vr_cols (v_rows s (v_cur s)) = value cols0 (begun es).
Proof. exact quiet_value. Qed.
Print Assumptions C56_value.
(* In place, then with a larger row, then a replacement of the whole row. *)
Example C56_value_ex : exists s,
  let es := [EBegin (WPut [(1%nat, 4)]); EWriter; EWriter; EWriter; EBegin (WPut [(0%nat, 5); (3%nat, 6)]); EWriter] in
  Forall ev_ok es /\ vrun (v_init [1; 1]) es = Some s /\ v_w s = None /\ value [1; 1] (begun es) = [5; 4; 0; 6].
Proof.
  eexists. cbv zeta. split; [repeat constructor; cbn; try lia; discriminate|]. split; [vm_compute; reflexivity|]. split; vm_compute; reflexivity.
Qed.

(* An update never waits and never stores outside the row. *)
Theorem C56_update_runs : forall cols0 es s w, Forall ev_ok es -> vrun (v_init cols0) es = Some s -> v_w s = Some w ->
  exists s', vstep s EWriter = Some s'.
Proof. exact writer_enabled. Qed.
Print Assumptions C56_update_runs.
Example C56_update_runs_ex : exists s, let es := [EBegin (WPut [(0%nat, 5); (1%nat, 6)]); EWriter; EWriter] in
  Forall ev_ok es /\ vrun (v_init [1; 1]) es = Some s /\ v_w s = Some (WStore [(1%nat, 6)]).
Proof.
  eexists. cbv zeta. split; [repeat constructor; cbn; try lia; discriminate|]. split; vm_compute; reflexivity.
Qed.

(* A get that runs alone, with no update in progress, ends. *)
Theorem C56_get_ends : forall cols0 es s t, Forall ev_ok es -> vrun (v_init cols0) es = Some s -> v_w s = None ->
  exists ks s', vrun s (map (ERead t) ks) = Some s' /\ at_rest (v_rd s' t) = true.
Proof. exact get_ends. Qed.
Print Assumptions C56_get_ends.
(* The get holds an old version and a torn copy. *)
Example C56_get_ends_ex : exists s st, let es := firstn 11 retry in
  Forall ev_ok es /\ vrun (v_init [1; 1]) es = Some s /\ v_w s = None /\ v_rd s 0%nat = RCopy [] 0 2 0 [] st /\ st 0%nat <> st 1%nat.
Proof.
  eexists. eexists. cbv zeta. split; [unfold retry, P_Rowver4.wop2; cbn [firstn]; repeat constructor; cbn; try lia; discriminate|].
  split; [vm_compute; reflexivity|]. split; [reflexivity|]. split; [reflexivity|]. vm_compute. discriminate.
Qed.

(* Exactly 2^31 updates in place bring the counter back: the get answers with columns of two values. *)
Theorem C56_wrap_refuted : exists cols0 es s t f res, Forall ev_ok es /\ vrun (v_init cols0) es = Some s /\ v_rd s t = RDone f res /\
  since t es = 2 ^ 31 /\ forall cols, was_value cols0 es t f cols -> res <> answer f cols.
Proof. exact wrap_witness. Qed.
Print Assumptions C56_wrap_refuted.

(* run_get1 reads the shared row: the bytes may come from one string and the length from another. *)
Theorem C56_get1_refuted : exists cols0 es s t i d l, Forall ev_ok es /\ vrun (v_init cols0) es = Some s /\ v_rd s t = GDone i d l /\ d <> l.
Proof. exact mix_witness. Qed.
Print Assumptions C56_get1_refuted.
(* It may also follow a null pointer, after a put of the empty string. *)
Theorem C56_get1_null_refuted : exists cols0 es s t i, Forall ev_ok es /\ vrun (v_init cols0) es = Some s /\ v_rd s t = GBad i.
Proof. exact gone_witness. Qed.
Print Assumptions C56_get1_null_refuted.
