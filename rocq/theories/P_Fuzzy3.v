(* The table holds the rows of the stored updates whatever the checkpointer does; runs that lose updates. *)
From Coq Require Import Permutation.
From Verif Require Import Lib M_Msgpack M_Bag Spec_Log Spec_Row M_Rowrun M_Replay Spec_Replay M_Fuzzy Spec_Fuzzy P_Replay1 P_Replay2 P_Replay3 P_Replay4 P_Fuzzy1 P_Fuzzy2.

Definition strip (s : fstate) : fstate := MkF (f_tab s) (f_klock s) (f_llock s) (f_ge s) (f_pc s) (f_log s) None (f_hist s).
Lemma strip_step fix_ nlog s e s' : fstep fix_ nlog s e = Some s' -> strip s' = strip s \/ e <> CStart /\ fstep fix_ nlog (strip s) e = Some (strip s').
Proof.
  destruct e as [t l k o|t ts| | |l|p|]; cbn [fstep]; intros H.
  - right. split; [discriminate|]. cbn [strip f_tab f_hist f_klock f_llock f_ge f_pc f_log f_ck]. destruct (f_pc s t); try discriminate. destruct (f_klock s k || negb (l <? nlog)%nat); [discriminate|]. now injection H as <-.
  - right. split; [discriminate|]. unfold tstep in *. cbn [strip f_tab f_hist f_klock f_llock f_ge f_pc f_log f_ck]. destruct (f_pc s t); try discriminate.
    + destruct (f_llock s l); [discriminate|]. now injection H as <-.
    + now injection H as <-.
    + destruct (ts_ok (f_tab s k) ts); [|discriminate]. destruct (new_row (f_tab s k) o ts); [|discriminate]. cbn in *. now injection H as <-.
    + now injection H as <-.
    + now injection H as <-.
  - right. split; [discriminate|]. now injection H as <-.
  - left. destruct (f_ck s) as [[? ? ? ? [?|]]|]; try discriminate; injection H as <-; reflexivity.
  - left. destruct (f_ck s) as [[? ? ? ? [?|]]|]; try discriminate. destruct (f_llock s l); try discriminate. injection H as <-; reflexivity.
  - left. destruct (f_ck s) as [[? [|? ?] ? ? [?|]]|]; try discriminate. injection H as <-; reflexivity.
  - left. destruct (f_ck s) as [[? ? ? ? [?|]]|]; try discriminate. injection H as <-; reflexivity.
Qed.
Lemma frun_strip fix_ nlog : forall es s s', Inv nlog (strip s) -> Forall fev_ok es -> frun fix_ nlog s es = Some s' -> Inv nlog (strip s').
Proof.
  induction es as [|e es IH]; intros s s' I F R; cbn [frun] in R; [congruence|]. inversion F as [|? ? F1 F2]; subst.
  destruct (fstep fix_ nlog s e) as [s1|] eqn:E; [|discriminate]. eapply IH; [|exact F2|exact R].
  destruct (strip_step _ _ _ _ _ E) as [->|[N X]]; auto. eapply fstep_I; [exact I|exact F1| |exact X]. intros; contradiction.
Qed.

Lemma history fix_ nlog es s : Forall fev_ok es -> frun fix_ nlog f_init es = Some s -> all_fit (f_hist s) ->
  (forall k col, 0 <= col < 2 ^ 31 -> rt_get (fun k => match f_tab s k with Some b => CRow b | None => CNil end) k col = Some (column (ops (of k (f_hist s))) col)) /\
  (forall e en, In (e, en) (f_log s) -> exists i, In i (f_hist s) /\ i_epoch i = e /\ i_entry i = en) /\
  (forall i, In i (f_hist s) -> In (i_epoch i, i_entry i) (f_log s) \/ exists t l k, f_pc s t = TStored l k (i_epoch i) (i_entry i) \/ f_pc s t = TOpen l k (i_epoch i) (i_entry i)).
Proof.
  intros F R (Fit & Mf). pose proof (frun_strip fix_ nlog es f_init s (init_I nlog) F R) as I. split; [|split].
  - intros k col Hc. apply get_start with (h := ops (of k (f_hist s))); auto.
    + pose proof (v_row _ _ I k) as V. cbn [strip f_tab f_hist] in V. rewrite V. pose proof (v_def _ _ I k) as D. cbn [strip f_tab f_hist] in D. rewrite V in D. unfold start. destruct (of k (f_hist s)) as [|i h]; [reflexivity|].
      unfold row_of in *. destruct (bag_run (ops (i :: h))) as [b|] eqn:B; [exists b; auto|]. exfalso. apply D; [discriminate|reflexivity].
    + split; [|split; [apply Fit|apply (v_stamp _ _ I)]]. apply Forall_forall. intros x Hx. apply in_map_iff in Hx. destruct Hx as (j & <- & Hj). cbn.
      pose proof (v_rops _ _ I) as VR. rewrite Forall_forall in VR. apply VR. cbn. eapply of_in; eauto.
  - intros e en H. destruct (v_pend _ _ I) as (p & A1 & A2 & A3). cbn in A3. assert (X : In (e, en) (map pr (f_hist s))) by (eapply Permutation_in; [apply Permutation_sym; exact A3|]; apply in_app_iff; auto).
    apply in_map_iff in X. destruct X as (i & Ei & Hi). injection Ei as E1 E2. exists i. auto.
  - intros i Hi. destruct (v_pend _ _ I) as (p & A1 & A2 & A3). cbn in A3, A2. assert (X : In (pr i) (map pr (f_hist s))) by (apply in_map; auto).
    eapply Permutation_in in X; [|exact A3]. apply in_app_iff in X. destruct X as [X|X]; [left; exact X|]. right. apply in_map_iff in X. destruct X as ([t x] & Ex & Hx). cbn in Ex. subst x.
    apply A2 in Hx. exists t. unfold pr in Hx. destruct (f_pc s t) as [|l k o|l k o|l k o e|l k e en|l k e en]; cbn in Hx; try discriminate; injection Hx as -> ->; exists l, k; auto.
Qed.

(* Thread 0 reads epoch 1 for its update of "a" and is held up; the checkpoint reads min_epoch 2 and scans; thread 0
   stores and records. Then it updates "b" in epoch 2. *)
Definition race1 : list fev :=
  [FBegin 0 0 [97] (UReplace [1]); FStep 0 0; FStep 0 0; FAdvance; CStart; CPass (fun _ => true); FStep 0 2; FStep 0 0; FStep 0 0].
Definition race_b : list fev := [FBegin 0 0 [98] (UReplace [2]); FStep 0 0; FStep 0 0; FStep 0 4; FStep 0 0; FStep 0 0; CEnd; FAdvance].
Definition race_a : list fev := [FBegin 0 0 [97] (UPut [JInt 0; JStr [2]] [(0, [2])]); FStep 0 0; FStep 0 0; FStep 0 4; FStep 0 0; FStep 0 0; CEnd; FAdvance].

Definition done_of (es : list fev) : fstate := match frun false 1 f_init es with Some s => s | None => f_init end.
Definition ck_of (s : fstate) : ckp := match f_ck s with Some c => c | None => MkC 0 [] (fun _ => false) (fun _ => None) None end.
Definition recovered (s : fstate) (mx : Z) : rtable :=
  match run_entries (loaded (ck_of s)) (map snd (filter (wanted_rec (c_min (ck_of s)) mx) (f_log s))) with Some t => t | None => rt_empty end.

Lemma race_b_ok : Forall fev_ok (race1 ++ race_b).
Proof. repeat constructor; discriminate. Qed.
Lemma race_a_ok : Forall fev_ok (race1 ++ race_a).
Proof. repeat constructor; try discriminate; cbn; lia. Qed.
Lemma race_b_run : frun false 1 f_init (race1 ++ race_b) = Some (done_of (race1 ++ race_b)).
Proof. unfold done_of. destruct (frun false 1 f_init (race1 ++ race_b)) eqn:E; [reflexivity|]. exfalso. assert (X : (if frun false 1 f_init (race1 ++ race_b) then true else false) = true) by (vm_compute; reflexivity). rewrite E in X. discriminate. Qed.
Lemma race_a_run : frun false 1 f_init (race1 ++ race_a) = Some (done_of (race1 ++ race_a)).
Proof. unfold done_of. destruct (frun false 1 f_init (race1 ++ race_a)) eqn:E; [reflexivity|]. exfalso. assert (X : (if frun false 1 f_init (race1 ++ race_a) then true else false) = true) by (vm_compute; reflexivity). rewrite E in X. discriminate. Qed.
Lemma race_b_hist : f_hist (done_of (race1 ++ race_b)) = [MkI [98] (RReplace [2]) 4 2 (EReplace [98] [2] 4); MkI [97] (RReplace [1]) 2 1 (EReplace [97] [1] 2)].
Proof. vm_compute. reflexivity. Qed.
Lemma race_a_hist : f_hist (done_of (race1 ++ race_a)) =
  [MkI [97] (RPut [(0, [2])]) 4 2 (EModify [97] (flat_map unparse [JInt 0; JStr [2]]) 4 2); MkI [97] (RReplace [1]) 2 1 (EReplace [97] [1] 2)].
Proof. vm_compute. reflexivity. Qed.
Lemma race_b_fit : all_fit (f_hist (done_of (race1 ++ race_b))).
Proof.
  rewrite race_b_hist. split; [|repeat constructor]. intros k. unfold of, keq. cbn [filter i_key].
  destruct (list_eq_dec Z.eq_dec [98] k), (list_eq_dec Z.eq_dec [97] k); cbn [ops map fst i_rop i_ts throughout]; unfold fits_bag; repeat split; vm_compute; reflexivity.
Qed.
Lemma race_a_fit : all_fit (f_hist (done_of (race1 ++ race_a))).
Proof.
  rewrite race_a_hist. split; [|repeat constructor]. intros k. unfold of, keq. cbn [filter i_key].
  destruct (list_eq_dec Z.eq_dec [97] k); cbn [ops map fst i_rop i_ts throughout]; unfold fits_bag; repeat split; vm_compute; reflexivity.
Qed.
Lemma race_b_idle : forall t, f_pc (done_of (race1 ++ race_b)) t = TIdle.
Proof. intros t. vm_compute. destruct t; reflexivity. Qed.
Lemma race_a_idle : forall t, f_pc (done_of (race1 ++ race_a)) t = TIdle.
Proof. intros t. vm_compute. destruct t; reflexivity. Qed.
Lemma rec_some t0 l : (if run_entries t0 l then true else false) = true -> run_entries t0 l = Some (match run_entries t0 l with Some t => t | None => rt_empty end).
Proof. destruct (run_entries t0 l); [reflexivity|discriminate]. Qed.
Lemma race_b_lost : exists s c t, frun false 1 f_init (race1 ++ race_b) = Some s /\ f_ck s = Some c /\ c_max c = Some 2 /\ (forall k, c_seen c k = true) /\
  recorded 3 s /\ all_fit (f_hist s) /\ run_entries (loaded c) (map snd (filter (wanted_rec (c_min c) 3) (f_log s))) = Some t /\
  before 3 (f_hist s) = f_hist s /\ column (ops (of [97] (f_hist s))) 0 = Some [1] /\ rt_get t [97] 0 = Some None /\
  column (ops (of [98] (f_hist s))) 0 = Some [2] /\ rt_get t [98] 0 = Some (Some [2]).
Proof.
  exists (done_of (race1 ++ race_b)), (ck_of (done_of (race1 ++ race_b))), (recovered (done_of (race1 ++ race_b)) 3).
  split; [apply race_b_run|]. split; [vm_compute; reflexivity|]. split; [vm_compute; reflexivity|]. split; [intros k; vm_compute; reflexivity|].
  split; [intros t; rewrite race_b_idle; exact Logic.I|]. split; [apply race_b_fit|]. split; [apply rec_some; vm_compute; reflexivity|].
  rewrite race_b_hist. repeat split; vm_compute; reflexivity.
Qed.
Lemma race_a_lost : exists s c t, frun false 1 f_init (race1 ++ race_a) = Some s /\ f_ck s = Some c /\ c_max c = Some 2 /\ (forall k, c_seen c k = true) /\
  recorded 3 s /\ all_fit (f_hist s) /\ run_entries (loaded c) (map snd (filter (wanted_rec (c_min c) 3) (f_log s))) = Some t /\
  before 3 (f_hist s) = f_hist s /\ column (ops (of [97] (f_hist s))) 0 = Some [2] /\ rt_get t [97] 0 = Some None.
Proof.
  exists (done_of (race1 ++ race_a)), (ck_of (done_of (race1 ++ race_a))), (recovered (done_of (race1 ++ race_a)) 3).
  split; [apply race_a_run|]. split; [vm_compute; reflexivity|]. split; [vm_compute; reflexivity|]. split; [intros k; vm_compute; reflexivity|].
  split; [intros t; rewrite race_a_idle; exact Logic.I|]. split; [apply race_a_fit|]. split; [apply rec_some; vm_compute; reflexivity|].
  rewrite race_a_hist. repeat split; vm_compute; reflexivity.
Qed.

(* For examples with one checkpoint. *)
Lemma quiet_none fix_ nlog : forall es s, Forall (fun e => e <> CStart) es -> quiet_starts fix_ nlog s es.
Proof. induction es as [|e es IH]; intros s F; cbn; auto. inversion F; subst. split; [contradiction|]. destruct (fstep fix_ nlog s e); auto. Qed.
Lemma quiet_one fix_ nlog : forall a b s s1, Forall (fun e => e <> CStart) a -> Forall (fun e => e <> CStart) b -> frun fix_ nlog s a = Some s1 -> calm s1 ->
  quiet_starts fix_ nlog s (a ++ CStart :: b).
Proof.
  induction a as [|e a IH]; intros b s s1 A B R C.
  - cbn [frun] in R. injection R as <-. cbn [app quiet_starts]. split; auto. destruct (fstep fix_ nlog s CStart); auto. apply quiet_none. exact B.
  - inversion A; subst. cbn [app quiet_starts]. split; [contradiction|]. cbn [frun] in R. destruct (fstep fix_ nlog s e); auto. eapply IH; eauto.
Qed.
Lemma frun_some fix_ nlog es : (if frun fix_ nlog f_init es then true else false) = true ->
  frun fix_ nlog f_init es = Some (match frun fix_ nlog f_init es with Some s => s | None => f_init end).
Proof. destruct (frun fix_ nlog f_init es); [reflexivity|discriminate]. Qed.
