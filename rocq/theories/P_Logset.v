(* Invariants of the loggers, and what recovery keeps of each log. *)
From Verif Require Import Lib M_Key P_Key M_Circular P_Circular M_Msgpack M_Bag M_Log Spec_Log M_Logfile P_Log1 P_Log2 P_Log3 P_Log4 M_Logset.

Record inv (ge : Z) (g : lg) : Prop := MkInv {
  i_ok : log_ok (l_all g);
  i_le : l_epoch g = 0 /\ epoch_after 0 (l_all g) < ge \/ 0 < l_epoch g <= ge /\ epoch_after 0 (l_all g) = l_epoch g;
  i_held : forall e, l_held g = Some e -> l_epoch g <= e <= ge /\ epoch_after 0 (l_all g) <= e /\ 0 < e /\ l_flushed g <= e /\ (forall x, l_xe g = Some x -> x <= e);
  i_stall : l_stalled g = [];
  i_pos : (l_disk g <= l_sent g <= length (l_all g))%nat;
  i_fl : 0 <= l_flushed g <= ge;
  i_disk : forall t u, In (t, u) (tagged (epoch_after 0 (firstn (l_disk g) (l_all g))) (skipn (l_disk g) (l_all g))) -> l_flushed g <= t;
  i_xe : forall x, l_xe g = Some x -> 0 <= x <= ge /\ forall t u, In (t, u) (tagged (epoch_after 0 (firstn (l_sent g) (l_all g))) (skipn (l_sent g) (l_all g))) -> x <= t;
  i_idle : l_xe g = None -> l_disk g = l_sent g;
  i_q : l_quiesce g <> 0 -> l_quiesce g = l_epoch g /\ forall t u, In (t, u) (tagged 0 (l_all g)) -> t < l_quiesce g;
  i_qn : 0 <= l_quiesce g }.

Lemma small_bound l c : epochs_small l -> 0 <= c < 2 ^ 63 -> 0 <= epoch_after c l < 2 ^ 63.
Proof. intros. now apply epoch_after_small. Qed.

Lemma inv_tick ge g : inv ge g -> inv (ge + 1) g.
Proof.
  intros [H1 H2 H3 H4 H5 H6 H7 H8 H8' H9 H10]. constructor; auto; try lia.
  - intros e He. destruct (H3 e He) as (A & B & C & D & E). repeat split; auto; lia.
  - intros x Hx. destruct (H8 x Hx) as [A B]. split; auto. lia.
Qed.
Lemma inv_begin ge g g' : inv ge g -> 0 < ge -> lg_begin ge g = Some g' -> inv ge g'.
Proof.
  intros [H1 H2 H3 H4 H5 H6 H7 H8 H8' H9 H10] Hg E. unfold lg_begin in E. destruct (l_held g) eqn:Eh; [discriminate|]. injection E as <-.
  constructor; cbn [l_epoch l_quiesce l_wake l_flushed l_all l_sent l_disk l_xe l_held l_stalled]; auto.
  intros e He. injection He as <-. repeat split; try lia; intros x Hx; destruct (H8 x Hx); lia.
Qed.
Lemma inv_synced ge g g' : inv ge g -> lg_synced g = Some g' -> inv ge g'.
Proof.
  intros [H1 H2 H3 H4 H5 H6 H7 H8 H8' H9 H10] E. unfold lg_synced in E. destruct (l_xe g) as [x|] eqn:Ex; [|discriminate]. injection E as <-.
  destruct (H8 x eq_refl) as [Hx1 Hx2].
  constructor; cbn [l_epoch l_quiesce l_wake l_flushed l_all l_sent l_disk l_xe l_held l_stalled]; auto; try lia.
  - intros e He. destruct (H3 e He) as (A & B & C & D & F). repeat split; auto; try lia. intros ? [=].
  - intros ? [=].
Qed.

Lemma Forall_app_intro {A} (P : A -> Prop) a b : Forall P a -> Forall P b -> Forall P (a ++ b).
Proof. intros. apply Forall_app. auto. Qed.
Lemma epoch_after_upd c u : is_upd u -> epoch_after c [u] = c /\ tagged c [u] = [(c, u)] /\ (epochs_from c [u] <-> True) /\ (epochs_small [u] <-> True).
Proof. unfold is_upd. destruct u; cbn; intros H; try easy; repeat split; auto. Qed.

Lemma tail_app n (a b : list entry) : (n <= length a)%nat ->
  tagged (epoch_after 0 (firstn n (a ++ b))) (skipn n (a ++ b)) = tagged (epoch_after 0 (firstn n a)) (skipn n a) ++ tagged (epoch_after 0 a) b.
Proof.
  intros H. rewrite firstn_app, skipn_app. replace (n - length a)%nat with 0%nat by lia. rewrite firstn_O, app_nil_r, skipn_O, tagged_app. f_equal. f_equal.
  rewrite <- epoch_after_app, firstn_skipn. reflexivity.
Qed.
Lemma tail_end (a : list entry) n : n = length a -> tagged (epoch_after 0 (firstn n a)) (skipn n a) = [].
Proof. intros ->. now rewrite skipn_all. Qed.
Lemma log_ok_app a b : log_ok a -> Forall entry_ok b -> epochs_from (epoch_after 0 a) b -> epochs_small b ->
  (a = [] -> match b with EEpoch _ :: _ => True | _ => False end) -> log_ok (a ++ b).
Proof.
  intros (A & B & C & D) Hb He Hs Hst. repeat split; [now apply Forall_app_intro|now apply epochs_from_app|now apply epochs_small_app|].
  destruct a as [|x a]; [|exact D]. cbn. specialize (Hst eq_refl). destruct b as [|[]]; auto.
Qed.

(* What an update adds. *)
Definition adds (e le : Z) (wk : bool) (u : entry) : list entry := (if e =? le then [] else [EEpoch e]) ++ (if wk then [EWake] else []) ++ [u].
Lemma adds_ok e le wk u c : is_upd u -> entry_ok u -> 0 < e < 2 ^ 63 -> c <= e -> (e = le -> c = e) ->
  Forall entry_ok (adds e le wk u) /\ epochs_from c (adds e le wk u) /\ epochs_small (adds e le wk u) /\ epoch_after c (adds e le wk u) = e /\ tagged c (adds e le wk u) = [(e, u)].
Proof.
  intros Hu Ho He Hc Hle. unfold adds. pose proof (epoch_after_upd e u Hu) as (A & B & C & D).
  destruct (e =? le) eqn:E; [assert (c = e) by (apply Hle; lia); subst c|]; destruct wk; cbn [app epochs_from epochs_small epoch_after tagged update_key];
    (split; [repeat constructor; auto; cbn; lia|]); repeat split; auto; try tauto; try lia.
Qed.

Lemma inv_commit ge we u g g' we' : inv ge g -> ge < 2 ^ 63 -> is_upd u -> entry_ok u -> lg_commit we u g = Some (g', we') -> inv ge g'.
Proof.
  intros [H1 H2 H3 H4 H5 H6 H7 H8 H8' H9 H10] Hge Hu Ho E. unfold lg_commit in E. destruct (l_held g) as [e|] eqn:Eh; [|discriminate].
  destruct (H3 e eq_refl) as (A & B & C & D & F).
  set (we1 := if negb (l_quiesce g =? 0) && elt we e then e else we) in *.
  set (w := if negb (we1 =? l_wake g) && elt e we1 then e else we1) in *.
  assert (EA : l_all g ++ (if e =? l_epoch g then [] else [EEpoch e]) ++ (if w =? l_wake g then [] else [EWake]) ++ [u] = l_all g ++ adds e (l_epoch g) (negb (w =? l_wake g)) u).
  { unfold adds. destruct (w =? l_wake g); reflexivity. }
  rewrite EA in E. injection E as <- <-.
  destruct (adds_ok e (l_epoch g) (negb (w =? l_wake g)) u (epoch_after 0 (l_all g)) Hu Ho ltac:(lia) B ltac:(lia)) as (G1 & G2 & G3 & G4 & G5).
  constructor; cbn [l_epoch l_quiesce l_wake l_flushed l_all l_sent l_disk l_xe l_held l_stalled]; auto; try lia.
  - apply log_ok_app; auto. intros Hn. unfold adds. rewrite Hn in H2. cbn in H2. destruct (e =? l_epoch g) eqn:Ee; [lia|exact I].
  - rewrite epoch_after_app, G4. right. lia.
  - intros ? [=].
  - rewrite app_length. lia.
  - destruct (negb (l_quiesce g =? 0) && (l_flushed g =? l_quiesce g)); clear - A C H6; lia.
  - intros t v. rewrite tail_app by lia. rewrite G5. intros Hin. apply in_app_or in Hin. destruct Hin as [Hin|[[= <- <-]|[]]].
    + destruct (negb (l_quiesce g =? 0) && (l_flushed g =? l_quiesce g)) eqn:Eq; [|now apply H7 in Hin].
      exfalso. destruct (H9 ltac:(lia)) as [_ Hq]. assert (In (t, v) (tagged 0 (l_all g))) as Hin2.
      { rewrite <- (firstn_skipn (l_disk g) (l_all g)), tagged_app. apply in_or_app. auto. }
      apply Hq in Hin2. apply H7 in Hin. lia.
    + destruct (negb (l_quiesce g =? 0) && (l_flushed g =? l_quiesce g)); clear - A C D H6; lia.
  - intros x Hx. destruct (H8 x Hx) as [X1 X2]. split; auto. intros t v. rewrite tail_app by lia. rewrite G5. intros Hin. apply in_app_or in Hin. destruct Hin as [Hin|[[= <- <-]|[]]]; [now apply X2 in Hin|].
    now apply F.
Qed.

Lemma tags_le l t u : epochs_from 0 l -> In (t, u) (tagged 0 l) -> t <= epoch_after 0 l.
Proof. intros H Hin. destruct (tagged_le 0 l H) as [L _]. rewrite Forall_forall in L. now apply (L (t, u)). Qed.

Lemma inv_logger ge we g g' : inv ge g -> 0 < ge < 2 ^ 63 -> lg_logger ge we g = Some g' -> inv ge g'.
Proof.
  intros [H1 H2 H3 H4 H5 H6 H7 H8 H8' H9 H10] Hge E. unfold lg_logger in E. destruct (l_held g) eqn:Eh; [discriminate|]. destruct (l_xe g) eqn:Ex; [discriminate|].
  specialize (H8' eq_refl). set (q := if l_wake g =? we then l_quiesce g else 0) in *.
  assert (Hq : q <> 0 -> q = l_quiesce g) by (unfold q; destruct (l_wake g =? we); lia).
  rewrite H4 in E. rewrite andb_true_r in E.
  destruct ((l_sent g =? length (l_all g))%nat && (q =? 0) && negb (ge =? l_epoch g) && negb (ge =? we)) eqn:Ec.
  - replace (ge =? we) with false in E by lia. cbn [app] in E.
    set (all := l_all g ++ [EEpoch ge; EQuiesce]) in *.
    assert (La : (length all = length (l_all g) + 2)%nat) by (unfold all; rewrite app_length; reflexivity).
    assert (Sl : l_sent g = length (l_all g)) by (apply Nat.eqb_eq; destruct (l_sent g =? length (l_all g))%nat; [reflexivity|discriminate]).
    replace (l_sent g <? length all)%nat with true in E by (symmetry; apply Nat.ltb_lt; lia). injection E as <-.
    assert (Lt : epoch_after 0 (l_all g) < ge) by lia.
    assert (EA : epoch_after 0 all = ge) by (unfold all; rewrite epoch_after_app; reflexivity).
    assert (TA : tagged 0 all = tagged 0 (l_all g)) by (unfold all; rewrite tagged_app; cbn; apply app_nil_r).
    constructor; cbn [l_epoch l_quiesce l_wake l_flushed l_all l_sent l_disk l_xe l_held l_stalled]; auto; try lia; try discriminate.
    + apply log_ok_app; auto; [repeat constructor; cbn; lia|cbn; lia|cbn; lia].
    + unfold all. intros t u. rewrite tail_app by lia. cbn [tagged update_key app]. rewrite app_nil_r. apply H7.
    + intros x [= <-]. split; [lia|]. intros t u. rewrite tail_end by auto. intros [].
    + intros _. split; auto. intros t u. rewrite TA. intros Hin. apply tags_le in Hin; [lia|apply H1].
  - destruct (l_sent g <? length (l_all g))%nat eqn:El; injection E as <-.
    + apply Nat.ltb_lt in El. constructor; cbn [l_epoch l_quiesce l_wake l_flushed l_all l_sent l_disk l_xe l_held l_stalled]; auto; try lia; try discriminate.
      * intros x [= <-]. split; [lia|]. intros t u. rewrite tail_end by auto. intros [].
      * intros Hn. rewrite (Hq Hn). apply H9. rewrite <- (Hq Hn). auto.
    + constructor; cbn [l_epoch l_quiesce l_wake l_flushed l_all l_sent l_disk l_xe l_held l_stalled]; auto; try lia; try discriminate.
      * intros Hn. rewrite (Hq Hn). apply H9. rewrite <- (Hq Hn). auto.
Qed.

Lemma set_log_Forall (P : lg -> Prop) i g l : Forall P l -> P g -> Forall P (set_log i g l).
Proof. intros H Hg. revert i. induction H as [|x l Hx Hl IH]; intros [|i]; cbn [set_log]; constructor; auto. Qed.
Lemma on_log_inv ge i f s s' : Forall (inv ge) (s_logs s) -> (forall g g', inv ge g -> f g = Some g' -> inv ge g') -> on_log i f s = Some s' ->
  Forall (inv ge) (s_logs s') /\ s_epoch s' = s_epoch s.
Proof.
  intros H Hf E. unfold on_log in E. destruct (nth_error (s_logs s) i) as [g|] eqn:En; [|discriminate]. destruct (f g) as [g'|] eqn:Ef; [|discriminate]. injection E as <-. cbn [s_logs s_epoch].
  split; auto. apply set_log_Forall; auto. apply (Hf g); auto. rewrite Forall_forall in H. apply H. now apply nth_error_In in En.
Qed.
Lemma next_small e : 0 < e -> e + 1 < 2 ^ 63 -> ci_next_nonzero 64 e = e + 1.
Proof.
  intros H1 H2. unfold ci_next_nonzero, ci_wrap. assert (E : (e + 1) mod 2 ^ 64 = e + 1) by (apply Z.mod_small; lia). rewrite !E. replace (e + 1 =? 0) with false by lia. rewrite ?Z.add_0_r. auto.
Qed.

Lemma step_inv s a s' : Forall (inv (s_epoch s)) (s_logs s) -> 0 < s_epoch s -> s_epoch s + 1 < 2 ^ 63 -> (forall i, a <> Stall i) ->
  (forall i u, a = Commit i u -> is_upd u /\ entry_ok u) -> ls_step s a = Some s' ->
  Forall (inv (s_epoch s')) (s_logs s') /\ s_epoch s <= s_epoch s' <= s_epoch s + 1.
Proof.
  intros H Hg1 Hg2 Hns Hu E. destruct a as [|i|i|i|i u|i|i]; cbn [ls_step] in E.
  - injection E as <-. unfold ls_tick. cbn [s_logs s_epoch]. rewrite next_small by lia. split; [|lia]. apply Forall_impl with (2 := H). intros g. apply inv_tick.
  - destruct (on_log_inv _ _ _ _ _ H (fun g g' Hi => inv_begin _ g g' Hi Hg1) E) as [A ->]. split; auto. lia.
  - now destruct (Hns i).
  - assert (F : forall g g', inv (s_epoch s) g -> lg_resume g = Some g' -> inv (s_epoch s) g').
    { intros g g' Hi Hr. unfold lg_resume in Hr. rewrite (i_stall _ _ Hi) in Hr. destruct (l_held g); discriminate. }
    destruct (on_log_inv _ _ _ _ _ H F E) as [A ->]. split; auto. lia.
  - destruct (nth_error (s_logs s) i) as [g|] eqn:En; [|discriminate]. destruct (lg_commit (s_wake s) u g) as [[g' we']|] eqn:Ef; [|discriminate]. injection E as <-. cbn [s_logs s_epoch]. split; [|lia].
    destruct (Hu i u eq_refl). apply set_log_Forall; auto. exact (inv_commit _ _ _ _ _ _ (proj1 (Forall_forall _ _) H g (nth_error_In _ _ En)) ltac:(lia) H0 H1 Ef).
  - destruct (on_log_inv _ _ _ _ _ H (fun g g' Hi => inv_logger _ _ g g' Hi ltac:(lia)) E) as [A ->]. split; auto. lia.
  - destruct (on_log_inv _ _ _ _ _ H (fun g g' Hi => inv_synced _ g g' Hi) E) as [A ->]. split; auto. lia.
Qed.
Lemma run_inv l : forall s s', Forall (inv (s_epoch s)) (s_logs s) -> 0 < s_epoch s -> s_epoch s + len l < 2 ^ 63 -> no_stalls l -> updates_ok l -> ls_run s l = Some s' ->
  Forall (inv (s_epoch s')) (s_logs s') /\ 0 < s_epoch s' < 2 ^ 63.
Proof.
  induction l as [|a l IH]; intros s s' H Hg1 Hg2 Hns Hu E; cbn [ls_run] in E.
  - injection E as <-. split; auto. unfold len in Hg2. cbn in Hg2. lia.
  - destruct (ls_step s a) as [s1|] eqn:Es; [|discriminate]. unfold len in *. cbn [length] in Hg2.
    destruct (step_inv s a s1 H Hg1 ltac:(lia)) as [A B]; auto.
    { intros i ->. apply (Hns i). now left. } { intros i u ->. apply (Hu i u). now left. }
    apply (IH s1 s'); auto; try lia; [intros i Hi; apply (Hns i); now right|intros i u Hi; apply (Hu i u); now right].
Qed.
Lemma init_inv epoch old : old_ok epoch old -> Forall (inv (s_epoch (ls_init epoch old))) (s_logs (ls_init epoch old)).
Proof.
  intros [H0 H]. cbn [ls_init s_epoch s_logs]. apply Forall_map. apply Forall_impl with (2 := H). intros l [Hl He].
  unfold lg_init. constructor; cbn [l_epoch l_quiesce l_wake l_flushed l_all l_sent l_disk l_xe l_held l_stalled]; auto; try lia; try discriminate.
  intros t u. rewrite tail_end by auto. intros [].
Qed.
Lemma reach_inv epoch old l s : old_ok epoch old -> epoch + len l < 2 ^ 63 -> no_stalls l -> updates_ok l -> ls_run (ls_init epoch old) l = Some s ->
  Forall (inv (s_epoch s)) (s_logs s) /\ 0 < s_epoch s < 2 ^ 63.
Proof. intros H1 H2 H3 H4 H5. apply (run_inv l _ _ (init_inv epoch old H1)); auto. apply H1. Qed.

(* Durability of each log. *)
Lemma flushed_ok epoch old l s i g : old_ok epoch old -> epoch + len l < 2 ^ 63 -> no_stalls l -> updates_ok l -> ls_run (ls_init epoch old) l = Some s ->
  nth_error (s_logs s) i = Some g ->
  exists rest, tagged 0 (l_all g) = tagged 0 (firstn (l_disk g) (l_all g)) ++ rest /\ (forall t u, In (t, u) rest -> l_flushed g <= t) /\ (lg_quiescent g = true -> rest = []).
Proof.
  intros H1 H2 H3 H4 H5 H6. destruct (reach_inv _ _ _ _ H1 H2 H3 H4 H5) as [H _]. rewrite Forall_forall in H. specialize (H g (nth_error_In _ _ H6)).
  exists (tagged (epoch_after 0 (firstn (l_disk g) (l_all g))) (skipn (l_disk g) (l_all g))). split; [|split].
  - rewrite <- tagged_app, firstn_skipn. reflexivity.
  - apply (i_disk _ _ H).
  - unfold lg_quiescent. intros Hq. destruct (i_q _ _ H ltac:(lia)) as [_ Q]. 
    destruct (tagged (epoch_after 0 (firstn (l_disk g) (l_all g))) (skipn (l_disk g) (l_all g))) as [|[t u] r] eqn:E; auto. exfalso.
    pose proof (i_disk _ _ H t u) as D. rewrite E in D. specialize (D (or_introl eq_refl)). 
    assert (In (t, u) (tagged 0 (l_all g))) as Hin. { rewrite <- (firstn_skipn (l_disk g) (l_all g)), tagged_app, E. apply in_or_app. right. now left. }
    apply Q in Hin. lia.
Qed.
