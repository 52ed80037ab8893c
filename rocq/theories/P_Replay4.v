(* Replay of whole tables. *)
From Coq Require Import Permutation.
From Verif Require Import Lib M_Key P_Key M_Msgpack Spec_Msgpack P_Msgpack5 M_Bag M_Log Spec_Log Spec_Row M_Array M_Rowrun P_Row P_Bag1 P_Bag2 P_Bag3 Spec_Replay M_Replay P_Replay1 P_Replay2 P_Replay3.

Lemma logged_keys k h es : logged k h es -> Forall (fun e => update_key e = Some k /\ rec_of e = Some (rc e)) es.
Proof.
  revert es. induction h as [|[o ts] h IH]; intros es L.
  - destruct es; [constructor|destruct L].
  - destruct (logged_cons _ _ _ _ _ L) as (e & es' & -> & L' & K & R & _). constructor; auto.
Qed.
Lemma logged_split k newer older es eso : logged k (newer ++ older) (es ++ eso) -> length es = length newer -> logged k older eso.
Proof.
  revert es. induction newer as [|[o ts] n IH]; intros es L Hl; destruct es as [|e es]; try discriminate; auto. cbn [app] in L. destruct (logged_cons _ _ _ _ _ L) as (e' & es' & E & L' & _). injection E as <- <-. apply (IH es); auto.
Qed.
Lemma older_stamps k h es : stamped h -> logged k h es -> Forall (fun e => r_ts (rc e) <= last_stamp h) es.
Proof.
  revert es. induction h as [|[o ts] h IH]; intros es S L.
  - destruct es; [constructor|destruct L].
  - destruct (logged_cons _ _ _ _ _ L) as (e & es' & -> & L' & K & R & T & _). cbn [stamped last_stamp] in *. destruct S as (A & B & S). constructor; [lia|]. eapply Forall_impl; [|exact (IH _ S L')]. cbn; intros; lia.
Qed.
Lemma valid_nodup b0 h : valid b0 h -> NoDup (map r_ts h).
Proof.
  induction h as [|r h IH]; cbn [valid map]; [constructor|]. intros (_ & _ & _ & Hl & _ & _ & V). constructor; auto. intros Hin. apply in_map_iff in Hin. destruct Hin as (r' & E & Hr'). rewrite Forall_forall in Hl. specialize (Hl r' Hr'). lia.
Qed.
Lemma filter_none {A} (f : A -> bool) l : Forall (fun x => f x = false) l -> filter f l = [].
Proof. induction 1 as [|x l H _ IH]; cbn; auto. now rewrite H. Qed.
Lemma filter_every {A} (f : A -> bool) l : Forall (fun x => f x = true) l -> filter f l = l.
Proof. induction 1 as [|x l H _ IH]; cbn; auto. now rewrite H, IH. Qed.
Lemma Permutation_filter' {A} (f : A -> bool) l l' : Permutation l l' -> Permutation (filter f l) (filter f l').
Proof.
  induction 1 as [|x l l' _ IH|x y l|l1 l2 l3 _ IH1 _ IH2]; cbn; auto.
  - destruct (f x); auto.
  - destruct (f x), (f y); auto. constructor.
  - now apply (perm_trans IH1).
Qed.

Lemma run_key k older newer es eso stale l c0 : start c0 older -> hist_ok (newer ++ older) -> logged k (newer ++ older) (es ++ eso) -> length es = length newer -> Forall marker_fits es ->
  incl stale eso -> Permutation l (es ++ stale) -> exists c, run_recs (map rc l) c0 = Some c /\ start c (newer ++ older).
Proof.
  intros St H L Hl Hm Hi HP. destruct (recs_canon k older c0 St newer es eso H L Hl Hm) as (V & D & C1 & C2 & (c & C3 & C4)).
  assert (So : hist_ok older). { clear - H. induction newer as [|x n IH]; auto. apply IH. exact (hist_tail _ _ H). }
  pose proof (stamps_desc k older (proj2 (proj2 So)) newer es eso (proj2 (proj2 H)) L Hl) as Sd.
  pose proof (older_stamps k older eso (proj2 (proj2 So)) (logged_split _ _ _ _ _ L Hl)) as Os.
  assert (Fe : Forall (fun r => fresh (last_stamp older) r = true) (map rc es)). { apply Forall_map. eapply Forall_impl; [|exact Sd]. cbn. unfold fresh. intros; lia. }
  assert (Fs : Forall (fun r => fresh (last_stamp older) r = false) (map rc stale)). { apply Forall_map. rewrite Forall_forall in Os |- *. intros e He. specialize (Os e (Hi e He)). unfold fresh. lia. }
  assert (Pf : Permutation (filter (fresh (last_stamp older)) (map rc l)) (map rc es)).
  { rewrite (Permutation_filter' _ _ _ (Permutation_map rc HP)), map_app, filter_app, (filter_every _ _ Fe), (filter_none _ _ Fs), app_nil_r. reflexivity. }
  destruct (run_any (last_stamp older) c0 (map rc es) V (start_base _ _ So St) D (map rc l) (fun _ => false) c0) as (c' & R & Cn).
  - intros r Hr. apply (Permutation_in _ (Permutation_map rc HP)) in Hr. rewrite map_app in Hr. apply in_app_or in Hr. destruct Hr as [Hr|Hr].
    + rewrite Forall_forall in Fe. rewrite (Fe r Hr). auto.
    + rewrite Forall_forall in Fs. rewrite (Fs r Hr). apply in_map_iff in Hr. destruct Hr as (e & _ & He). apply Hi in He. destruct older as [|o older]. { pose proof (logged_split _ _ _ _ _ L Hl) as L0. destruct eso; [destruct He|destruct L0]. }
      cbn [start] in St. destruct St as (b & B & ->). destruct (hist_run _ So) as (b' & B1 & B2). rewrite B in B1. injection B1 as <-. exists b. auto.
  - eapply Permutation_NoDup; [apply Permutation_map, Permutation_sym, Pf|]. exact (valid_nodup _ _ V).
  - clear. induction (map rc es); cbn [canon]; auto.
  - exists c'. split; auto. rewrite (canon_ext _ (fun _ => true)) in Cn.
    + rewrite C3 in Cn. injection Cn as <-. exact C4.
    + intros r Hr. apply orb_true_iff. left. apply existsb_exists. exists r. split; [|lia]. apply (Permutation_in _ (Permutation_sym Pf)). exact Hr.
Qed.

(* Tables. *)
Lemma run_entries_keys l : forall t (f : list Z -> chain), Forall (fun e => update_key e <> None) l ->
  (forall k, run_recs (map rc (of_key k l)) (t k) = Some (f k)) -> exists t', run_entries t l = Some t' /\ forall k, t' k = f k.
Proof.
  induction l as [|e l IH]; intros t f Hu H.
  - exists t. split; auto. intros k. specialize (H k). cbn in H. now injection H.
  - inversion Hu as [|? ? U1 U2]; subst. cbn [run_entries]. destruct (update_key e) as [k0|] eqn:K; [|now destruct U1].
    assert (R : rec_of e = Some (rc e)) by (destruct e; cbn in K; try discriminate; reflexivity). unfold run_entry. rewrite K, R.
    pose proof (H k0) as H0. unfold of_key in H0. cbn [filter] in H0. rewrite K in H0. destruct (list_eq_dec Z.eq_dec k0 k0) as [_|]; [|easy]. cbn [map run_recs] in H0.
    destruct (apply (rc e) (t k0)) as [c1|] eqn:A; [|discriminate]. apply IH; auto. intros k. unfold rt_set. destruct (list_eq_dec Z.eq_dec k k0) as [->|N].
    + exact H0.
    + specialize (H k). unfold of_key in H. cbn [filter] in H. rewrite K in H. destruct (list_eq_dec Z.eq_dec k0 k) as [->|_]; [easy|]. exact H.
Qed.

(* What a reader finds after replay. *)
Lemma get_start t k h : start (t k) h -> hist_ok h -> forall col, 0 <= col < 2 ^ 31 ->
  rt_get t k col = Some (match h with [] => None | _ => Some (last_written (map fst h) col) end).
Proof.
  intros S H col Hc. unfold rt_get. unfold start in S. destruct h as [|o h]; [now rewrite S|]. destruct S as (b & B & ->). destruct H as (A & F & St).
  destruct (bag_history (o :: h) A F) as (b' & E1 & E2 & _ & E3). rewrite B in E1. injection E1 as <-. change (newest (o :: h)) with (last_stamp (o :: h)) in E2. rewrite E2. destruct (last_range _ St) as [_ ->]. now rewrite (E3 col Hc).
Qed.
Lemma replay_any (older newer : list Z -> list (rop * Z)) (t0 : rtable) (l : list entry) :
  Forall (fun e => update_key e <> None) l -> (forall k, start (t0 k) (older k)) -> (forall k, hist_ok (newer k ++ older k)) ->
  (forall k, exists es eso stale, logged k (newer k ++ older k) (es ++ eso) /\ length es = length (newer k) /\ Forall marker_fits es /\ incl stale eso /\ Permutation (of_key k l) (es ++ stale)) ->
  exists t, run_entries t0 l = Some t /\ (forall k, start (t k) (newer k ++ older k)) /\
  forall k col, 0 <= col < 2 ^ 31 -> rt_get t k col = Some (match newer k ++ older k with [] => None | _ => Some (last_written (map fst (newer k ++ older k)) col) end).
Proof.
  intros Hu St H L.
  assert (E : forall k, exists c, run_recs (map rc (of_key k l)) (t0 k) = Some c /\ start c (newer k ++ older k)).
  { intros k. destruct (L k) as (es & eso & stale & A & B & C & D & F). exact (run_key k _ _ es eso stale _ _ (St k) (H k) A B C D F). }
  destruct (run_entries_keys l t0 (fun k => match run_recs (map rc (of_key k l)) (t0 k) with Some c => c | None => CNil end) Hu) as (t & R & Ht).
  { intros k. destruct (E k) as (c & -> & _). reflexivity. }
  assert (S : forall k, start (t k) (newer k ++ older k)). { intros k. rewrite Ht. destruct (E k) as (c & -> & Sc). exact Sc. }
  exists t. split; auto. split; auto. intros k col Hc. apply get_start; auto.
Qed.

(* Removals. *)
Definition under (ts : Z) (c : chain) : Prop := match c with CNil => True | CRow b => even_ts b /\ bag_timestamp b <= ts | CDelta b _ c' => bag_timestamp b <= ts /\ evs c' end.
Lemma remove_fails k v ts t : Z.even ts = true -> under ts (t k) -> run_entry t (ERemove k v ts) = None.
Proof.
  intros Ht Hu. unfold run_entry, update_key, rec_of. rewrite odd_lor by (now rewrite <- Z.negb_even, Ht). unfold apply.
  assert (A : act_here (MkRr KPut (le_bytes 4 1) (ts + 1)) (t k) = None).
  { unfold act_here. cbn [r_ts r_cmd r_val]. assert (P : parse_changeset (le_bytes 4 1) = None) by reflexivity. rewrite P. destruct (t k) as [|b|b p c]; cbn [chain_ts under] in *; [reflexivity| |]; replace (ts + 1 <=? bag_timestamp b) with false by lia; reflexivity. }
  destruct (t k) as [|b|b p c]; unfold place; fold place; cbn [under] in Hu.
  - cbn [is_delta]. now rewrite A.
  - rewrite is_delta_ev by apply Hu. now rewrite A.
  - cbn [is_delta]. cbn [r_ts]. replace (ts + 1 <? bag_timestamp b) with false by lia. now rewrite A.
Qed.
