(* Shared leaf: the lock holder's programs, one by one. *)
From Verif Require Import Lib M_Key M_Permuter P_Permuter P_Permuter2 M_Search P_Search M_Version P_Version P_Version2 M_Tree M_Leafread Spec_Leafread P_Leafread1 P_Leafread2 P_Leafread3.
From Coq Require Import Permutation.

Local Opaque perm_get perm_size perm_insert_from_back perm_remove perm_exchange perm_set_size perm_back.
Lemma upd_same' {A} (f : nat -> A) p v : upd f p v p = v. Proof. unfold upd. now rewrite Nat.eqb_refl. Qed.
Lemma upd_other' {A} (f : nat -> A) p v q : q <> p -> upd f p v q = f q.
Proof. unfold upd. intros H. destruct (Nat.eqb_spec q p); congruence. Qed.
Lemma upd2_other {A} (f : nat -> nat -> A) b p v b' q : q <> p -> upd2 f b p v b' q = f b' q.
Proof. unfold upd2. intros H. destruct (Nat.eqb_spec q p); [congruence|]. now rewrite andb_false_r. Qed.

(* Slots other than p. *)
Record slots (p : nat) (m m' : lmem) : Prop := {
  sl_bag : m_bag m' = m_bag m;
  sl_ik : forall q, q <> p -> m_ikey m' q = m_ikey m q;
  sl_kl : forall q, q <> p -> m_klx m' q = m_klx m q;
  sl_len : forall b q, q <> p -> m_slen m' b q = m_slen m b q;
  sl_byte : forall b q, q <> p -> m_sbyte m' b q = m_sbyte m b q }.
Record frame (p : nat) (m m' : lmem) : Prop := {
  fr_v : m_v m' = m_v m; fr_perm : m_perm m' = m_perm m; fr_mod : m_mod m' = m_mod m; fr_nbag : m_nbag m' = m_nbag m;
  fr_lv : forall q, q <> p -> m_lv m' q = m_lv m q; fr_slots : slots p m m' }.
Lemma slots_refl p m : slots p m m. Proof. constructor; auto. Qed.
Lemma slots_trans p a b c : slots p a b -> slots p b c -> slots p a c.
Proof. intros [A1 A2 A3 A4 A5] [B1 B2 B3 B4 B5]. constructor; intros; try congruence; [rewrite B2, A2|rewrite B3, A3|rewrite B4, A4|rewrite B5, A5]; auto. Qed.
Lemma frame_refl p m : frame p m m. Proof. constructor; auto. apply slots_refl. Qed.
Lemma frame_trans p a b c : frame p a b -> frame p b c -> frame p a c.
Proof.
  intros [A1 A2 A3 A4 A5 A6] [B1 B2 B3 B4 B5 B6]. constructor; try congruence.
  - intros q H. rewrite B5, A5; auto.
  - exact (slots_trans _ _ _ _ A6 B6).
Qed.
Lemma slots_frag p m m' q : slots p m m' -> q <> p -> frag_of m' q = frag_of m q.
Proof.
  intros [A1 A2 A3 A4 A5] H. unfold frag_of, suffix_of. rewrite A1, A2, A3, A4, A5 by exact H. reflexivity.
Qed.
Lemma live_ne x p q : ~ livex x p -> livex x q -> q <> p. Proof. intros A B E. subst. contradiction. Qed.
Lemma frame_ok p m m' : WFm m -> m_mod m = MsInsert -> ~ livex (m_perm m) p -> frame p m m' -> relyc m m' /\ WFm m'.
Proof.
  intros V M D [F1 F2 F3 F4 F5 F6]. split.
  - constructor.
    + intros q [L|L]; [|congruence]. pose proof (live_ne _ _ _ D L) as N. split.
      * split; [symmetry; apply (sl_ik _ _ _ F6); exact N|]. split; [symmetry; apply (sl_kl _ _ _ F6); exact N|]. symmetry. exact (slots_frag _ _ _ _ F6 N).
      * intros b _. split; [apply (sl_len _ _ _ F6)|apply (sl_byte _ _ _ F6)]; exact N.
    + intros _. split; [exact M|]. rewrite F2. auto.
    + intros E. congruence.
    + intros q. destruct (Nat.eq_dec q p) as [->|N]; [right; right; auto|left; auto].
    + lia.
  - destruct V as [V1 V2 V3 V4]. constructor.
    + now rewrite F2.
    + rewrite F2. intros i j H. pose proof (V2 i j H) as E. rewrite !(sl_ik _ _ _ F6), !(sl_kl _ _ _ F6); [exact E| | | |];
        apply (live_ne (m_perm m)); auto; eexists; (split; [|reflexivity]); lia.
    + rewrite F2. intros q L. rewrite (sl_kl _ _ _ F6) by (apply (live_ne (m_perm m)); auto). auto.
    + rewrite (sl_bag _ _ _ F6), F4. exact V4.
Qed.

Definition priv (p : nat) (o : wop) : Prop :=
  match o with WLv q _ | WIk q _ | WKl q _ | WByte q _ _ | WLen q _ => q = p | _ => False end.
Lemma priv_frame p o m : priv p o -> frame p m (wapply o m).
Proof.
  destruct o; cbn; intros H; try contradiction; subst; constructor; cbn; auto; try (intros; now apply upd_other');
    try apply slots_refl; constructor; cbn; auto; intros; try (now apply upd_other'); now apply upd2_other.
Qed.
Lemma privs_ok p l : Forall (priv p) l -> forall m, WFm m -> m_mod m = MsInsert -> ~ livex (m_perm m) p ->
  okp m l /\ frame p m (runw l m) /\ WFm (runw l m).
Proof.
  induction 1 as [|o l H _ IH]; intros m V M D.
  - cbn. split; [exact I|]. split; [apply frame_refl|exact V].
  - pose proof (priv_frame p o m H) as F. destruct (frame_ok p m _ V M D F) as [R V'].
    destruct (IH (wapply o m) V') as (A & B & C).
    + rewrite (fr_mod _ _ _ F). exact M.
    + rewrite (fr_perm _ _ _ F). exact D.
    + cbn [okp runw fold_left]. split; [|split].
      * split; [intros _ _; exact R|]. split; [exact V'|exact A].
      * exact (frame_trans _ _ _ _ F B).
      * exact C.
Qed.

(* A new container. *)
Definition bag_len (m0 : lmem) (x : Z) (p : nat) (s : list Z) (q : nat) : nat :=
  if (q =? p)%nat then length s else if is_live x q && (m_klx m0 q =? 64) then m_slen m0 (m_bag m0) q else 0%nat.
Definition bag_byte (m0 : lmem) (x : Z) (p : nat) (s : list Z) (q : nat) : nat -> Z :=
  if (q =? p)%nat then fun j => nth j s 0 else if is_live x q && (m_klx m0 q =? 64) then m_sbyte m0 (m_bag m0) q else fun _ => 0.
Lemma bag_ok m0 m p s : WFm m -> m_mod m = MsInsert -> ~ livex (m_perm m) p -> slots p m0 m ->
  let m' := wapply (WBag (bag_len m0 (m_perm m) p s) (bag_byte m0 (m_perm m) p s)) m in relyc m m' /\ WFm m'.
Proof.
  intros V M D F m'. split.
  - constructor; unfold m'; cbn [wapply m_perm m_mod m_lv m_nbag m_ikey m_klx m_slen m_sbyte m_bag].
    + intros q [L|L]; [|congruence]. pose proof (live_ne _ _ _ D L) as N. split.
      * split; [reflexivity|]. split; [reflexivity|]. unfold frag_of, suffix_of. cbn [wapply m_ikey m_klx m_slen m_sbyte m_bag].
        destruct (m_klx m q =? 128); [reflexivity|]. destruct (Z.eqb_spec (m_klx m q) 64) as [K|]; [|reflexivity].
        rewrite !upd_same'. unfold bag_len, bag_byte. destruct (Nat.eqb_spec q p); [contradiction|].
        rewrite (proj2 (is_live_spec _ _) L). rewrite <- (sl_kl _ _ _ F q N), K. cbn [Z.eqb andb Pos.eqb].
        rewrite (sl_bag _ _ _ F), <- (sl_len _ _ _ F _ q N), <- (sl_byte _ _ _ F _ q N). reflexivity.
      * intros b Hb. rewrite !upd_other' by lia. auto.
    + auto.
    + intros E. congruence.
    + auto.
    + lia.
  - destruct V as [V1 V2 V3 V4]. unfold m'. constructor; cbn [wapply m_perm m_mod m_lv m_nbag m_ikey m_klx m_slen m_sbyte m_bag]; auto.
Qed.

(* Permutation stores. *)
Lemma perm_agree_ok m y : WFm m -> m_mod m = MsInsert -> agree (m_perm m) y -> perm_ok W y -> relyc m (wapply (WPerm y) m) /\ WFm (wapply (WPerm y) m).
Proof.
  intros V M A P. split.
  - constructor; cbn [wapply m_perm m_mod m_lv m_nbag m_ikey m_klx m_slen m_sbyte m_bag]; auto.
    + intros q _. split; [repeat split|auto].
    + intros _. split; [exact M|]. intros q. exact (proj1 (agree_live _ _ q A)).
    + intros E. congruence.
  - destruct V as [V1 V2 V3 V4]. constructor; cbn; auto.
    + exact (agree_sorted _ _ _ _ A V2).
    + intros q L. apply V3. exact (proj2 (agree_live _ _ q A) L).
Qed.
Lemma cmp_pos m k p : cmpk m k p > 0 -> entry_lt (m_ikey m p, m_klx m p) (k_ikey k, k_len k).
Proof.
  intros H. unfold cmpk in H. destruct (entry_total (k_ikey k, k_len k) (m_ikey m p, m_klx m p)) as [E|[E|E]]; [| |exact E].
  - apply key_compare_lt in E. lia.
  - cbn [fst snd] in E. apply key_compare_eq in E. lia.
Qed.
Lemma cmp_neg m k p : cmpk m k p < 0 -> entry_lt (k_ikey k, k_len k) (m_ikey m p, m_klx m p).
Proof. intros H. now apply key_compare_lt. Qed.
Lemma perm_insert_ok m k i : WFm m -> m_mod m = MsInsert -> (perm_size (m_perm m) < W)%nat -> (i <= perm_size (m_perm m))%nat ->
  let p := perm_back W (m_perm m) in
  m_ikey m p = k_ikey k -> lenclass (m_klx m p) = lenclass (k_len k) -> 0 <= m_klx m p <= 8 \/ m_klx m p = 64 \/ m_klx m p = 128 ->
  below m k (m_perm m) i -> above m k (m_perm m) i ->
  let m' := wapply (WPerm (perm_insert_from_back W (m_perm m) i)) m in relyc m m' /\ WFm m'.
Proof.
  intros V M Hs Hi p E1 E2 E3 B A m'. pose proof (wf_perm _ V) as P.
  pose proof (fun q => ifb_live (m_perm m) i q P Hs Hi) as L. split.
  - constructor; unfold m'; cbn [wapply m_perm m_mod m_lv m_nbag m_ikey m_klx m_slen m_sbyte m_bag]; auto.
    + intros q _. split; [repeat split|auto].
    + intros _. split; [exact M|]. intros q H. apply L. now right.
    + intros E. congruence.
  - destruct V as [V1 V2 V3 V4]. unfold m'. constructor; cbn [wapply m_perm m_mod m_lv m_nbag m_ikey m_klx m_slen m_sbyte m_bag]; auto.
    + apply (ok_insert_from_back W W_range); auto. lia.
    + apply (ifb_sorted (m_perm m) i _ _ (k_ikey k) (k_len k)); auto.
      * intros j Hj. apply cmp_pos, B, Hj.
      * intros j Hj. apply cmp_neg, A, Hj.
    + intros q H. apply L in H. destruct H as [->|H]; [exact E3|auto].
Qed.

(* ---- whole programs ---- *)
Definition keeps_ik (o : wop) : Prop := match o with WIk _ _ => False | _ => True end.
Definition keeps_kl (o : wop) : Prop := match o with WKl _ _ => False | _ => True end.
Lemma runw_ik l : Forall keeps_ik l -> forall m, m_ikey (runw l m) = m_ikey m.
Proof. induction 1 as [|o l H _ IH]; intros m; [reflexivity|]. cbn [runw fold_left]. fold (runw l (wapply o m)). rewrite IH. destruct o; cbn in *; auto; contradiction. Qed.
Lemma runw_kl l : Forall keeps_kl l -> forall m, m_klx (runw l m) = m_klx m.
Proof. induction 1 as [|o l H _ IH]; intros m; [reflexivity|]. cbn [runw fold_left]. fold (runw l (wapply o m)). rewrite IH. destruct o; cbn in *; auto; contradiction. Qed.
Lemma runw_app a b m : runw (a ++ b) m = runw b (runw a m). Proof. apply fold_left_app. Qed.
Lemma below_eq m m' k x i : (forall j, (j < i)%nat -> m_ikey m' (perm_get x j) = m_ikey m (perm_get x j) /\ m_klx m' (perm_get x j) = m_klx m (perm_get x j)) ->
  below m k x i -> below m' k x i.
Proof. intros H B j Hj. unfold cmpk. destruct (H j Hj) as [-> ->]. apply B, Hj. Qed.
Lemma above_eq m m' k x i : (forall j, (j < perm_size x)%nat -> m_ikey m' (perm_get x j) = m_ikey m (perm_get x j) /\ m_klx m' (perm_get x j) = m_klx m (perm_get x j)) ->
  above m k x i -> above m' k x i.
Proof. intros H B j Hj. unfold cmpk. destruct (H j (proj2 Hj)) as [-> ->]. apply B, Hj. Qed.

(* What assign leaves behind. *)
Record assigned (p : nat) (k : mkey) (m m' : lmem) : Prop := {
  as_wf : WFm m'; as_perm : m_perm m' = m_perm m; as_mod : m_mod m' = m_mod m; as_v : m_v m' = m_v m;
  as_ik : forall q, q <> p -> m_ikey m' q = m_ikey m q; as_kl : forall q, q <> p -> m_klx m' q = m_klx m q;
  as_ikp : m_ikey m' p = k_ikey k; as_klp : m_klx m' p = if key_has_suffix k then 64 else k_len k }.
Lemma bytes_priv p s : Forall (priv p) (bytes_prog p s) /\ Forall keeps_ik (bytes_prog p s) /\ Forall keeps_kl (bytes_prog p s).
Proof.
  unfold bytes_prog. rewrite !Forall_app, !Forall_map.
  repeat match goal with |- _ /\ _ => split end; try (repeat constructor; fail); apply Forall_forall; cbn; auto.
Qed.
Lemma lvs_priv p vals : Forall (priv p) (map (WLv p) vals) /\ Forall keeps_ik (map (WLv p) vals) /\ Forall keeps_kl (map (WLv p) vals).
Proof. rewrite !Forall_map. repeat match goal with |- _ /\ _ => split end; apply Forall_forall; cbn; auto. Qed.
Lemma frame_assigned p k m m' : WFm m' -> frame p m m' -> m_ikey m' p = k_ikey k -> m_klx m' p = (if key_has_suffix k then 64 else k_len k) -> assigned p k m m'.
Proof. intros V [F1 F2 F3 F4 F5 [S1 S2 S3 S4 S5]] A B. constructor; auto. Qed.
Lemma assign_ok m0 m p k inplace : WFm m -> m_mod m = MsInsert -> ~ livex (m_perm m) p -> slots p m0 m ->
  okp m (assign_prog m0 (m_perm m) p k inplace) /\ assigned p k m (runw (assign_prog m0 (m_perm m) p k inplace) m).
Proof.
  intros V M D F. unfold assign_prog, ksuf_prog. destruct (key_has_suffix k) eqn:K; [destruct inplace|].
  - destruct (bytes_priv p (key_suffix k)) as (B1 & B2 & B3).
    set (l := [WLv p 0; WIk p (k_ikey k)] ++ WKl p 64 :: bytes_prog p (key_suffix k)).
    destruct (privs_ok p l) with (m := m) as (A & B & C); auto.
    { unfold l. cbn [app]. repeat (constructor; [reflexivity|]). exact B1. }
    split; [exact A|]. apply frame_assigned; auto; unfold l; cbn [app runw fold_left].
    + rewrite (runw_ik _ B2). cbn. apply upd_same'.
    + rewrite (runw_kl _ B3), K. cbn. apply upd_same'.
  - set (l := [WLv p 0; WIk p (k_ikey k); WKl p 64]).
    fold (bag_len m0 (m_perm m) p (key_suffix k)). fold (bag_byte m0 (m_perm m) p (key_suffix k)).
    destruct (privs_ok p l) with (m := m) as (A & B & C); auto.
    { unfold l. repeat (constructor; [reflexivity|]). constructor. }
    destruct (bag_ok m0 (runw l m) p (key_suffix k)) as [R V'].
    + exact C.
    + rewrite (fr_mod _ _ _ B). exact M.
    + rewrite (fr_perm _ _ _ B). exact D.
    + exact (slots_trans _ _ _ _ F (fr_slots _ _ _ B)).
    + rewrite (fr_perm _ _ _ B) in R, V'.
      set (o := WBag (bag_len m0 (m_perm m) p (key_suffix k)) (bag_byte m0 (m_perm m) p (key_suffix k))) in *.
      change (okp m (l ++ [o]) /\ assigned p k m (runw (l ++ [o]) m)). split.
      * apply okp_app; [exact A|]. cbn [okp]. split; [intros _ _; exact R|]. split; [exact V'|exact I].
      * rewrite runw_app. change (assigned p k m (wapply o (runw l m))). destruct B as [F1 F2 F3 F4 F5 [S1 S2 S3 S4 S5]].
        constructor; try assumption.
        -- unfold l, o. cbn. apply upd_same'.
        -- rewrite K. unfold l, o. cbn. apply upd_same'.
  - set (l := [WLv p 0; WIk p (k_ikey k)] ++ [WKl p (k_len k)]).
    destruct (privs_ok p l) with (m := m) as (A & B & C); auto.
    { unfold l. cbn [app]. repeat (constructor; [reflexivity|]). constructor. }
    split; [exact A|]. apply frame_assigned; auto; unfold l; cbn [app runw fold_left].
    + cbn. apply upd_same'.
    + rewrite K. cbn. apply upd_same'.
Qed.
Lemma fill_ok m0 m k i inplace vals fin : WFm m -> m_mod m = MsInsert -> (perm_size (m_perm m) < W)%nat -> 0 <= k_len k ->
  slots (perm_back W (m_perm m)) m0 m -> (i <= perm_size (m_perm m))%nat -> below m k (m_perm m) i -> above m k (m_perm m) i ->
  okp m (fill_prog m0 (m_perm m) (perm_back W (m_perm m)) k i inplace vals fin).
Proof.
  intros V M Hs K F Hi B A. pose proof (back_dead _ (wf_perm _ V) Hs) as D. remember (perm_back W (m_perm m)) as p eqn:Ep.
  unfold fill_prog. destruct (assign_ok m0 m p k inplace V M D F) as (A1 & A2).
  apply okp_app; [exact A1|]. set (m1 := runw (assign_prog m0 (m_perm m) p k inplace) m) in *.
  destruct A2 as [W1 P1 M1 V1 I1 L1 I2 L2]. destruct (lvs_priv p vals) as (C1 & C2 & C3).
  destruct (privs_ok p _ C1 m1 W1) as (E1 & E2 & E3); [congruence|congruence|].
  apply okp_app; [exact E1|]. set (m2 := runw (map (WLv p) vals) m1) in *. destruct fin; [|exact I].
  cbn [okp]. destruct E2 as [F1 F2 F3 F4 F5 [S1 S2 S3 S4 S5]].
  assert (PM : m_perm m2 = m_perm m) by congruence.
  assert (IK : m_ikey m2 = m_ikey m1) by (apply runw_ik; exact C2). assert (KL : m_klx m2 = m_klx m1) by (apply runw_kl; exact C3).
  assert (G : forall j, (j < perm_size (m_perm m))%nat -> m_ikey m2 (perm_get (m_perm m) j) = m_ikey m (perm_get (m_perm m) j) /\ m_klx m2 (perm_get (m_perm m) j) = m_klx m (perm_get (m_perm m) j)).
  { intros j Hj. assert (perm_get (m_perm m) j <> p) by (apply (live_ne (m_perm m)); auto; exists j; auto). rewrite IK, KL. auto. }
  destruct (perm_insert_ok m2 k i) as [R W2]; rewrite ?PM, <- ?Ep, ?IK, ?KL, ?L2; auto; try congruence.
  - destruct (key_has_suffix k) eqn:Q; [|reflexivity]. unfold key_has_suffix in Q. unfold lenclass. lia.
  - destruct (key_has_suffix k) eqn:Q; [lia|]. unfold key_has_suffix in Q. lia.
  - apply (below_eq m); auto. intros j Hj. apply G. lia.
  - apply (above_eq m); auto.
  - rewrite PM in R, W2. split; [intros _ _; exact R|]. split; [exact W2|exact I].
Qed.

(* A store while a modification is marked. *)
Definition same_but_v (m m' : lmem) : Prop := m_perm m' = m_perm m /\ m_ikey m' = m_ikey m /\ m_klx m' = m_klx m /\ m_lv m' = m_lv m /\
  m_bag m' = m_bag m /\ m_slen m' = m_slen m /\ m_sbyte m' = m_sbyte m /\ m_nbag m' = m_nbag m.
Lemma sbv_wf m m' : same_but_v m m' -> WFm m -> WFm m'.
Proof. intros (A & B & C & D & E & F & G & H) [V1 V2 V3 V4]. constructor; rewrite ?A, ?B, ?C, ?E, ?H; auto. Qed.
Lemma sbv_slots p m m' : same_but_v m m' -> slots p m m'.
Proof. intros (A & B & C & D & E & F & G & H). constructor; intros; rewrite ?E, ?B, ?C, ?F, ?G; auto. Qed.
Lemma mark_dirty m mk : nv_wf (m_v m) -> nv_mark_dirties mk = true -> ~ clean (wapply (WMark mk) m).
Proof. intros V D C. unfold clean in C. cbn in C. destruct (wf_mark mk _ V) as (_ & _ & _ & E). rewrite E, D, orb_true_r in C. discriminate. Qed.
Lemma enter_ok m : nv_wf (m_v m) -> WFm m ->
  okp m (enter_insert m) /\ same_but_v m (runw (enter_insert m) m) /\ m_mod (runw (enter_insert m) m) = MsInsert /\ nv_wf (m_v (runw (enter_insert m) m)).
Proof.
  intros N V. unfold enter_insert. destruct (m_mod m) eqn:M.
  - cbn. repeat split; auto.
  - assert (X := mark_dirty m MkInsert N eq_refl). split; [|cbn; repeat split; apply (wf_mark MkInsert _ N)].
    cbn [okp]. split; [intros _ _; apply relyc_v|]. split; [exact (WFm_v _ _ V)|].
    split; [apply rely_dirty, X|]. split; [|exact I]. apply (sbv_wf m); [repeat split|exact V].
  - assert (X := mark_dirty m MkInsert N eq_refl). split; [|cbn; repeat split; apply (wf_mark MkInsert _ N)].
    cbn [okp]. split; [intros _ _; apply relyc_v|]. split; [exact (WFm_v _ _ V)|].
    split; [apply rely_dirty, X|]. split; [|exact I]. apply (sbv_wf m); [repeat split|exact V].
Qed.
