(* Shared leaf: what the lock holder may do after find_locked, and why it is harmless. *)
From Verif Require Import Lib M_Key M_Permuter P_Permuter P_Permuter2 M_Search P_Search M_Version P_Version P_Version2 M_Tree M_Leafread Spec_Leafread P_Leafread1 P_Leafread2 P_Leafread3 P_Leafread4.
From Coq Require Import Permutation.

Local Opaque perm_get perm_size perm_insert_from_back perm_remove perm_exchange perm_set_size perm_back.
Definition held (m : lmem) (k : mkey) (i : nat) (p : option nat) (mt : Z) : Prop := 0 <= k_len k /\ found m k (m_perm m) i p mt.

Lemma lvs_live_ok p vals : forall m, WFm m -> livex (m_perm m) p -> okp m (map (WLv p) vals).
Proof.
  induction vals as [|v vals IH]; intros m V L; [exact I|]. cbn [map okp].
  assert (V' : WFm (wapply (WLv p v) m)) by (destruct V as [V1 V2 V3 V4]; constructor; cbn; auto).
  split; [|split; [exact V'|apply IH; auto]]. intros _ _. constructor; cbn [wapply m_perm m_mod m_lv m_nbag m_ikey m_klx m_slen m_sbyte m_bag]; auto.
  - intros q _. split; [repeat split|auto].
  - intros q. destruct (Nat.eq_dec q p) as [->|N]; [right; left; exact L|left; now apply upd_other'].
Qed.
Lemma run_lvs_ok m p vals : WFm m -> livex (m_perm m) p -> ok m (map (WLv p) vals ++ [WUnlock]).
Proof. intros V L. apply ok_app; [exact (lvs_live_ok p vals m V L)|exact I]. Qed.

Lemma remove_ok m i del : nv_wf (m_v m) -> WFm m -> (i < perm_size (m_perm m))%nat -> ok m (remove_prog m i del).
Proof.
  intros N V Hi. unfold remove_prog.
  assert (RM : forall m', same_but_v m m' -> WFm (wapply (WPerm (perm_remove W (m_perm m) i)) m')).
  { intros m' E. pose proof (sbv_wf _ _ E V) as V'. destruct E as (E1 & E2 & E3 & _). destruct V' as [V1 V2 V3 V4].
    constructor; cbn [wapply m_perm m_mod m_lv m_nbag m_ikey m_klx m_slen m_sbyte m_bag]; auto.
    - apply (rm_facts _ _ (wf_perm _ V) Hi).
    - rewrite <- E1. apply rm_sorted; auto. + rewrite E1. exact Hi.
    - intros q L. apply V3. rewrite E1. exact (rm_live _ _ _ (wf_perm _ V) Hi L). }
  assert (TAIL : forall m', WFm m' -> ok m' ((if (perm_size (perm_remove W (m_perm m) i) =? 0)%nat && del then [WMark MkDeleted] else []) ++ [WUnlock])).
  { intros m' V'. destruct (_ && del); [|exact I]. cbn [app ok]. split; [intros _ _; apply relyc_v|]. split; [exact (WFm_v _ _ V')|exact I]. }
  assert (MID : m_mod m <> MsInsert -> rely m (wapply (WPerm (perm_remove W (m_perm m) i)) m)).
  { intros E _ _. constructor; cbn [wapply m_perm m_mod m_lv m_nbag m_ikey m_klx m_slen m_sbyte m_bag]; auto.
    - intros q _. split; [repeat split|auto].
    - intros E2. congruence.
    - intros _. split; [intros q; exact (rm_live _ _ _ (wf_perm _ V) Hi)|]. intros E2. congruence. }
  destruct (m_mod m) eqn:M.
  - assert (X := mark_dirty m MkInsert N eq_refl). cbn [app ok]. split; [intros _ _; apply relyc_v|]. split; [exact (WFm_v _ _ V)|].
    split; [apply rely_dirty, X|]. split; [apply (sbv_wf m); [repeat split|exact V]|].
    assert (R := RM (wapply (WMod MsRemove) (wapply (WMark MkInsert) m)) ltac:(repeat split)).
    split; [apply rely_dirty; exact X|]. split; [exact R|]. apply TAIL, R.
  - cbn [app ok]. assert (R := RM m ltac:(repeat split)). split; [apply MID; congruence|]. split; [exact R|]. apply TAIL, R.
  - cbn [app ok]. assert (R := RM m ltac:(repeat split)). split; [apply MID; congruence|]. split; [exact R|]. apply TAIL, R.
Qed.

Lemma layer_ok m p v : nv_wf (m_v m) -> WFm m -> m_klx m p = 64 -> ok m (layer_prog p v).
Proof.
  intros N V K. assert (X := mark_dirty m MkInsert N eq_refl). unfold layer_prog. cbn [ok].
  split; [intros _ _; apply relyc_v|]. split; [exact (WFm_v _ _ V)|].
  split; [apply rely_dirty, X|]. split; [destruct V as [V1 V2 V3 V4]; constructor; cbn; auto|].
  split; [apply rely_dirty; exact X|]. split; [|exact I].
  destruct V as [V1 V2 V3 V4]. constructor; cbn [wapply m_perm m_mod m_lv m_nbag m_ikey m_klx m_slen m_sbyte m_bag]; auto.
  - intros a b H. specialize (V2 a b H). unfold entry_lt in *. cbn [fst snd] in *.
    assert (E : forall q, lenclass (upd (m_klx m) p 128 q) = lenclass (m_klx m q)).
    { intros q. unfold upd. destruct (Nat.eqb_spec q p) as [->|]; [|reflexivity]. rewrite K. reflexivity. }
    rewrite !E. exact V2.
  - intros q L. unfold upd. destruct (Nat.eqb_spec q p); auto.
Qed.

Lemma insert_ok m k i noprev p ox inplace vals fin : nv_wf (m_v m) -> WFm m -> held m k i None 0 ->
  slot_for m noprev (k_ikey k) = Some (p, ox) -> ok m (insert_prog m k i p ox inplace vals fin).
Proof.
  intros N V (K & Hi & B & A & _) S. destruct (enter_ok m N V) as (E1 & E2 & E3 & E4). unfold insert_prog.
  apply ok_app; [exact E1|]. set (m1 := runw (enter_insert m) m) in *. pose proof (sbv_wf _ _ E2 V) as V1.
  pose proof (fun q => sbv_slots q _ _ E2) as SL. destruct E2 as (P1 & I1 & L1 & _).
  unfold slot_for in S. destruct (Nat.ltb_spec (perm_size (m_perm m)) W) as [Hs|]; [|discriminate]. cbv zeta in S.
  destruct (_ || _ || _).
  - injection S as <- <-. apply ok_app; [|exact I]. rewrite <- P1. apply fill_ok; auto; rewrite ?P1; auto.
    + apply (below_eq m); auto. intros. rewrite I1, L1. auto.
    + apply (above_eq m); auto. intros. rewrite I1, L1. auto.
  - destruct (negb _); [|discriminate]. injection S as <- <-.
    destruct (ex_agree (m_perm m) (perm_size (m_perm m)) (W - 1) (wf_perm _ V) ltac:(lia) ltac:(lia)) as [AG PK].
    set (x := perm_exchange W (m_perm m) (perm_size (m_perm m)) (W - 1)) in *.
    destruct (perm_agree_ok m1 x V1 E3 ltac:(rewrite P1; exact AG) PK) as [R V2].
    set (m2 := wapply (WPerm x) m1) in *.
    change (ok m1 ((WPerm x :: fill_prog m x (perm_back W x) k i inplace vals fin) ++ [WUnlock])). apply ok_app; [|exact I].
    cbn [okp]. split; [intros _ _; exact R|]. split; [exact V2|]. fold m2.
    change x with (m_perm m2). destruct AG as [AG1 AG2]. apply fill_ok; auto; change (m_perm m2) with x; try rewrite AG1; auto.
    + pose proof (SL (perm_back W x)) as [X1 X2 X3 X4 X5]. constructor; auto.
    + intros j Hj. rewrite AG2 by lia. unfold cmpk, m2. cbn [wapply m_ikey m_klx]. rewrite I1, L1. apply B, Hj.
    + intros j Hj. rewrite AG1 in Hj. rewrite AG2 by lia. unfold cmpk, m2. cbn [wapply m_ikey m_klx]. rewrite I1, L1. apply A, Hj.
Qed.

Lemma split_ok m k i n left inplace vals fin : nv_wf (m_v m) -> WFm m -> held m k i None 0 ->
  (n <= perm_size (m_perm m))%nat -> (left = true -> (i <= n < perm_size (m_perm m))%nat) -> ok m (split_prog m k i n left inplace vals fin).
Proof.
  intros N V (K & Hi & B & A & _) Hn Hl. destruct (enter_ok m N V) as (E1 & E2 & E3 & E4). unfold split_prog.
  apply ok_app; [exact E1|]. set (m1 := runw (enter_insert m) m) in *. pose proof (sbv_wf _ _ E2 V) as V1.
  pose proof (fun q => sbv_slots q _ _ E2) as SL. destruct E2 as (P1 & I1 & L1 & _).
  destruct (split_facts m n V Hn) as (S1 & S2 & S3). assert (X := mark_dirty m1 MkSplit E4 eq_refl).
  cbn [app ok]. split; [intros _ _; apply relyc_v|]. split; [exact (WFm_v _ _ V1)|]. split; [apply rely_dirty, X|].
  set (m2 := wapply (WPerm (split_perm m n)) (wapply (WMark MkSplit) m1)).
  assert (V2 : WFm m2).
  { destruct V1 as [W1 W2 W3 W4]. constructor; cbn; auto.
    - intros a b H. rewrite S2 in H. rewrite !S3 by lia. rewrite <- P1. apply W2. rewrite P1. lia.
    - intros q (j & L & E). rewrite S2 in L. rewrite S3 in E by exact L. apply W3. rewrite P1. exists j. split; [lia|exact E]. }
  split; [exact V2|]. destruct left; [|exact I]. specialize (Hl eq_refl). apply ok_app; [|exact I].
  pose proof (size_le _ (wf_perm _ V)) as LE.
  change (split_perm m n) with (m_perm m2). apply fill_ok; auto; change (m_perm m2) with (split_perm m n); try rewrite S2; auto; try lia.
  - pose proof (SL (perm_back W (split_perm m n))) as [X1 X2 X3 X4 X5]. constructor; auto.
  - intros j Hj. rewrite S3 by lia. unfold cmpk, m2. cbn [wapply m_ikey m_klx]. rewrite I1, L1. apply B, Hj.
  - intros j Hj. rewrite S2 in Hj. rewrite S3 by lia. unfold cmpk, m2. cbn [wapply m_ikey m_klx]. rewrite I1, L1. apply A. lia.
Qed.

Lemma kill_ok m : WFm m -> perm_size (m_perm m) = 0%nat -> ok m [WMod MsDeletedLayer; WUnlock].
Proof.
  intros V E. cbn [ok]. split; [|split; [apply (sbv_wf m); [repeat split|exact V]|exact I]]. intros _ _.
  assert (Z0 : forall q, ~ livex (m_perm m) q) by (intros q (j & L & _); lia).
  constructor; cbn [wapply m_perm m_mod m_lv m_nbag m_ikey m_klx m_slen m_sbyte m_bag]; auto.
  - intros q _. split; [repeat split|auto].
  - intros H. discriminate.
Qed.
Lemma root_ok m : WFm m -> ok m [WMark MkRoot; WUnlock].
Proof. intros V. cbn [ok]. split; [intros _ _; apply relyc_v|]. split; [exact (WFm_v _ _ V)|exact I]. Qed.
