(* Shared leaf: every program of the lock holder keeps the leaf well-formed and respects what searches rely on. *)
From Verif Require Import Lib M_Key M_Permuter P_Permuter P_Permuter2 M_Search P_Search M_Version P_Version P_Version2 M_Tree M_Leafread Spec_Leafread P_Leafread1 P_Leafread2.
From Coq Require Import Permutation.

Local Opaque perm_get perm_size perm_insert_from_back perm_remove perm_exchange perm_set_size perm_back.
Fixpoint okp (m : lmem) (l : list wop) : Prop :=
  match l with [] => True | o :: r => rely m (wapply o m) /\ WFm (wapply o m) /\ okp (wapply o m) r end.
Fixpoint ok (m : lmem) (l : list wop) : Prop :=
  match l with
  | [] => False
  | WUnlock :: _ => True
  | o :: r => rely m (wapply o m) /\ WFm (wapply o m) /\ ok (wapply o m) r
  end.
Definition runw (l : list wop) (m : lmem) : lmem := fold_left (fun m o => wapply o m) l m.
Lemma ok_app l1 : forall m l2, okp m l1 -> ok (runw l1 m) l2 -> ok m (l1 ++ l2).
Proof.
  induction l1 as [|o l1 IH]; intros m l2 H1 H2; [exact H2|]. cbn in H1. destruct H1 as (A & B & C).
  cbn [app]. assert (R : ok (wapply o m) (l1 ++ l2)) by (apply IH; auto). destruct o; cbn [ok]; auto.
Qed.
Lemma okp_app l1 : forall m l2, okp m l1 -> okp (runw l1 m) l2 -> okp m (l1 ++ l2).
Proof.
  induction l1 as [|o l1 IH]; intros m l2 H1 H2; [exact H2|]. cbn in H1. destruct H1 as (A & B & C).
  cbn [app okp]. split; [exact A|]. split; [exact B|]. apply IH; auto.
Qed.
Lemma ok_unlock m : ok m [WUnlock]. Proof. exact I. Qed.

Lemma relyc_v m v : relyc m (MkMem v (m_perm m) (m_mod m) (m_ikey m) (m_klx m) (m_lv m) (m_bag m) (m_slen m) (m_sbyte m) (m_nbag m)).
Proof.
  constructor; cbn.
  - intros p _. split; [repeat split|auto].
  - auto.
  - intros H. split; [auto|]. intros H1. congruence.
  - auto.
  - auto.
Qed.
Lemma WFm_v m v : WFm m -> WFm (MkMem v (m_perm m) (m_mod m) (m_ikey m) (m_klx m) (m_lv m) (m_bag m) (m_slen m) (m_sbyte m) (m_nbag m)).
Proof. intros [A B C D]. constructor; cbn; auto. Qed.
Lemma rely_dirty m m' : ~ clean m -> rely m m'. Proof. intros H C. contradiction. Qed.
Lemma rely_dirty' m m' : ~ clean m' -> rely m m'. Proof. intros H _ C. contradiction. Qed.

(* ---- permutations ---- *)
Lemma back_dead x : perm_ok W x -> (perm_size x < W)%nat -> ~ livex x (perm_back W x).
Proof.
  intros (P1 & P2 & P3) H (j & L & E). pose proof (proj1 (pinj_iff W W_range x) P3) as [_ Q].
  change (perm_back W x) with (perm_get x (W - 1)) in E. assert (j = W - 1)%nat by (apply Q; auto; unfold W in *; lia). lia.
Qed.
Lemma ifb_live x i p : perm_ok W x -> (perm_size x < W)%nat -> (i <= perm_size x)%nat ->
  livex (perm_insert_from_back W x i) p <-> p = perm_back W x \/ livex x p.
Proof.
  intros (P1 & P2 & P3) H Hi. pose proof (ifb_size W W_range x i P1 H ltac:(lia)) as Sz.
  pose proof (ifb_low W W_range x i P1 H ltac:(lia)) as Lo. pose proof (ifb_at W W_range x i H ltac:(lia)) as At.
  pose proof (ifb_high W W_range x i H ltac:(lia)) as Hg. unfold livex. rewrite Sz. split.
  - intros (j & L & E). destruct (Nat.lt_total j i) as [C|[C|C]].
    + right. exists j. rewrite Lo in E by exact C. split; [lia|exact E].
    + left. subst j. congruence.
    + right. exists (j - 1)%nat. rewrite Hg in E by lia. split; [lia|exact E].
  - intros [->|(j & L & E)].
    + exists i. split; [lia|exact At].
    + destruct (Nat.lt_ge_cases j i).
      * exists j. rewrite Lo by auto. split; [lia|exact E].
      * exists (S j). rewrite Hg by lia. replace (S j - 1)%nat with j by lia. split; [lia|exact E].
Qed.

Lemma ifb_sorted x i ik kl k l : perm_ok W x -> (perm_size x < W)%nat -> (i <= perm_size x)%nat -> leaf_sorted x ik kl ->
  ik (perm_back W x) = k -> lenclass (kl (perm_back W x)) = lenclass l ->
  (forall j, (j < i)%nat -> entry_lt (ik (perm_get x j), kl (perm_get x j)) (k, l)) ->
  (forall j, (i <= j < perm_size x)%nat -> entry_lt (k, l) (ik (perm_get x j), kl (perm_get x j))) ->
  leaf_sorted (perm_insert_from_back W x i) ik kl.
Proof.
  intros (P1 & P2 & P3) H Hi S E1 E2 Lo' Hi'. pose proof (ifb_size W W_range x i P1 H ltac:(lia)) as Sz.
  pose proof (ifb_low W W_range x i P1 H ltac:(lia)) as Lo. pose proof (ifb_at W W_range x i H ltac:(lia)) as At.
  pose proof (ifb_high W W_range x i H ltac:(lia)) as Hg. intros a b Hab. rewrite Sz in Hab.
  assert (C : (b < i \/ b = i \/ i < b)%nat) by lia. assert (C' : (a < i \/ a = i \/ i < a)%nat) by lia.
  destruct C as [C|[C|C]]; destruct C' as [C'|[C'|C']]; try lia; subst.
  - rewrite !Lo by lia. apply S. lia.
  - rewrite At, (Lo a) by lia. specialize (Lo' a C'). unfold entry_lt in *. cbn [fst snd] in *. lia.
  - rewrite (Lo a), (Hg b) by lia. apply S. lia.
  - rewrite At, (Hg b) by lia. specialize (Hi' (b - 1)%nat ltac:(lia)). unfold entry_lt in *. cbn [fst snd] in *. lia.
  - rewrite (Hg a), (Hg b) by lia. apply S. lia.
Qed.
Lemma rm_facts x i : perm_ok W x -> (i < perm_size x)%nat ->
  perm_ok W (perm_remove W x i) /\ perm_size (perm_remove W x i) = (perm_size x - 1)%nat /\
  forall j, (j < perm_size x - 1)%nat -> perm_get (perm_remove W x i) j = perm_get x (if (j <? i)%nat then j else S j).
Proof.
  intros P Hi. destruct (ok_remove W W_range x i P Hi) as (A & _ & B). split; [exact A|]. split; [exact B|].
  destruct P as (P1 & P2 & P3). intros j Hj. destruct (Nat.ltb_spec j i).
  - apply (rm_low W W_range x i P1 P2 Hi); auto.
  - apply (rm_mid W W_range x i P2 Hi); auto.
Qed.
Lemma rm_live x i p : perm_ok W x -> (i < perm_size x)%nat -> livex (perm_remove W x i) p -> livex x p.
Proof.
  intros P Hi (j & L & E). destruct (rm_facts x i P Hi) as (_ & B & C). rewrite B in L. rewrite C in E by exact L.
  exists (if (j <? i)%nat then j else S j). split; [|exact E]. destruct (j <? i)%nat; lia.
Qed.
Lemma rm_sorted x i ik kl : perm_ok W x -> (i < perm_size x)%nat -> leaf_sorted x ik kl -> leaf_sorted (perm_remove W x i) ik kl.
Proof.
  intros P Hi S a b Hab. destruct (rm_facts x i P Hi) as (_ & B & C). rewrite B in Hab. rewrite !C by lia. apply S.
  destruct (Nat.ltb_spec a i), (Nat.ltb_spec b i); lia.
Qed.
(* Permutations that agree on the live part. *)
Definition agree (x y : Z) : Prop := perm_size y = perm_size x /\ forall j, (j < perm_size x)%nat -> perm_get y j = perm_get x j.
Lemma agree_live x y p : agree x y -> livex x p <-> livex y p.
Proof.
  intros [A B]. split; intros (j & L & E); exists j.
  - rewrite A. split; [exact L|]. rewrite B; auto.
  - rewrite A in L. split; [exact L|]. rewrite <- B; auto.
Qed.
Lemma agree_sorted x y ik kl : agree x y -> leaf_sorted x ik kl -> leaf_sorted y ik kl.
Proof. intros [A B] S a b Hab. rewrite A in Hab. rewrite !B by lia. apply S. lia. Qed.
Lemma ex_agree x n j : perm_ok W x -> (perm_size x <= n < W)%nat -> (perm_size x <= j < W)%nat -> agree x (perm_exchange W x n j) /\ perm_ok W (perm_exchange W x n j).
Proof.
  intros P Hn Hj. destruct (ok_exchange W W_range x n j P ltac:(lia) ltac:(lia)) as (A & _ & B). split; [|exact A]. split; [exact B|].
  destruct P as (P1 & P2 & P3). intros q Hq. rewrite (ex_get W W_range x n j ltac:(lia) ltac:(lia)) by lia.
  destruct (Nat.eqb_spec q n); [lia|]. destruct (Nat.eqb_spec q j); [lia|]. reflexivity.
Qed.
Lemma split_facts m n : WFm m -> (n <= perm_size (m_perm m))%nat ->
  perm_ok W (split_perm m n) /\ perm_size (split_perm m n) = n /\ forall j, (j < n)%nat -> perm_get (split_perm m n) j = perm_get (m_perm m) j.
Proof.
  intros V Hn. pose proof (wf_perm _ V) as P. pose proof (size_le _ P) as L.
  destruct (ok_set_size W W_range (m_perm m) n P ltac:(lia)) as (A & _ & B).
  assert (G : forall j, (j < n)%nat -> perm_get (perm_set_size W (m_perm m) n) j = perm_get (m_perm m) j)
    by (intros j Hj; apply ss_get; try lia; apply W_range).
  unfold split_perm. cbv zeta. destruct (Nat.eqb_spec (perm_size (m_perm m)) W); [auto|].
  destruct (ex_agree (perm_set_size W (m_perm m) n) n (W - 1) A ltac:(lia) ltac:(lia)) as [[C D] E].
  split; [exact E|]. split; [congruence|]. intros j Hj. rewrite D by lia. apply G, Hj.
Qed.
