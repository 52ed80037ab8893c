(* Shared leaf: the theorems, stated on entries. *)
From Verif Require Import Lib M_Key M_Permuter P_Permuter P_Permuter2 M_Search P_Search M_Version P_Version P_Version2 M_Tree M_Leafread Spec_Leafread P_Leafread1 P_Leafread2 P_Leafread3 P_Leafread4 P_Leafread5 P_Leafread6 P_Leafread7.
From Coq Require Import Permutation.

Local Opaque perm_get perm_size perm_insert_from_back perm_remove perm_exchange perm_set_size perm_back.
Lemma frag_pos_eq m p : 0 <= m_klx m p <= 8 \/ m_klx m p = 64 \/ m_klx m p = 128 -> frag_pos (frag_of m p) = (m_ikey m p, lenclass (m_klx m p)).
Proof.
  intros H. unfold frag_of, lenclass. destruct (Z.eqb_spec (m_klx m p) 128); [|destruct (Z.eqb_spec (m_klx m p) 64)]; cbn; f_equal; lia.
Qed.
Lemma entries_nth m j e : (perm_size (m_perm m) <= W)%nat -> nth_error (entries m) j = Some e <->
  (j < perm_size (m_perm m))%nat /\ e = (frag_of m (perm_get (m_perm m) j), m_lv m (perm_get (m_perm m) j)).
Proof.
  intros L. unfold entries. rewrite live_slots_eq by exact L. rewrite map_map. set (g := fun p => (frag_of m p, m_lv m p)).
  destruct (Nat.lt_ge_cases j (perm_size (m_perm m))) as [H|H].
  - assert (E : nth_error (map (fun x => g (perm_get (m_perm m) x)) (seq 0 (perm_size (m_perm m)))) j = Some (g (perm_get (m_perm m) j))).
    { rewrite (map_nth_error _ j (seq 0 (perm_size (m_perm m))) (d := j)); [reflexivity|].
      rewrite (nth_error_nth' _ 0%nat) by (rewrite seq_length; exact H). now rewrite seq_nth. }
    unfold g in *. cbn beta in E. rewrite E. split; [intros X; injection X as <-; auto|intros [_ ->]; reflexivity].
  - assert (E : nth_error (map (fun x => g (perm_get (m_perm m) x)) (seq 0 (perm_size (m_perm m)))) j = None).
    { apply nth_error_None. rewrite map_length, seq_length. exact H. }
    unfold g in *. cbn beta in E. rewrite E. split; [discriminate|lia].
Qed.
Lemma entries_length m : (perm_size (m_perm m) <= W)%nat -> length (entries m) = perm_size (m_perm m).
Proof. intros L. unfold entries. rewrite live_slots_eq by exact L. now rewrite !map_length, seq_length. Qed.
Lemma nth_split2 {A} (l : list A) i j x y : (i < j)%nat -> nth_error l i = Some x -> nth_error l j = Some y -> exists a b c, l = a ++ x :: b ++ y :: c.
Proof.
  intros H E1 E2. apply nth_error_split in E2. destruct E2 as (u & v & -> & L).
  rewrite nth_error_app1 in E1 by lia. apply nth_error_split in E1. destruct E1 as (a & b & -> & _).
  exists a, b, v. now rewrite <- app_assoc.
Qed.
Lemma good_wf m : good_leaf m <-> WFm m.
Proof.
  split.
  - intros (A & B & C & D & E & F).
    assert (P : perm_ok W (m_perm m)) by (split; [exact C|split; assumption]).
    assert (K : forall p, livex (m_perm m) p -> 0 <= m_klx m p <= 8 \/ m_klx m p = 64 \/ m_klx m p = 128) by (intros p L; apply E, in_live; auto).
    constructor; auto. intros i j H.
    assert (Ei := proj2 (entries_nth m i _ A) (conj (Nat.lt_trans _ _ _ (proj1 H) (proj2 H)) eq_refl)).
    assert (Ej := proj2 (entries_nth m j _ A) (conj (proj2 H) eq_refl)).
    destruct (nth_split2 _ _ _ _ _ (proj1 H) Ei Ej) as (a & b & c & X). specialize (D _ _ _ _ _ X). cbn [fst] in D.
    rewrite !frag_pos_eq in D by (apply K; eexists; split; [|reflexivity]; lia). unfold pos_lt in D. unfold entry_lt. exact D.
  - intros [P SO K F]. pose proof (size_le _ P) as A. destruct P as (P1 & P2 & P3).
    split; [exact A|]. split; [exact P3|]. split; [exact P1|]. split; [|split; [|exact F]].
    + intros a e b f c X.
      assert (Ei : nth_error (entries m) (length a) = Some e) by (rewrite X, nth_error_app2, Nat.sub_diag by lia; reflexivity).
      assert (Ej : nth_error (entries m) (length a + S (length b)) = Some f).
      { rewrite X, nth_error_app2 by lia. replace (length a + S (length b) - length a)%nat with (S (length b)) by lia. cbn. rewrite nth_error_app2, Nat.sub_diag by lia. reflexivity. }
      apply entries_nth in Ei; [|exact A]. apply entries_nth in Ej; [|exact A]. destruct Ei as [Hi ->], Ej as [Hj ->]. cbn [fst].
      rewrite !frag_pos_eq by (apply K; eexists; split; [|reflexivity]; lia). apply (SO (length a) (length a + S (length b))%nat). lia.
    + intros p L. apply K. apply (proj1 (in_live m p A)). exact L.
Qed.

Lemma quiet_inv m : quiet_leaf m -> inv (linit m).
Proof.
  intros (G & R & U & D & L). constructor; cbn; auto; try discriminate.
  - exact (proj1 (good_wf m) G).
  - apply nv_wf_iff. split; [exact R|]. pose proof (land_pow2 (m_v m) 28 ltac:(lia) ltac:(lia)) as E. unfold nv_unused1_bit in U. rewrite U in E.
    change (2 ^ 28) with 268435456 in E. lia.
Qed.
Lemma reach_inv m s : quiet_leaf m -> lreach m s -> s_late s = false -> inv s.
Proof.
  intros Q R. induction R as [|s s' R IH ST]; intros L; [exact (quiet_inv _ Q)|].
  exact (step_inv _ _ (IH (late_mono _ _ ST L)) ST L).
Qed.

Lemma always_good m s : quiet_leaf m -> lreach m s -> s_late s = false -> good_leaf (s_m s).
Proof. intros Q R L. apply good_wf, (iv_wf _ (reach_inv _ _ Q R L)). Qed.
Lemma read_true m s t k t0 a : quiet_leaf m -> lreach m s -> s_late s = false -> s_pc s t = PDone k t0 a ->
  exists m1, during s t0 m1 /\ good_leaf m1 /\ nv_dirty (m_v m1) = false /\ lookup (entries m1) k = a.
Proof.
  intros Q R L E. pose proof (iv_pc _ (reach_inv _ _ Q R L) t) as H. rewrite E in H. destruct H as (m1 & A & B & C & D).
  exists m1. split; [exact A|]. split; [now apply good_wf|]. split; [exact C|exact D].
Qed.
Lemma held_exact m k i p mt : WFm m -> held m k i p mt -> cursor_exact m k i p mt.
Proof.
  intros V [K F]. pose proof (size_le _ (wf_perm _ V)) as A. pose proof (entries_length m A) as EL.
  assert (FP : forall j, (j < perm_size (m_perm m))%nat -> frag_pos (frag_of m (perm_get (m_perm m) j)) = (m_ikey m (perm_get (m_perm m) j), lenclass (m_klx m (perm_get (m_perm m) j)))).
  { intros j Hj. apply frag_pos_eq, (wf_klx _ V). exists j. auto. }
  assert (LO : forall j, (j < perm_size (m_perm m))%nat -> cmpk m k (perm_get (m_perm m) j) > 0 -> pos_lt (frag_pos (frag_of m (perm_get (m_perm m) j))) (key_pos k)).
  { intros j Hj C. rewrite FP by exact Hj. apply cmp_pos in C. exact C. }
  assert (HI : forall j, (j < perm_size (m_perm m))%nat -> cmpk m k (perm_get (m_perm m) j) < 0 -> pos_lt (key_pos k) (frag_pos (frag_of m (perm_get (m_perm m) j)))).
  { intros j Hj C. rewrite FP by exact Hj. apply cmp_neg in C. exact C. }
  destruct p as [p|].
  - destruct F as [(F1 & F2 & F3 & F4) F5]. split; [lia|]. split.
    + intros j e E. apply entries_nth in E; [|exact A]. destruct E as [Hj ->]. cbn [fst]. split; intros H.
      * apply LO; auto.
      * apply HI; auto. apply key_compare_lt. pose proof (wf_sorted _ V i j ltac:(lia)) as S. subst p. unfold cmpk in F3. apply key_compare_eq in F3.
        unfold entry_lt in *. cbn [fst snd] in *. lia.
    + split; [|split].
      * rewrite live_slots_eq by exact A. rewrite (map_nth_error _ i (seq 0 (perm_size (m_perm m))) (d := i)); [now rewrite F2|].
        rewrite (nth_error_nth' _ 0%nat) by (rewrite seq_length; exact F1). now rewrite seq_nth.
      * subst p. rewrite FP by exact F1. unfold cmpk in F3. apply key_compare_eq in F3. destruct F3 as [F3 F6]. unfold key_pos. unfold lenclass in *. congruence.
      * rewrite F5. apply lookup_hit; auto. exists i. auto.
  - destruct F as (F1 & F2 & F3 & F4). split; [lia|]. split.
    + intros j e E. apply entries_nth in E; [|exact A]. destruct E as [Hj ->]. cbn [fst]. split; intros H; [apply LO; auto|apply HI; auto; apply F3; lia].
    + split; [|split; [|exact F4]].
      * intros e E. apply entries_nth in E; [|exact A]. destruct E as [Hj ->]. cbn [fst]. apply HI; auto.
      * apply lookup_absent; [exact V|]. intros q Lq. destruct (for_key k (frag_of m q)) eqn:X; [|reflexivity]. exfalso.
        pose proof (for_key_cmp m _ q (wf_klx _ V q Lq) X) as C2. destruct Lq as (j & Hj & <-). destruct (Nat.lt_ge_cases j i) as [H|H].
        -- specialize (F2 j H). lia.
        -- specialize (F3 j (conj H Hj)). lia.
Qed.
Lemma locked_exact m s t k i p mt : quiet_leaf m -> lreach m s -> s_late s = false -> s_pc s t = PHeld k i p mt -> cursor_exact (s_m s) k i p mt.
Proof.
  intros Q R L E. pose proof (reach_inv _ _ Q R L) as V. pose proof (iv_pc _ V t) as H. rewrite E in H. apply held_exact; [apply V|exact H].
Qed.
