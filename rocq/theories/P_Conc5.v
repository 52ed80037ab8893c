(* Concurrent layer: steps that change the rows of a leaf. *)
From Verif Require Import Lib M_Tree M_Stampc P_Stampc1 M_Conc P_Conc1 P_Conc2 P_Conc3 P_Conc4.
From Coq Require Import Sorting.Sorted.

Definition g_rows (g : gst) (n : nat) (z : bool) : gst :=
  MkG (l0 g) (ll g) (hh g) (sp g) (pd g) (setf (us g) n None) (rp g) (ul g) (setf (ze g) n z).

Lemma GT_g_same s g g' : l0 g' = l0 g -> ll g' = ll g -> hh g' = hh g -> sp g' = sp g -> pd g' = pd g -> rp g' = rp g -> GT s g -> GT s g'.
Proof.
  destruct g as [a1 a2 a3 a4 a5 a6 a7 a8 a9], g' as [b1 b2 b3 b4 b5 b6 b7 b8 b9]. cbn [l0 ll hh sp pd rp]. intros -> -> -> -> -> -> [H1 H2 H3 H4 H5 H6 H7 H8 H9 H10 H11].
  constructor; [exact H1|exact H2|exact H3|exact H4| |exact H6|exact H7|exact H8|exact H9|exact H10|exact H11].
  intros p A B. specialize (H5 p A B). cbn [rp ll hh] in *. revert H5. apply chain_ext. auto.
Qed.
Section Rows.
  Variables (s : cst) (g : gst) (t n : nat) (v : cver) (rs : rows) (zz : Z) (zb : bool) (p' : pct) (s' : cst).
  Hypothesis G : GI s g.
  Hypothesis L : LI s.
  Hypothesis K : LK s g.
  Hypothesis En : forall x, nd s' x = if (x =? n)%nat then with_ver (with_rows (nd s n) rs zz) v else nd s x.
  Hypothesis Ef : fr s' = fr s.
  Hypothesis Er : rootp s' = rootp s.
  Hypothesis Ep : forall t0, pcs s' t0 = setf (pcs s) t p' t0.
  Hypothesis Hn : linked s g n.
  Hypothesis Hh : In n (holds (pcs s t)).
  Hypothesis Hus : forall m, us g m <> Some n.
  Hypothesis Hpd : pd g n = None.
  Hypothesis Hs : StronglySorted Z.lt (map fst rs).
  Hypothesis Hr : forall y, row_get y rs <> None -> lo (nd s n) <= y < hh g n.
  Hypothesis Hz : zb = false -> rs = [] -> zz < hh g n.
  Hypothesis Vz : zb = true -> v_spl v = true.
  Hypothesis Vm : vmono (ver (nd s n)) v.
  Hypothesis Vl : v_lk v = true.
  Hypothesis Vdel : v_del v = false.
  Hypothesis Vd0 : v_del (ver (nd s n)) = false.
  Hypothesis Vr : v_spl v = false -> us g n = None.
  Hypothesis Vr1 : v_rt v = true -> v_spl v = false -> v_rt (ver (nd s n)) = true /\ v_spl (ver (nd s n)) = false.
  Hypothesis Vr3 : par (nd s n) = None -> (forall m, pd g m <> Some n) -> pd g n = None -> v_rt v = true /\ v_spl v = false.
  Let g' := g_rows g n zb.

  Ltac vf := intros x; rewrite En; destruct (Nat.eqb_spec x n) as [->|N]; reflexivity.
  Lemma rw_isl x : isl (nd s' x) = isl (nd s x). Proof. revert x. vf. Qed.
  Lemma rw_par x : par (nd s' x) = par (nd s x). Proof. revert x. vf. Qed.
  Lemma rw_lo x : lo (nd s' x) = lo (nd s x). Proof. revert x. vf. Qed.
  Lemma rw_rws x : rws (nd s' x) = if (x =? n)%nat then rs else rws (nd s x). Proof. revert x. vf. Qed.
  Lemma rw_zk x : zk (nd s' x) = if (x =? n)%nat then zz else zk (nd s x). Proof. revert x. vf. Qed.
  Lemma rw_nxt x : nxt (nd s' x) = nxt (nd s x). Proof. revert x. vf. Qed.
  Lemma rw_prv x : prv (nd s' x) = prv (nd s x). Proof. revert x. vf. Qed.
  Lemma rw_keys x : keys (nd s' x) = keys (nd s x). Proof. revert x. vf. Qed.
  Lemma rw_kids x : kids (nd s' x) = kids (nd s x). Proof. revert x. vf. Qed.
  Lemma rw_ver x : ver (nd s' x) = if (x =? n)%nat then v else ver (nd s x). Proof. revert x. vf. Qed.
  Lemma rw_us x : us g' x = if (x =? n)%nat then None else us g x. Proof. reflexivity. Qed.
  Lemma rw_ze x : ze g' x = if (x =? n)%nat then zb else ze g x. Proof. reflexivity. Qed.
  Lemma rw_rh x : rh g' x = if (x =? n)%nat then hh g n else rh g x.
  Proof. unfold rh. rewrite rw_us. destruct (Nat.eqb_spec x n) as [->|N]; reflexivity. Qed.
  Lemma rw_linked x : linked s' g' x <-> linked s g x.
  Proof. apply linked_iff; [exact Ef|apply rw_isl|reflexivity]. Qed.

  Lemma GT_g : GT s' g'.
  Proof.
    assert (H : GT s' g) by (apply (GT_same s); auto using rw_isl, rw_par, rw_keys, rw_kids; apply G).
    exact (GT_g_same s' g g' eq_refl eq_refl eq_refl eq_refl eq_refl eq_refl H).
  Qed.
  Lemma rw_GI : GI s' g'.
  Proof.
    destruct G as [GA GB GC]. constructor; [apply GT_g| |].
    - destruct GB as [H1 H2 H3 H4 H5 H6].
      assert (NE : forall o, nlo s' o = nlo s o) by (intros [b|]; cbn; auto using rw_lo).
      constructor.
      + intros m c. rewrite rw_us. destruct (Nat.eqb_spec m n) as [->|N]; [discriminate|]. intros E. assert (Nc : c <> n) by (intros ->; exact (Hus m E)).
        destruct (H1 m c E) as (A & B & C & D & F & Q). rewrite !rw_linked, rw_us, rw_ver, !rw_rws.
        destruct (Nat.eqb_spec c n); [contradiction|]. destruct (Nat.eqb_spec m n); [contradiction|]. auto 10.
      + intros a. rewrite Ef, rw_isl. intros A B. destruct (H2 a A B) as (C1 & C2 & C3 & C4 & C5 & C6). rewrite rw_lo, rw_ver, rw_rws, rw_nxt.
        split; [exact C1|]. split; [exact C2|]. split; [exact C3|]. destruct (Nat.eqb_spec a n) as [->|N].
        * split; [intros Q; destruct Hn as (_ & _ & U); cbn in Q; congruence|]. split; [congruence|]. intros b Hb. rewrite ?Ef, rw_isl. now apply C6.
        * split; [exact C4|]. split; [exact C5|]. intros b Hb. rewrite ?Ef, rw_isl. now apply C6.
      + intros a A. apply rw_linked in A. destruct (H3 a A) as (C1 & C2 & C3 & C4 & C5 & C6). rewrite rw_lo, rw_nxt, rw_prv, NE.
        split; [exact C1|]. split; [exact C2|]. split; [exact C3|]. split; [|split; [|exact C6]]; intros b Hb; rewrite rw_linked, ?rw_nxt, ?rw_prv; auto.
      + intros a. rewrite Ef, rw_isl. intros A B. rewrite rw_lo, rw_ze, rw_rws, rw_zk, rw_rh. destruct (Nat.eqb_spec a n) as [->|N]; [auto|now apply H4].
      + intros a. rewrite rw_ze, rw_ver. destruct (Nat.eqb_spec a n) as [->|N]; auto.
      + intros a b A B. apply rw_linked in A. apply rw_linked in B. rewrite !rw_lo. now apply H6.
    - destruct GC as [H1 H2 H3 H4 H5 H6 H7]. constructor.
      + intros m c E. change (pd g' m) with (pd g m) in E. rewrite rw_isl, rw_us, rw_ver. destruct (Nat.eqb_spec m n) as [->|N]; [congruence|now apply H1].
      + intros a. rewrite Ef. intros A. destruct (H2 a A) as (B & C).
        assert (Q : forall b, linked s g b -> linked s' g' b /\ lo (nd s' b) = lo (nd s b)) by (intros b Hb; rewrite rw_linked; split; [exact Hb|apply rw_lo]).
        split; eapply bd_same; eauto.
      + intros a. rewrite Ef, rw_ver. destruct (Nat.eqb_spec a n) as [->|N]; auto.
      + intros a. rewrite Ef, rw_ver, rw_rh. destruct (Nat.eqb_spec a n) as [->|N]; auto. intros A B C D. destruct (Vr1 B D) as (E & F).
        pose proof (H4 n A E C F) as Q. unfold rh in Q. rewrite (Vr D) in Q. exact Q.
      + intros a. rewrite Ef, rw_ver, rw_par. destruct (Nat.eqb_spec a n) as [->|N]; auto.
      + intros p tl. rewrite Ef, rw_isl, rw_ver, rw_kids. destruct (Nat.eqb_spec p n) as [->|N]; [|now apply H6]. intros _ B. destruct Hn as (_ & Q & _). congruence.
      + intros p. rewrite Ef, rw_isl, rw_ver, rw_kids. destruct (Nat.eqb_spec p n) as [->|N]; [|now apply H7]. congruence.
  Qed.
  Lemma rw_Rel : Rel s g s' g'.
  Proof.
    constructor; intros; rewrite ?Ef, ?rw_isl, ?rw_par, ?rw_keys, ?rw_kids; auto; try (cbn; lia).
    - rewrite rw_ver. destruct (Nat.eqb_spec a n) as [->|N]; [exact Vm|apply vmono_refl].
    - rewrite rw_rh. rewrite rw_ver in H0. destruct (Nat.eqb_spec a n) as [->|N]; [|lia]. unfold rh. rewrite (Vr H0). lia.
    - repeat split; auto. intros. change (ehi g' c) with (ehi g c). lia.
  Qed.
  Lemma rw_Frame : Frame s g s' g' t.
  Proof.
    constructor; intros; rewrite ?rw_keys, ?rw_kids, ?rw_par, ?rw_lo; auto.
    - rewrite rw_ver, rw_rws. destruct (Nat.eqb_spec a n) as [->|N]; [destruct (mine s t L n Hh t' H H0)|]. repeat split; auto; cbn; lia.
    - repeat split; auto; cbn; lia.
    - rewrite Ep. now apply setf_other.
  Qed.
  Lemma rows_ok : (forall x, In x (holds p') -> In x (holds (pcs s t))) -> LK s' g' -> JI s' g' p' -> OK s g s' t.
  Proof.
    intros Hp KK J. exists g'. split; [apply rw_GI|]. split; [apply rw_Rel|]. split; [apply rw_Frame|]. split; [|split].
    - apply (LI_step s g s' g' t p' L rw_Frame Ep); [lia|]. intros x Hx. pose proof (Hp x Hx) as A. split; [now left|]. rewrite Ef. destruct (proj1 L t x A) as (B & C).
      split; [exact B|]. rewrite rw_ver. destruct (Nat.eqb_spec x n) as [->|N]; auto.
    - exact KK.
    - now rewrite (Ep t), setf_same.
  Qed.
End Rows.

(* ---- rows ---- *)
Lemma sorted_set k w : forall l, StronglySorted Z.lt (map fst l) -> StronglySorted Z.lt (map fst (row_set k w l)).
Proof.
  assert (A : forall (P : Z -> Prop) l, P k -> Forall P (map fst l) -> Forall P (map fst (row_set k w l))).
  { intros P. induction l as [|[a x] l IH]; cbn [row_set]; intros Pk H.
    - constructor; auto.
    - inversion H; subst. destruct (a =? k); [constructor; auto|]. destruct (k <? a); [constructor; auto|]. cbn [map fst] in *. constructor; auto. }
  induction l as [|[a x] l IH]; intros H; cbn [row_set].
  - constructor; constructor.
  - cbn [map fst] in H. inversion H as [|? ? H1 H2]; subst. destruct (Z.eqb_spec a k) as [->|N]; [exact H|].
    destruct (Z.ltb_spec k a) as [Q|Q].
    + cbn [map fst]. constructor; [exact H|]. constructor; [exact Q|]. eapply Forall_impl; [|exact H2]. cbn. intros. lia.
    + cbn [map fst]. constructor; [apply IH; exact H1|]. apply A; [lia|exact H2].
Qed.
Lemma sorted_filter (f : Z * Z -> bool) : forall l, StronglySorted Z.lt (map fst l) -> StronglySorted Z.lt (map fst (filter f l)).
Proof.
  induction l as [|x l IH]; intros H; [exact H|]. cbn [map] in H. inversion H as [|? ? H1 H2]; subst. cbn [filter]. destruct (f x); [|auto].
  cbn [map]. constructor; [auto|]. rewrite Forall_forall in *. intros z Hz. apply H2. rewrite in_map_iff in *. destruct Hz as (q & A & B). exists q.
  split; [exact A|]. now apply filter_In in B.
Qed.
Lemma row_set_cons k w l : row_set k w l <> [].
Proof. destruct l as [|[a x] l]; cbn; [discriminate|]. destruct (a =? k); [discriminate|]. destruct (k <? a); discriminate. Qed.
Lemma row_set_len k w : forall l, row_get k l = None -> length (row_set k w l) = S (length l).
Proof.
  induction l as [|[a x] l IH]; intros H; cbn [row_set row_get] in *; [reflexivity|]. destruct (Z.eqb_spec a k) as [->|N]; [discriminate|].
  destruct (k <? a); [reflexivity|]. cbn [length]. now rewrite IH.
Qed.
(* The first slice of the new leaf: not the first of all, and present among the rows or the new one. *)
Lemma split_key_gt first last k l : row_get k l = None -> StronglySorted Z.lt (map fst l) -> (W - 1 <= length l)%nat ->
  exists x, x < split_key first last k l /\ (x = k \/ row_get x l <> None).
Proof.
  intros Hk Hs Hl. unfold split_key. cbv zeta. pose proof (sorted_set k 0 l Hs) as S1. pose proof (row_set_len k 0 l Hk) as E1.
  match goal with |- context[nth ?j (row_set _ _ _) _] => assert (Hj : (1 <= j < length (row_set k 0 l))%nat); [|set (i := j) in *] end.
  { rewrite E1. unfold W in *. destruct ((length (filter (fun r => (fst r <? k)%Z) l) =? 0)%nat && first); [lia|].
    destruct ((length (filter (fun r => (fst r <? k)%Z) l) =? length l)%nat && last); [lia|]. change (S (15 / 2)) with 8%nat. lia. }
  clearbody i. destruct (row_set k 0 l) as [|[a x] m] eqn:E; [cbn in Hj; lia|]. exists a. split.
  - destruct i as [|i]; [lia|]. cbn [nth]. cbn [map fst] in S1. inversion S1 as [|? ? _ F]; subst. rewrite Forall_forall in F. apply F.
    apply in_map. apply nth_In. cbn [length] in Hj. lia.
  - assert (Q : row_get a (row_set k 0 l) <> None) by (rewrite E; cbn [row_get]; rewrite Z.eqb_refl; discriminate).
    rewrite row_get_set in Q. destruct (Z.eqb_spec k a); [left; congruence|now right].
Qed.
