(* Concurrent layer: the steps of a search. *)
From Verif Require Import Lib M_Tree M_Stampc P_Stampc1 M_Conc P_Conc1 P_Conc2.
From Coq Require Import Sorting.Sorted.

Lemma GI_ext s s' g : nd s' = nd s -> fr s' = fr s -> (rootp s' < fr s)%nat /\ l0 g (rootp s') = 0 -> GI s g -> GI s' g.
Proof.
  destruct s as [n0 f0 r0 p0 m0 a0], s' as [n1 f1 r1 p1 m1 a1]. cbn [nd fr rootp]. intros -> -> Hr G. destruct G as [GA GB GC].
  constructor.
  - destruct GA. constructor; assumption.
  - destruct GB. constructor; assumption.
  - destruct GC. constructor; assumption.
Qed.
Lemma JI_ext s s' g p : nd s' = nd s -> fr s' = fr s -> JI s g p -> JI s' g p.
Proof.
  destruct s as [n0 f0 r0 p0 m0 a0], s' as [n1 f1 r1 p1 m1 a1]. cbn [nd fr]. intros -> ->. intros H. destruct p; exact H.
Qed.

(* What a step of thread t does to everything the proof keeps. *)
Definition OK (s : cst) (g : gst) (s' : cst) (t : nat) : Prop :=
  exists g', GI s' g' /\ Rel s g s' g' /\ Frame s g s' g' t /\ LI s' /\ LK s' g' /\ JI s' g' (pcs s' t).

Lemma Rel_quiet s g s' : nd s' = nd s -> fr s' = fr s -> Rel s g s' g.
Proof.
  intros E1 E2. constructor; try rewrite E1; try rewrite E2; auto; try lia; intros; try rewrite E1 in *; auto; try lia.
  - apply vmono_refl.
  - repeat split; auto. intros. lia.
Qed.
Lemma Frame_quiet s g s' t p' : nd s' = nd s -> (forall t0, pcs s' t0 = setf (pcs s) t p' t0) -> Frame s g s' g t.
Proof.
  intros E1 E2. constructor; intros; rewrite ?E1.
  - repeat split; auto; lia.
  - repeat split; auto; lia.
  - reflexivity.
  - rewrite E2. now apply setf_other.
Qed.
Lemma quiet_ok s g s' t p' : GI s g -> LI s -> LK s g -> nd s' = nd s -> fr s' = fr s -> (rootp s' < fr s)%nat /\ l0 g (rootp s') = 0 ->
  (forall t0, pcs s' t0 = setf (pcs s) t p' t0) -> (forall a, In a (holds p') -> In a (holds (pcs s t))) ->
  pdof p' = pdof (pcs s t) -> usof p' = usof (pcs s t) -> rpof p' = rpof (pcs s t) ->
  (zeof (pcs s t) = None \/ zeof p' = zeof (pcs s t)) -> JI s g p' -> OK s g s' t.
Proof.
  intros G L K E1 E2 Hr E3 Hh K1 K2 K3 K4 J. exists g. pose proof (Frame_quiet s g s' t p' E1 E3) as F.
  split; [now apply (GI_ext s)|]. split; [now apply Rel_quiet|]. split; [exact F|]. split.
  - apply (LI_step s g s' g t p' L F E3); [lia|]. intros a Ha. pose proof (Hh a Ha) as H1. split; [now left|]. rewrite E1, E2. exact (proj1 L t a H1).
  - split; [now apply (link_same s t p' L g s')|]. rewrite (E3 t), setf_same. now apply (JI_ext s).
Qed.

Lemma last_any {A} (a b : A) : forall l x, last (x :: l) a = last (x :: l) b.
Proof. induction l as [|y l IH]; intros x; [reflexivity|]. exact (IH y). Qed.
Lemma last_sh {A} (r : A) : forall l x, last (x :: l) r = last l x.
Proof. intros [|y l] x; [reflexivity|]. change (last (x :: y :: l) r) with (last (y :: l) r). apply last_any. Qed.

Section Read.
  Variables (s : cst) (g : gst).
  Hypothesis G : GI s g.
  Let GA := gi_t _ _ G.
  Let GB := gi_l _ _ G.
  Let GC := gi_v _ _ G.

  Lemma JJ_enter y o n v : yr y -> JJ s g n v y -> JI s g (enter s y o n v).
  Proof.
    intros A B. unfold enter. destruct (isl (nd s n)) eqn:E; cbn [JI].
    - split; [exact A|]. split; [apply B|]. split; [exact E|]. intros _. apply B.
    - split; [exact A|]. split; [exact B|]. split; [exact E|]. intros _. split; [lia|]. split; [|discriminate].
      intros c Hc. destruct B as ((B1 & _ & _ & B2) & _). destruct (gt_int _ _ GA n B1 E) as (k0 & t & K1 & _ & K2). rewrite K1 in Hc. cbn [nth] in Hc.
      pose proof (K2 c Hc). lia.
  Qed.
  Lemma JJ_again y o n v v2 : yr y -> JJ s g n v y -> isl (nd s n) = false -> v2 = ver (nd s n) -> v_dirty v2 = false -> v_hassplit v v2 = false ->
    JI s g (PIn y o n v2 0 None).
  Proof.
    intros A B C -> D E. assert (H : JJ s g n (ver (nd s n)) y).
    { destruct B as ((B1 & B2 & B3 & B4) & B5). apply v_dirty_false in D. split; [split; [exact B1|]; split; [exact D|]; split; [apply vle_refl|exact B4]|].
      intros _. apply B5. split; [exact (nohassplit _ _ E)|apply D]. }
    pose proof (JJ_enter y o n _ A H) as K. unfold enter in K. rewrite C in K. exact K.
  Qed.
  Lemma KK_stbl y n v : KK s g n v y -> v_dirty (ver (nd s n)) = false -> KK s g n (ver (nd s n)) y.
  Proof. intros (A & _ & _ & B) D. apply v_dirty_false in D. split; [exact A|]. split; [exact D|]. split; [apply vle_refl|exact B]. Qed.
  Lemma ehi_rh c : (c < fr s)%nat -> v_dirty (ver (nd s c)) = false -> ehi g c <= rh g c.
  Proof.
    intros A D. unfold ehi. destruct (pd g c) as [d|] eqn:E; [|now apply (rh_ge s)]. destruct (gv_pd _ _ GC _ _ E) as (H1 & H2).
    destruct (isl (nd s c)) eqn:Ei.
    - unfold rh. rewrite (H1 eq_refl). lia.
    - apply v_dirty_false in D. destruct D as (_ & D). rewrite (H2 eq_refl) in D. discriminate.
  Qed.
  Lemma last_inter y n : (n < fr s)%nat -> isl (nd s n) = false -> last_gt (nd s n) y = false -> y < rh g n.
  Proof.
    intros A B C. unfold last_gt in C. rewrite B in C. rewrite (rh_inter _ _ _ GB B). destruct (keys (nd s n)) as [|k l] eqn:E; [discriminate|].
    apply Z.ltb_ge in C. destruct (kid_key _ _ n (length l) GA A B) as (c & H1 & _ & H2); [rewrite E; cbn [length]; lia|].
    rewrite E in H2. assert (El : nth (length l) (k :: l) 0 = last l k).
    { clear. revert k. induction l as [|x l IH]; intros k; [reflexivity|]. cbn [length]. change (nth (S (length l)) (k :: x :: l) 0) with (nth (length l) (x :: l) 0). rewrite IH. symmetry. apply last_sh. }
    rewrite El in H2. destruct (gt_kid _ _ GA n c A B (kid_in _ _ _ H1)) as (Hc & _). destruct (aft_num _ _ _ _ GA Hc H2) as (_ & H3).
    pose proof (kid_range _ _ n c GA A B (kid_in _ _ _ H1)). pose proof (ehi_ge _ _ c GA Hc). lia.
  Qed.
  Lemma last_leaf y n : (n < fr s)%nat -> isl (nd s n) = true -> v_spl (ver (nd s n)) = false -> last_gt (nd s n) y = false -> y < rh g n.
  Proof.
    intros A B D C. unfold last_gt in C. rewrite B in C. apply Z.ltb_ge in C. destruct (gl_rows _ _ GB n A B) as (_ & H2 & H3).
    destruct (rws (nd s n)) as [|r l] eqn:E.
    - assert (Hz : ze g n = false). { destruct (ze g n) eqn:Ez; [|reflexivity]. rewrite (gl_ze _ _ GB n Ez) in D. discriminate. }
      pose proof (H3 Hz eq_refl). lia.
    - assert (H4 : lo (nd s n) <= fst (last l r) < rh g n); [|lia]. apply H2. apply row_get_in. exists (snd (last l r)).
      replace (fst (last l r), snd (last l r)) with (last l r) by now destruct (last l r). clear. revert r. induction l as [|x l IH]; intros r; [now left|].
      right. rewrite last_sh. apply IH.
  Qed.
  Lemma walk_stop y n v : KK s g n v y -> isl (nd s n) = true -> (forall b, nxt (nd s n) = Some b -> y < lo (nd s b)) -> yr y ->
    v_del v = false -> nosplit v (ver (nd s n)) -> y < rh g n.
  Proof.
    intros (A & B & C & D) E H Y K1 K2. pose proof (vle_del _ _ C K2) as K3. rewrite K1 in K3.
    assert (U : ul g n = false). { destruct (ul g n) eqn:Eu; [|reflexivity]. destruct (gl_leaf _ _ GB n A E) as (_ & _ & _ & Q & _). rewrite (Q Eu) in K3. discriminate. }
    destruct (gl_link _ _ GB n (conj A (conj E U))) as (_ & _ & L1 & _). pose proof (rh_ge _ _ n GA GB A). unfold nlo in L1.
    destruct (nxt (nd s n)) as [b|]; [pose proof (H b eq_refl); lia|]. destruct Y. lia.
  Qed.
End Read.
