(* The work queue of destroy. *)
From Verif Require Import Lib M_Key M_Permuter M_Tree P_Tree1 M_Destroy.

(* Same contents apart from the link and the deleted bit. *)
Definition same (a b : node) : Prop :=
  match a, b with
  | NLeaf x, NLeaf y => lf_perm x = lf_perm y /\ lf_klx x = lf_klx y /\ lf_lv x = lf_lv y
  | NInter x, NInter y => in_nkeys x = in_nkeys y /\ in_child x = in_child y
  | _, _ => False
  end.
Lemma same_refl a : same a a. Proof. destruct a; cbn; auto. Qed.
Lemma same_parent a b p : same a b -> same a (n_set_parent p b). Proof. destruct a, b; cbn; auto. Qed.
Lemma parent_set p b : n_parent (n_set_parent p b) = p. Proof. destruct b; auto. Qed.

Lemma nodup_l {A} (x y : list A) : NoDup (x ++ y) -> NoDup x.
Proof. induction x as [|c x IH]; cbn; intros H; [constructor|]. inversion H as [|? ? H2 H3]; subst. rewrite in_app_iff in H2. constructor; auto. Qed.

(* Consecutive elements are linked. *)
Fixpoint chain (h : heap) (Q : list addr) : Prop :=
  match Q with
  | [] => True
  | a :: Q' => match Q' with [] => True | b :: _ => exists n, hp_node h a = Some n /\ n_parent n = Some b end /\ chain h Q'
  end.
Fixpoint lasto (Q : list addr) : option addr :=
  match Q with [] => None | a :: Q' => match Q' with [] => Some a | _ => lasto Q' end end.
Lemma lasto_snoc Q b : lasto (Q ++ [b]) = Some b.
Proof. induction Q as [|a Q IH]; auto. cbn [app lasto]. destruct (Q ++ [b]) eqn:E; auto. destruct Q; discriminate. Qed.
Lemma lasto_in Q a : lasto Q = Some a -> In a Q.
Proof. induction Q as [|b Q IH]; [discriminate|]. cbn [lasto]. destruct Q; [intros [= <-]; left; auto|right; auto]. Qed.
Lemma lasto_none Q : lasto Q = None -> Q = [].
Proof. destruct Q as [|a Q]; auto. revert a. induction Q as [|b Q IH]; [discriminate|]. intros a H. exfalso. specialize (IH b H). discriminate. Qed.
Lemma lasto_head a Q : NoDup (a :: Q) -> lasto (a :: Q) = Some a -> Q = [].
Proof. intros N H. destruct Q as [|b Q]; auto. exfalso. change (lasto (b :: Q) = Some a) in H. apply lasto_in in H. inversion N; contradiction. Qed.

Lemma chain_frame h h' Q : (forall a, In a Q -> hp_node h' a = hp_node h a) -> chain h Q -> chain h' Q.
Proof.
  induction Q as [|a Q IH]; cbn [chain]; auto. intros F [A B]. split; [|apply IH; auto; intros; apply F; right; auto].
  destruct Q; auto. rewrite F by (left; auto). auto.
Qed.
Lemma chain_snoc h Q t b n : NoDup Q -> lasto Q = Some t -> hp_node h t = Some n -> chain h Q ->
  chain (hset h t (n_set_parent (Some b) n)) (Q ++ [b]).
Proof.
  induction Q as [|a Q IH]; [discriminate|]. intros N Lt E C. inversion N as [|? ? N1 N2]; subst.
  destruct Q as [|c Q].
  - cbn [lasto] in Lt. injection Lt as <-. cbn [app chain]. repeat split; auto. exists (n_set_parent (Some b) n). cbn. rewrite upd_same, parent_set. auto.
  - cbn [lasto] in Lt. destruct C as [(m & M1 & M2) C]. cbn [app chain]. split; [|apply (IH N2 Lt E C)].
    exists m. cbn. rewrite upd_other; auto. intros ->. apply N1. apply lasto_in. auto.
Qed.

Section Q.
Context (h0 : heap).
Record qinv (s : dstate) (Q X : list addr) : Prop := {
  q_next : hp_next (d_heap s) = hp_next h0;
  q_nodup : NoDup (Q ++ X);
  q_same : forall a, In a Q -> exists n0 n, hp_node h0 a = Some n0 /\ hp_node (d_heap s) a = Some n /\ same n0 n;
  q_rest : forall a, ~ In a (Q ++ X) -> hp_node (d_heap s) a = hp_node h0 a;
  q_head : d_workq s = hd_error Q;
  q_tail : d_tail s = lasto Q;
  q_chain : chain (d_heap s) Q
}.

Lemma enqueue_ok s Q X b n : qinv s Q X -> ~ In b (Q ++ X) -> hp_node h0 b = Some n ->
  exists s', enqueue s b = Ok s' /\ qinv s' (Q ++ [b]) X /\ (forall a, In a X -> hp_node (d_heap s') a = hp_node (d_heap s) a).
Proof.
  intros I Nb E.
  assert (Hb : hp_node (d_heap s) b = Some n) by (rewrite (q_rest _ _ _ I); auto).
  assert (ND : NoDup ((Q ++ [b]) ++ X)).
  { rewrite <- app_assoc. cbn [app]. apply NoDup_Add with (a := b) (l := Q ++ X); [apply Add_app|]. split; auto. apply (q_nodup _ _ _ I). }
  assert (NI : forall a, ~ In a ((Q ++ [b]) ++ X) -> a <> b /\ ~ In a (Q ++ X)).
  { intros a Ha. rewrite !in_app_iff in Ha. cbn in Ha. rewrite in_app_iff. split; intros Hx; apply Ha; subst; tauto. }
  unfold enqueue. rewrite (q_tail _ _ _ I). destruct (lasto Q) as [t|] eqn:T.
  - pose proof (lasto_in _ _ T) as Ti. destruct (q_same _ _ _ I t Ti) as (n0 & nt & E0 & Et & Sm).
    assert (Nt : t <> b) by (intros ->; apply Nb, in_app_iff; auto).
    assert (Q0 : Q <> []) by (intros ->; discriminate).
    unfold set_parent. rewrite (hget_some _ _ _ Et). cbn [bind d_heap].
    rewrite (hget_some (hset (d_heap s) t _) b n) by (cbn; rewrite upd_other; auto). cbn [bind d_heap d_workq].
    eexists. split; [reflexivity|]. split.
    + constructor; cbn [d_heap d_workq d_tail].
      * cbn. apply (q_next _ _ _ I).
      * exact ND.
      * intros a Ha. cbn. apply in_app_iff in Ha. destruct (Nat.eq_dec a t) as [->|Na].
        { rewrite upd_same. exists n0, (n_set_parent (Some b) nt). auto using same_parent. }
        rewrite upd_other by auto. destruct Ha as [Ha|[<-|[]]]; [apply (q_same _ _ _ I); auto|]. exists n, n. auto using same_refl.
      * intros a Ha. destruct (NI a Ha) as [A1 A2]. cbn. rewrite upd_other; [apply (q_rest _ _ _ I); auto|].
        intros ->. apply A2, in_app_iff. auto.
      * rewrite (q_head _ _ _ I). destruct Q; [contradiction|reflexivity].
      * symmetry. apply lasto_snoc.
      * apply chain_snoc; auto; [|apply (q_chain _ _ _ I)]. apply (nodup_l Q X), (q_nodup _ _ _ I).
    + intros a Ha. cbn. rewrite upd_other; auto. intros ->. pose proof (q_nodup _ _ _ I) as Nd. clear - Nd Ha Ti. induction Q as [|c Q IH]; [destruct Ti|]. inversion Nd; subst. rewrite in_app_iff in H1. destruct Ti as [->|Ti]; [tauto|auto].
  - apply lasto_none in T. subst Q. cbn [bind d_heap d_workq]. rewrite (hget_some _ _ _ Hb). cbn [bind].
    eexists. split; [reflexivity|]. split; auto. constructor; cbn [d_heap d_workq d_tail]; auto.
    + apply (q_next _ _ _ I).
    + intros a [<-|[]]. exists n, n. auto using same_refl.
    + intros a Ha. destruct (NI a Ha) as [A1 A2]. apply (q_rest _ _ _ I). auto.
    + cbn. auto.
Qed.

Lemma dequeue_ok s n Q X : qinv s (n :: Q) X ->
  exists s', dequeue s n = Ok s' /\ d_heap s' = d_heap s /\ qinv s' Q (n :: X).
Proof.
  intros I. destruct (q_same _ _ _ I n (or_introl eq_refl)) as (n0 & nn & E0 & En & Sm).
  pose proof (q_nodup _ _ _ I) as Nd.
  assert (ND : NoDup (Q ++ n :: X)).
  { cbn [app] in Nd. inversion Nd; subst. apply NoDup_Add with (a := n) (l := Q ++ X); [apply Add_app|]. auto. }
  assert (NI : forall a, ~ In a (Q ++ n :: X) -> ~ In a ((n :: Q) ++ X)).
  { intros a Ha Hb. apply Ha. cbn [app In] in Hb. rewrite in_app_iff in *. cbn. tauto. }
  assert (Sm' : forall a, In a Q -> exists n0 n, hp_node h0 a = Some n0 /\ hp_node (d_heap s) a = Some n /\ same n0 n) by (intros a Ha; apply (q_same _ _ _ I); right; auto).
  pose proof (proj2 (q_chain _ _ _ I : chain (d_heap s) (n :: Q))) as Ch.
  unfold dequeue. rewrite (hget_some _ _ _ En). cbn [bind]. rewrite (q_tail _ _ _ I).
  destruct (lasto (n :: Q)) as [t|] eqn:T; [|apply lasto_none in T; discriminate].
  destruct (Nat.eqb_spec t n) as [->|Ne].
  - assert (Q = []) by (apply lasto_head with (a := n); auto; apply (nodup_l (n :: Q) X); exact Nd). subst Q. eexists. split; [reflexivity|]. split; auto. constructor; cbn [d_heap d_workq d_tail]; auto. apply (q_next _ _ _ I). intros a Ha. apply (q_rest _ _ _ I). auto.
  - destruct Q as [|b Q]; [cbn in T; congruence|]. eexists. split; [reflexivity|]. split; auto.
    destruct (q_chain _ _ _ I) as [(m & M1 & M2) _]. constructor; cbn [d_heap d_workq d_tail]; auto.
    + apply (q_next _ _ _ I).
    + intros a Ha. apply (q_rest _ _ _ I). auto.
    + cbn. congruence.
Qed.
End Q.
