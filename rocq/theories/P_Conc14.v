(* Concurrent layer: every step of a search keeps the invariant. *)
From Verif Require Import Lib M_Tree M_Stampc P_Stampc1 M_Conc P_Conc1 P_Conc2 P_Conc3 P_Conc4 P_Conc5.

Definition bare (p : pct) : Prop := holds p = [] /\ pdof p = None /\ usof p = None /\ rpof p = None /\ zeof p = None.
Lemma bare_enter s y o n v : bare (enter s y o n v).
Proof. unfold enter. destruct (isl (nd s n)); repeat split. Qed.
Lemma pcs_self s t p : pcs s t = p -> forall t0, pcs s t0 = setf (pcs s) t p t0.
Proof. intros E t0. unfold setf. destruct (Nat.eqb_spec t0 t) as [->|]; auto. Qed.
Lemma is_same s n v : same s n v = true -> forall w, w = ver (nd s n) -> v_same v w = true.
Proof. intros H w ->. exact H. Qed.
(* What the facts of a writer need of the state. *)
Definition alike (s s' : cst) : Prop := fr s' = fr s /\ forall x, isl (nd s' x) = isl (nd s x) /\ lo (nd s' x) = lo (nd s x) /\ rws (nd s' x) = rws (nd s x) /\
  v_del (ver (nd s' x)) = v_del (ver (nd s x)) /\ kids (nd s' x) = kids (nd s x) /\ par (nd s' x) = par (nd s x).
Lemma alike_vput s a v t p : v_del v = v_del (ver (nd s a)) -> alike s (go (vput s a v) t p).
Proof.
  intros H. split; [reflexivity|]. intros x. cbn [go nd]. rewrite nd_vput. destruct (Nat.eqb_spec x a) as [->|N]; repeat split; auto.
Qed.
Lemma del_unlock w : v_del (v_unlock w) = v_del w. Proof. unfold v_unlock. now destruct (v_spl w). Qed.
Section Alike.
  Variables (s s' : cst) (g : gst).
  Hypothesis A : alike s s'.
  Lemma lk_alike a : linked s g a -> linked s' g a.
  Proof. destruct A as (E & H). intros (B & C & D). destruct (H a) as (E1 & _). split; [now rewrite E|]. split; [congruence|exact D]. Qed.
  Lemma TG_alike a y : TG s g a y -> TG s' g a y.
  Proof. intros (B & C & D). destruct A as (E & H). destruct (H a) as (E1 & E2 & E3 & E4 & _). split; [now apply lk_alike|]. rewrite E2, E4. auto. Qed.
  Lemma SF_alike y tg n c sk h : SF s g y tg n c sk h -> SF s' g y tg n c sk h.
  Proof.
    intros (B & C). split; [exact B|]. destruct A as (E & H). destruct (H n) as (E1 & E2 & E3 & E4 & _). destruct h.
    - destruct (H c) as (F1 & F2 & F3 & F4 & _). destruct C as (C1 & C2 & C3). rewrite E2, E3, E4, F2, F4. split; [now apply lk_alike|]. split; [now apply lk_alike|exact C3].
    - destruct C as (C1 & C2). split; [congruence|now apply TG_alike].
  Qed.
  Lemma PF_alike q nc : PF s g q nc -> PF s' g q nc.
  Proof. destruct q as [q|]; cbn [PF]; [|auto]. intros (B & C). destruct A as (_ & H). destruct (H q) as (E & _). split; [congruence|exact C]. Qed.
  Lemma DF_alike n rep : DF s g n rep -> DF s' g n rep.
  Proof. destruct A as (_ & H). destruct (H n) as (E1 & _ & _ & _ & E5 & E6). unfold DF. now rewrite E1, E5, E6. Qed.
  Lemma isl_alike n b : isl (nd s n) = b -> isl (nd s' n) = b.
  Proof. destruct A as (_ & H). destruct (H n) as (E1 & _). congruence. Qed.
  Lemma del_alike n b : v_del (ver (nd s n)) = b -> v_del (ver (nd s' n)) = b.
  Proof. destruct A as (_ & H). destruct (H n) as (_ & _ & _ & E & _). congruence. Qed.
  Lemma par_alike n : par (nd s' n) = par (nd s n).
  Proof. destruct A as (_ & H). now destruct (H n) as (_ & _ & _ & _ & _ & E). Qed.
  Lemma lo_alike n : lo (nd s' n) = lo (nd s n).
  Proof. destruct A as (_ & H). now destruct (H n) as (_ & E & _). Qed.
End Alike.

Section Core.
  Variables (s : cst) (g : gst) (t : nat).
  Hypothesis G : GI s g.
  Hypothesis L : LI s.
  Hypothesis K : LK s g.
  Let GA := gi_t _ _ G.
  Let GB := gi_l _ _ G.
  Let GC := gi_v _ _ G.

  Lemma quiet p p' : pcs s t = p -> (forall a, In a (holds p') -> In a (holds p)) -> pdof p' = pdof p -> usof p' = usof p -> rpof p' = rpof p ->
    (zeof p = None \/ zeof p' = zeof p) -> JI s g p' -> OK s g (go s t p') t.
  Proof. intros E H1 H2 H3 H4 H5 J. subst p. apply (quiet_ok s g _ t p' G L K); auto. apply (gt_rootp _ _ GA). Qed.
  Lemma rd p p' : pcs s t = p -> bare p -> bare p' -> JI s g p' -> OK s g (go s t p') t.
  Proof.
    intros E (A1 & A2 & A3 & A4 & A5) (B1 & B2 & B3 & B4 & B5) J. apply (quiet p); auto; try congruence.
  Qed.
  Lemma rootJ y o : yr y -> JI s g (PRoot y o (rootp s)).
  Proof. intros H. cbn [JI]. split; [exact H|]. apply (gt_rootp _ _ GA). Qed.

    Ltac r := eapply rd; [eassumption| | |].
    Lemma rd_root y o n : pcs s t = PRoot y o n -> JI s g (PRoot y o n) -> v_dirty (ver (nd s n)) = false ->
      OK s g (go s t (if v_rt (ver (nd s n)) then enter s y o n (ver (nd s n)) else PUp y o n)) t.
    Proof.
      intros E J D. cbn [JI] in J. destruct J as (Y & Hn & H0). r; [repeat split| |].
      - destruct (v_rt (ver (nd s n))); [apply bare_enter|repeat split].
      - destruct (v_rt (ver (nd s n))) eqn:Er; [|cbn [JI]; auto]. apply v_dirty_false in D. apply (JJ_enter s g G); [exact Y|]. split.
        + split; [exact Hn|]. split; [exact D|]. split; [apply vle_refl|]. destruct Y. lia.
        + intros (_ & Q). rewrite (gv_root1 _ _ GC n Hn Er H0 Q). apply Y.
    Qed.
    Lemma rd_up y o n : pcs s t = PUp y o n -> JI s g (PUp y o n) -> OK s g (go s t (PRoot y o (match par (nd s n) with Some q => q | None => n end))) t.
    Proof.
      intros E J. cbn [JI] in J. destruct J as (Y & Hn & H0). r; [repeat split|repeat split|]. cbn [JI]. split; [exact Y|]. destruct (par (nd s n)) as [q|] eqn:Q; [|auto].
      destruct (gt_par _ _ GA n q Hn Q) as (A & _ & B). auto.
    Qed.
    Lemma rd_cmp y o n v l u m j : pcs s t = PIn y o n v l u -> JI s g (PIn y o n v l u) -> (l <= m)%nat -> (same s n v = false \/ (m < length (keys (nd s n)))%nat) ->
      OK s g (go s t (if (if same s n v then nth m (keys (nd s n)) 0 <=? y else j) then PIn y o n v (S m) u else PIn y o n v l (Some m))) t.
    Proof.
      intros E J Hl Hm. cbn [JI] in J. destruct J as (Y & A & B & C). pose proof (proj1 (proj1 A)) as Hn.
      r; [repeat split|match goal with |- context[if ?b then PIn _ _ _ _ _ _ else _] => destruct b end; repeat split|].
      destruct (same s n v) eqn:Es.
      - destruct Hm as [Hm|Hm]; [discriminate|]. destruct (C eq_refl) as (C1 & C2 & C3). destruct (kid_key _ _ n m GA Hn B Hm) as (d & D1 & D2 & D3).
        destruct (Z.leb_spec (nth m (keys (nd s n)) 0) y) as [Q|Q]; cbn [JI]; (split; [exact Y|]; split; [exact A|]; split; [exact B|]; intros _).
        + split; [lia|]. split; [|exact C3]. intros c Hc. assert (c = d) by congruence. subst c. lia.
        + split; [exact C1|]. split; [exact C2|]. intros b Hb. injection Hb as <-. intros c Hc. rewrite (kid_adj _ _ n m c d GA Hn B Hc D1).
          destruct (gt_kid _ _ GA n d Hn B (kid_in _ _ _ D1)) as (Hd & _). destruct (aft_num _ _ _ _ GA Hd D3). lia.
      - destruct j; cbn [JI]; (split; [exact Y|]; split; [exact A|]; split; [exact B|]; congruence).
    Qed.
    Lemma rd_kid y o n v l u c : pcs s t = PIn y o n v l u -> JI s g (PIn y o n v l u) -> (c < fr s)%nat ->
      (same s n v = true -> nth l (kids (nd s n)) None = Some c /\ (u = Some l \/ (u = None /\ l = length (keys (nd s n))))) ->
      OK s g (go s t (PKid y o n v c)) t.
    Proof.
      intros E J Hc H. cbn [JI] in J. destruct J as (Y & A & B & C). pose proof (proj1 (proj1 A)) as Hn.
      r; [repeat split|repeat split|]. cbn [JI]. split; [exact Y|]. split; [exact A|]. split; [exact B|]. split; [exact Hc|]. intros Q.
      destruct (H Q) as (H1 & H2). destruct (C Q) as (C1 & C2 & C3). split; [exact (kid_in _ _ _ H1)|]. split; [auto|].
      destruct H2 as [H2|(H2 & H3)]; [exact (C3 l H2 c H1)|]. subst l. rewrite (kid_last _ _ n c GA Hn B H1). destruct A as ((_ & A1 & _) & A2).
      rewrite <- (rh_inter _ _ _ GB B). apply A2. apply (same_nosplit _ _ A1 Q).
    Qed.
    Lemma rd_stk y o n v c : pcs s t = PKid y o n v c -> JI s g (PKid y o n v c) -> v_dirty (ver (nd s c)) = false -> OK s g (go s t (PChk y o n v c (ver (nd s c)))) t.
    Proof.
      intros E J D. cbn [JI] in J. destruct J as (Y & A & B & Hc & C). r; [repeat split|repeat split|]. cbn [JI]. do 4 (split; [assumption|]).
      split; [now apply v_dirty_false|]. split; [apply vle_refl|]. intros Q. destruct (C Q) as (C1 & C2 & C3). split; [exact C2|]. intros _.
      pose proof (ehi_rh _ _ G c Hc D). lia.
    Qed.
    Lemma rd_chk y o n v c vc : pcs s t = PChk y o n v c vc -> JI s g (PChk y o n v c vc) -> OK s g (go s t (if same s n v then enter s y o c vc else PRe y o n v)) t.
    Proof.
      intros E J. cbn [JI] in J. destruct J as (Y & A & B & Hc & C1 & C2 & C3). r; [repeat split| |].
      - destruct (same s n v); [apply bare_enter|repeat split].
      - destruct (same s n v); [|cbn [JI]; auto]. destruct (C3 eq_refl) as (C4 & C5). apply (JJ_enter s g G); [exact Y|]. split; [split; auto|exact C5].
    Qed.
    Lemma rd_re y o n v : pcs s t = PRe y o n v -> JI s g (PRe y o n v) -> v_dirty (ver (nd s n)) = false ->
      OK s g (go s t (if v_hassplit v (ver (nd s n)) then PLast y o n (ver (nd s n)) (ver (nd s n)) else PIn y o n (ver (nd s n)) 0 None)) t.
    Proof.
      intros E J D. cbn [JI] in J. destruct J as (Y & A & B). r; [repeat split|destruct (v_hassplit v (ver (nd s n))); repeat split|].
      destruct (v_hassplit v (ver (nd s n))) eqn:Q; [|exact (JJ_again s g G y o n v _ Y A B eq_refl D Q)].
      pose proof (KK_stbl s g y n v (proj1 A) D). cbn [JI]. auto.
    Qed.
    Lemma rd_last y o n v vi j : pcs s t = PLast y o n v vi -> JI s g (PLast y o n v vi) -> OK s g (go s t (PLastC y o n v vi (if same s n vi then last_gt (nd s n) y else j))) t.
    Proof.
      intros E J. cbn [JI] in J. destruct J as (Y & A & B & C). r; [repeat split|repeat split|]. cbn [JI]. do 4 (split; [assumption|]). intros Q1 Q2. rewrite Q2 in Q1.
      apply (last_inter s g G y n); auto. apply A.
    Qed.
    Lemma rd_lastc y o n v vi gt : pcs s t = PLastC y o n v vi gt -> JI s g (PLastC y o n v vi gt) -> same s n vi = true -> OK s g (go s t (if gt then PRoot y o (rootp s) else PIn y o n v 0 None)) t.
    Proof.
      intros E J Q. cbn [JI] in J. destruct J as (Y & A & B & C & D). r; [repeat split|destruct gt; repeat split|]. destruct gt; [now apply rootJ|].
      pose proof (JJ_enter s g G y o n v Y) as H. unfold enter in H. rewrite C in H. apply H. split; auto.
    Qed.
    Lemma rd_lastr y o n v vi gt : pcs s t = PLastC y o n v vi gt -> JI s g (PLastC y o n v vi gt) -> v_dirty (ver (nd s n)) = false -> OK s g (go s t (PLast y o n v (ver (nd s n)))) t.
    Proof. intros E J Q. cbn [JI] in J. destruct J as (Y & A & B & C & D). r; [repeat split|repeat split|]. pose proof (KK_stbl s g y n v A Q). cbn [JI]. auto. Qed.
    Lemma rd_leaf y o n v j : pcs s t = PLeaf y o n v -> JI s g (PLeaf y o n v) -> OK s g (go s t (if v_del v then PRoot y o (rootp s) else PRead y o n v j)) t.
    Proof.
      intros E J. cbn [JI] in J. destruct J as (Y & A & B & C). r; [repeat split|destruct (v_del v); repeat split|]. destruct (v_del v) eqn:Q; [now apply rootJ|].
      cbn [JI]. split; [exact Y|]. split; [split; auto|]. auto.
    Qed.
    Lemma rd_get y o n v r0 : pcs s t = PRead y o n v r0 -> JI s g (PRead y o n v r0) -> OK s g (go s t (if same s n v then PDone y o r0 else PAdv y o n v)) t.
    Proof.
      intros E J. cbn [JI] in J. destruct J as (Y & A & B & C). r; [repeat split|destruct (same s n v); repeat split|]. destruct (same s n v); cbn [JI]; auto.
    Qed.
    Lemma rd_adv y o n v : pcs s t = PAdv y o n v -> JI s g (PAdv y o n v) -> v_dirty (ver (nd s n)) = false ->
      OK s g (go s t (if v_hassplit v (ver (nd s n)) then PLLast y o n (ver (nd s n)) (ver (nd s n)) else PLeaf y o n (ver (nd s n)))) t.
    Proof.
      intros E J D. cbn [JI] in J. destruct J as (Y & A & B). r; [repeat split|destruct (v_hassplit v (ver (nd s n))); repeat split|]. pose proof (KK_stbl s g y n v (proj1 A) D).
      destruct (v_hassplit v (ver (nd s n))) eqn:Q; cbn [JI]; [auto|]. split; [exact Y|]. split; [assumption|]. split; [exact B|]. intros _ (_ & Q2). apply A.
      split; [now apply nohassplit|exact Q2].
    Qed.
    Lemma rd_llast y o n v vi j : pcs s t = PLLast y o n v vi -> JI s g (PLLast y o n v vi) -> OK s g (go s t (PLLastC y o n v vi (if same s n vi then last_gt (nd s n) y else j))) t.
    Proof.
      intros E J. cbn [JI] in J. destruct J as (Y & A & B & C). r; [repeat split|repeat split|]. cbn [JI]. do 4 (split; [assumption|]). intros Q1 Q2. rewrite Q2 in Q1.
      apply (last_leaf s g G y n); auto; [apply A|]. exact (proj2 (same_stbl _ _ (proj1 (proj2 B)) Q2)).
    Qed.
    Lemma rd_llastc y o n v vi gt : pcs s t = PLLastC y o n v vi gt -> JI s g (PLLastC y o n v vi gt) -> same s n vi = true -> OK s g (go s t (if gt then PWalk y o n v else PLeaf y o n v)) t.
    Proof.
      intros E J Q. cbn [JI] in J. destruct J as (Y & A & B & C & D). r; [repeat split|destruct gt; repeat split|]. destruct gt; cbn [JI]; auto.
    Qed.
    Lemma rd_llastr y o n v vi gt : pcs s t = PLLastC y o n v vi gt -> JI s g (PLLastC y o n v vi gt) -> v_dirty (ver (nd s n)) = false -> OK s g (go s t (PLLast y o n v (ver (nd s n)))) t.
    Proof. intros E J Q. cbn [JI] in J. destruct J as (Y & A & B & C & D). r; [repeat split|repeat split|]. pose proof (KK_stbl s g y n v A Q). cbn [JI]. auto. Qed.
    Lemma rd_walk y o n v : pcs s t = PWalk y o n v -> JI s g (PWalk y o n v) ->
      OK s g (go s t (if v_del v then PLeaf y o n v else match nxt (nd s n) with Some b => if lo (nd s b) <=? y then PNext y o b else PLeaf y o n v | None => PLeaf y o n v end)) t.
    Proof.
      intros E J. cbn [JI] in J. destruct J as (Y & A & B).
      r; [repeat split|destruct (v_del v); [|destruct (nxt (nd s n)) as [b|]; [destruct (lo (nd s b) <=? y)|]]; repeat split|].
      assert (H : (v_del v = false -> forall b, nxt (nd s n) = Some b -> y < lo (nd s b)) -> JI s g (PLeaf y o n v)).
      { intros H. cbn [JI]. do 3 (split; [assumption|]). intros Q1 Q2. apply (walk_stop s g G y n v); auto. }
      destruct (v_del v) eqn:Q; [apply H; discriminate|]. destruct (nxt (nd s n)) as [b|] eqn:Q2; [|apply H; discriminate].
      destruct (Z.leb_spec (lo (nd s b)) y) as [Q3|Q3]; [|apply H; intros _ b' Hb; injection Hb as <-; exact Q3].
      destruct (gl_leaf _ _ GB n (proj1 A) B) as (_ & _ & _ & _ & _ & D). destruct (D b Q2) as (D1 & D2). cbn [JI]. destruct (gl_leaf _ _ GB b D1 D2) as (D3 & _).
      split; [exact Y|]. split; [exact D1|]. split; [exact D2|]. lia.
    Qed.
    Lemma rd_next y o n : pcs s t = PNext y o n -> JI s g (PNext y o n) -> v_dirty (ver (nd s n)) = false -> OK s g (go s t (PWalk y o n (ver (nd s n)))) t.
    Proof.
      intros E J D. cbn [JI] in J. destruct J as (Y & A & B & C). r; [repeat split|repeat split|]. cbn [JI]. split; [exact Y|]. split; [|exact B].
      split; [exact A|]. split; [now apply v_dirty_false|]. split; [apply vle_refl|exact C].
    Qed.
End Core.
