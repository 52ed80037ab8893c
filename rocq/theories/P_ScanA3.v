(* Scans beside other operations: the scan's own steps. *)
From Verif Require Import Lib M_Tree M_Stampc P_Stampc1 M_Conc Spec_Conc M_ConcScan Spec_ConcScan P_Conc1 P_Conc2 P_Conc3 P_Conc4 P_Conc14 P_Conc15 P_Conc18 P_Conc19 P_Conc20 P_ScanA1 P_ScanA2.
From Coq Require Import Sorting.Sorted.

Lemma INF_eq : INF = 2 ^ 64. Proof. with_strategy transparent [INF] reflexivity. Qed.
Lemma Inv_go s g t p' : Inv s g -> bare (pcs s t) -> bare p' -> JI s g p' -> Inv (go s t p') g.
Proof.
  intros (G & L & K & JA) B (B1 & B2 & B3 & B4 & B5) J. destruct B as (A1 & A2 & A3 & A4 & A5). pose proof (Frame_quiet s g (go s t p') t p' eq_refl (fun _ => eq_refl)) as F.
  split; [apply (GI_ext s); auto; apply (gt_rootp _ _ (gi_t _ _ G))|]. split.
  - apply (LI_step s g (go s t p') g t p' L F (fun _ => eq_refl)); [reflexivity|]. rewrite B1. intros a [].
  - split; [apply (link_same s t p' L g (go s t p') K (fun _ => eq_refl)); try congruence; now left|].
    intros t0. destruct (Nat.eq_dec t0 t) as [->|N]; [cbn [go pcs]; rewrite setf_same; now apply (JI_ext s)|]. rewrite (fm_pc _ _ _ _ _ F t0 N). now apply (JI_ext s).
Qed.
Lemma srch_leaf p y y' o n v : srch p y -> p = PLeaf y' o n v -> y' = y /\ o = OGet.
Proof. intros H ->. cbn in H. destruct o; try contradiction. auto. Qed.

Section Own.
  Variables (H : Z -> option Z -> Prop) (s : cst) (g : gst) (t : nat).
  Hypothesis I : Inv s g.
  Hypothesis P : PV s.
  Hypothesis HE : forall y r, entry s y r -> H y r.
  Let G := proj1 I.
  Let GA := gi_t _ _ G.
  Let GB := gi_l _ _ G.

  Lemma hh_INF n : linked s g n -> hh g n <= INF.
  Proof.
    intros L. destruct (gl_link _ _ GB n L) as (_ & _ & E & K & _). rewrite E. destruct (nxt (nd s n)) as [b|]; cbn [nlo]; [|lia]. destruct (K b eq_refl) as ((B1 & B2 & _) & _).
    destruct (gl_leaf _ _ GB b B1 B2) as (_ & _ & Q & _). exact Q.
  Qed.
  Lemma rh_INF n : linked s g n -> rh g n <= INF.
  Proof. intros L. unfold rh. destruct (us g n) as [c|] eqn:U; [|now apply hh_INF]. destruct (gl_us _ _ GB n c U) as (_ & Lc & _). now apply hh_INF. Qed.
  Lemma lo_nonneg n : (n < fr s)%nat -> isl (nd s n) = true -> 0 <= lo (nd s n).
  Proof. intros A B. destruct (gl_leaf _ _ GB n A B) as (E & _). destruct (gt_num _ _ GA n A) as (Q & _). lia. Qed.

  Lemma row_in_get k w l : StronglySorted Z.lt (map fst l) -> In (k, w) l -> row_get k l = Some w.
  Proof.
    induction l as [|[k0 w0] l IH]; cbn [map fst]; intros S Hin; [destruct Hin|]. cbn [row_get]. destruct Hin as [Q|Q].
    - injection Q as -> ->. now rewrite Z.eqb_refl.
    - inversion S as [|? ? S1 S2]; subst. destruct (Z.eqb_spec k0 k) as [->|]; [|auto]. rewrite Forall_forall in S2. specialize (S2 k (in_map fst _ _ Q)). lia.
  Qed.
  Lemma filter_sorted (f : Z * Z -> bool) l : StronglySorted Z.lt (map fst l) -> StronglySorted Z.lt (map fst (filter f l)).
  Proof.
    induction l as [|r l IH]; cbn [map filter]; intros S; [constructor|]. inversion S as [|? ? S1 S2]; subst. destruct (f r); [|auto]. cbn [map]. constructor; [auto|].
    rewrite Forall_forall in *. intros k Hk. apply in_map_iff in Hk. destruct Hk as (q & <- & Hq). apply filter_In in Hq. apply S2, in_map, Hq.
  Qed.
  Lemma sorted_live l : StronglySorted Z.lt (map fst l) -> StronglySorted (fun a b => before false (vkey a) (vkey b)) (live l).
  Proof.
    induction l as [|r l IH]; cbn [map live]; intros S; [constructor|]. inversion S as [|? ? S1 S2]; subst. constructor; [auto|]. rewrite Forall_forall in *. intros e He. apply in_map_iff in He. destruct He as (q & <- & Hq).
    cbn. apply S2, in_map, Hq.
  Qed.
  Lemma sorted_snoc {A} (R : A -> A -> Prop) l a : StronglySorted R l -> Forall (fun b => R b a) l -> StronglySorted R (l ++ [a]).
  Proof.
    induction 1 as [|b l S IH Hall]; cbn [app]; intros F; [repeat constructor|]. inversion F; subst. constructor; [auto|]. apply Forall_app. split; [exact Hall|]. now constructor.
  Qed.
  Lemma sorted_rev_live l : StronglySorted Z.lt (map fst l) -> StronglySorted (fun a b => before true (vkey a) (vkey b)) (live (rev l)).
  Proof.
    induction l as [|r l IH]; cbn [map rev]; intros S; [constructor|]. inversion S as [|? ? S1 S2]; subst. unfold live. rewrite map_app. apply sorted_snoc; [now apply IH|]. rewrite Forall_forall in *. intros e He.
    apply in_map_iff in He. destruct He as (q & <- & Hq). cbn. apply in_rev in Hq. apply S2, in_map, Hq.
  Qed.
  Lemma in_from rv k st l r : In r (from rv k st l) <-> In r l /\ (if rv then (if st then fst r < k else fst r <= k) else k <= fst r).
  Proof.
    unfold from. destruct rv; [rewrite <- in_rev|]; rewrite filter_In; [destruct st|]; rewrite ?Z.ltb_lt, ?Z.leb_le; reflexivity.
  Qed.
  (* Reading a permutation while the version has not changed. *)
  Lemma VW_read c n : CM s g c -> sout c = [] \/ Base H c -> linked s g n -> (srv c = true -> ska c <= rh g n) ->
    (forall y, (if srv c then (if sst c then ska c <= y else ska c < y) else y < ska c) -> SetY H c y) ->
    VW H s g c n (live (from (srv c) (ska c) (sst c) (rws (nd s n)))).
  Proof.
    intros C D L T Q. destruct (gl_rows _ _ GB n (proj1 L) (proj1 (proj2 L))) as (S1 & S2 & _). constructor; [| | |exact T].
    - unfold from. destruct (srv c); [apply sorted_rev_live|apply sorted_live]; now apply filter_sorted.
    - intros e He. unfold live in He. apply in_map_iff in He. destruct He as ([k w] & <- & He). apply in_from in He. destruct He as (He & _). cbn [vkey vval fst snd].
      pose proof (row_in_get k w _ S1 He) as E. pose proof (S2 k ltac:(congruence)) as R. split; [exact R|]. intros _. apply HE. rewrite <- E. now apply (entry_rh s g G).
    - intros y Hy. destruct (row_get y (rws (nd s n))) as [w|] eqn:E.
      + assert (X : (if srv c then (if sst c then y < ska c else y <= ska c) else ska c <= y) \/ (if srv c then (if sst c then ska c <= y else ska c < y) else y < ska c)) by (destruct (srv c), (sst c); lia).
        destruct X as [X|X]; [|left; auto]. right. exists (y, w, true). split; [|reflexivity]. unfold live. apply in_map_iff. exists (y, w). split; [reflexivity|]. apply in_from. split; [now apply row_get_In|].
        cbn [fst]. destruct (srv c), (sst c); exact X.
      + left. apply (none_set H s g c y C D). apply HE. rewrite <- E. now apply (entry_rh s g G).
  Qed.
  Lemma fresh_rest c : Fresh c -> forall y, (if srv c then (if sst c then ska c <= y else ska c < y) else y < ska c) -> SetY H c y.
  Proof. intros (_ & E & Q) y K (R & _). rewrite Q, E in K. exfalso. unfold before in R. destruct (srv c); [|lia]. destruct R as [R|(_ & R)]; lia. Qed.
  Lemma base_rest c : Base H c -> forall y, (if srv c then (if sst c then ska c <= y else ska c < y) else y < ska c) -> SetY H c y.
  Proof. intros B y K. apply B. unfold psd. destruct (srv c); [destruct (sst c)|]; lia. Qed.

  (* ---- reporting a key ---- *)
  Section Emit.
    Variables (c : scn) (k w : Z) (p : phase).
    Hypothesis C : CM s g c.
    Hypothesis KR : RNG c k.
    Hypothesis KH : H k (Some w).
    Let c' := emit c k w p.
    Lemma set_emit y : SetY H c y -> SetY H c' y.
    Proof.
      intros Q R. unfold c', emit in *. cbn [sout row_get]. destruct (Z.eqb_spec k y) as [<-|]; [exact KH|]. now apply Q.
    Qed.
    Lemma set_k : SetY H c' k. Proof. intros R. unfold c', emit. cbn [sout row_get]. now rewrite Z.eqb_refl. Qed.
    Lemma CM_emit : (if srv c then k <= ska c else ska c <= k) -> (forall r, In r (sout c) -> fst r <> k) -> CM s g c'.
    Proof.
      intros O N. destruct C as [A1 A2 A3 A4 A5 A6]. constructor; unfold c', emit; cbn [sf ska srv srt sout sem].
      - exact A1.
      - destruct KR as (_ & Q). split; [lia|]. rewrite INF_eq. lia.
      - unfold RNG, in_range, before in KR. destruct (srv c); destruct KR as ([Q|(_ & Q)] & _); lia.
      - exact A4.
      - cbn [in_order]. split; [|exact A5]. intros [k' w'] Hr. destruct (A6 k' w' Hr) as (_ & Q). specialize (N _ Hr). unfold psd in Q. cbn [fst] in *. unfold before, negb. destruct (srv c); lia.
      - intros k' w' [Q|Q]; [injection Q as <- <-; split; [exact KR|unfold psd; cbn [srv ska]; destruct (srv c); lia]|]. destruct (A6 k' w' Q) as (Q1 & Q2). split; [exact Q1|].
        unfold psd in *. cbn [srv ska]. destruct (srv c); lia.
    Qed.
    (* The rest of the leaf after its next entry. *)
    Lemma VW_emit n b l : lo (nd s n) <= k < rh g n -> VW H s g c n ((k, w, b) :: l) -> VW H s g c' n l.
    Proof.
      intros R [W1 W2 W3 W4]. constructor.
      - inversion W1; assumption.
      - intros e He. exact (W2 e (or_intror He)).
      - intros y Hy. destruct (W3 y Hy) as [Q|(e & [Q1|Q1] & Q2)]; [left; now apply set_emit| |right; eauto]. subst e. cbn in Q2. subst y. left. apply set_k.
      - intros Y. unfold c', emit. cbn [ska]. lia.
    Qed.
    Lemma Base_emit n b l : (n < fr s)%nat -> LP H s c n -> Base H c -> VW H s g c n ((k, w, b) :: l) -> lo (nd s n) <= k < rh g n -> Base H c'.
    Proof.
      intros Hn (_ & _ & L3 & L4) B [W1 W2 W3 W4] R y Y. unfold psd, c', emit in Y. cbn [srv ska] in Y. destruct (Z.eq_dec y k) as [->|N]; [apply set_k|]. inversion W1 as [|? ? _ W5]; subst. rewrite Forall_forall in W5.
      assert (X : lo (nd s n) <= y < rh g n -> SetY H c' y).
      { intros Hy. destruct (W3 y Hy) as [Q|(e & [Q1|Q1] & Q2)]; [now apply set_emit|subst e; cbn in Q2; congruence|]. specialize (W5 e Q1). cbn [vkey fst] in W5. rewrite Q2 in W5. unfold before in W5. destruct (srv c); lia. }
      destruct (srv c) eqn:E.
      - destruct (Z_lt_le_dec y (rh g n)); [apply X; lia|]. apply set_emit, B. unfold psd. rewrite E. specialize (W4 eq_refl). lia.
      - destruct (Z_lt_le_dec y (lo (nd s n))); [apply set_emit; now apply L3|]. apply X. lia.
    Qed.
    Lemma LP_emit n : LP H s c n -> lo (nd s n) <= k -> LP H s c' n.
    Proof. intros (A & B & D & E) R. split; [exact A|]. split; [exact B|]. split; [intros Y y Hy; apply set_emit; now apply D|]. intros _. exact R. Qed.
  End Emit.
  Lemma VW_tail c n e l : VW H s g c n (e :: l) -> SetY H c (vkey e) -> VW H s g c n l.
  Proof.
    intros [W1 W2 W3 W4] Q. constructor; auto.
    - inversion W1; assumption.
    - intros a Ha. apply W2. now right.
    - intros y Hy. destruct (W3 y Hy) as [K|(a & [K|K] & K2)]; [now left| |right; eauto]. subst a. left. now rewrite <- K2.
  Qed.
  Lemma VW_flag c n k w b b' l : VW H s g c n ((k, w, b) :: l) -> VW H s g c n ((k, w, b') :: l).
  Proof.
    intros [W1 W2 W3 W4]. constructor; auto.
    - inversion W1 as [|? ? A B]; subst. constructor; [exact A|]. exact B.
    - intros e [<-|He]; [exact (W2 _ (or_introl eq_refl))|apply W2; now right].
    - intros y Hy. destruct (W3 y Hy) as [K|(a & [K|K] & K2)]; [now left| |right; exists a; split; [now right|exact K2]]. subst a. right. exists (k, w, b'). split; [now left|exact K2].
  Qed.

  Definition OWN (s' : cst) (c' : scn) : Prop :=
    nd s' = nd s /\ fr s' = fr s /\ rootp s' = rootp s /\ misp s' = misp s /\ abnd s' = abnd s /\ (forall t', t' <> t -> pcs s' t' = pcs s t') /\
    Inv s' g /\ CM s' g c' /\ PI H s' g t c' (sph c').
  Lemma own_stay c' : CM s g c' -> PI H s g t c' (sph c') -> OWN s c'.
  Proof. intros A B. do 5 (split; [reflexivity|]). split; [reflexivity|]. split; [exact I|]. split; [exact A|exact B]. Qed.
  Lemma own_go c' q : bare (pcs s t) -> bare q -> JI s g q -> CM s g c' -> PI H (go s t q) g t c' (sph c') -> OWN (go s t q) c'.
  Proof.
    intros B1 B2 J A B. repeat (split; [reflexivity|]). split; [intros t' N; cbn; now apply setf_other|]. split; [now apply Inv_go|]. split; [|exact B]. destruct A. constructor; auto.
  Qed.
  Lemma own_pc q : pcs (go s t q) t = q. Proof. cbn. now rewrite setf_same. Qed.
  Lemma CM_ph c p : CM s g c -> CM s g (with_ph c p). Proof. intros [A1 A2 A3 A4 A5 A6]. constructor; auto. Qed.
  Lemma VW_ph c p n l : VW H s g c n l -> VW H s g (with_ph c p) n l.
  Proof. intros [A1 A2 A3 A4]. constructor; auto. Qed.
  Lemma VW_go c q n l : VW H s g c n l -> VW H (go s t q) g c n l.
  Proof. intros [A1 A2 A3 A4]. constructor; auto. Qed.
  Lemma lk n v : (n < fr s)%nat -> isl (nd s n) = true -> v_del v = false -> same s n v = true -> linked s g n.
  Proof.
    intros A B C Q. split; [exact A|]. split; [exact B|]. destruct (ul g n) eqn:E; [|reflexivity]. destruct (gl_leaf _ _ GB n A B) as (_ & _ & _ & K & _). specialize (K E). unfold same in Q. rewrite (same_del _ _ Q) in K. congruence.
  Qed.

  Lemma own_step c j stop s' c' : CM s g c -> PI H s g t c (sph c) -> scan_step s t c j stop = Some (s', c') -> OWN s' c'.
  Proof.
    intros C Q ST. unfold scan_step in ST. destruct (sph c) as [| |n v l|n v e l| |n v|n v l|n v k w l|n v|n|n|n v|a] eqn:E; try discriminate ST; cbn [PI] in Q.
    - (* FInit *) destruct Q as (Fr & Q). destruct (pcs s t) as [| | | | | | | | |y o n v| | | | | | | | | | | | | | | | | | | | | | | | | | | |] eqn:EP; try discriminate ST.
      destruct (srch_leaf _ _ y o n v Q eq_refl) as (-> & ->). pose proof (proj2 (proj2 (proj2 I)) t) as J. rewrite EP in J. cbn [JI] in J. destruct J as (J1 & J2 & J3 & J4). pose proof J2 as (K1 & K2 & K3 & K4).
      assert (Bp : bare (pcs s t)) by (rewrite EP; repeat split). destruct (v_del v) eqn:D; injection ST as <- <-.
      + apply own_go; auto; [repeat split|cbn [JI]; split; [exact J1|apply (cm_rt _ _ _ C)]|]. rewrite E. cbn [PI]. split; [exact Fr|]. rewrite own_pc. reflexivity.
      + apply own_go; auto; [repeat split|exact Logic.I|now apply CM_ph|]. cbn [with_ph sph PI]. split; [exact Fr|]. split; [apply own_pc|]. split; [split; [exact J2|split; [exact J3|split; [exact D|intros Ns; apply J4; auto]]]|]. intros S.
        change (same (go s t Idle) n v) with (same s n v) in S. rewrite S. pose proof (lk n v K1 J3 D S) as L. destruct Fr as (F1 & F2 & F3). split.
        * rewrite <- F2, <- F3. apply VW_go, VW_ph, VW_read; auto.
          -- intros _. rewrite F2. specialize (J4 eq_refl (same_nosplit _ _ K2 S)). lia.
          -- apply fresh_rest. repeat split; auto.
        * intros e He. unfold live in He. apply in_map_iff in He. destruct He as ([k w] & <- & He). apply in_from in He. destruct He as (_ & He). cbn [vkey fst]. cbn [with_ph srv sf] in *. cbn in He. unfold before. destruct (srv c); lia.
    - (* FIni *) destruct Q as (Fr & Q1 & Q2 & Q3). injection ST as <- <-. apply own_stay; [now apply CM_ph|]. cbn [with_ph sph PI]. split; [exact Fr|]. split; [exact Q1|]. split; [exact Q2|]. intros S. destruct (Q3 S) as (V & O). split; [now apply VW_ph|].
      rewrite S. destruct l as [|[[k w] b] l]; [intros e []|]. destruct (Z.eqb_spec k (sf c)) as [->|N].
      + split; [|eauto]. exact (proj2 (vw_in _ _ _ _ _ _ V _ (or_introl eq_refl))).
      + intros e [<-|He]; [exact N|]. destruct V as [W1 _ _ _]. inversion W1 as [|? ? _ W5]; subst. rewrite Forall_forall in W5. specialize (W5 e He). cbn [vkey fst] in W5.
        destruct (O _ (or_introl eq_refl)) as [O1|O1]; [contradiction|]. cbn [vkey fst] in O1. unfold before in *. cbn [with_ph sf]. intros K. destruct (srv c); lia.
    - (* FIniC *) destruct Q as (Fr & Q1 & Q2 & Q3). pose proof Q2 as ((K1 & K2 & K3 & K4) & K5 & K6 & K7). destruct (same s n v) eqn:S.
      + destruct (Q3 eq_refl) as (V & O). pose proof (lk n v K1 K5 K6 S) as L. pose proof (K7 (same_nosplit _ _ K2 S)) as Hf. destruct (gl_leaf _ _ GB n K1 K5) as (El & _). rewrite El in K4.
        assert (LPc : LP H s c n).
        { split; [exact K1|]. split; [exact K5|]. destruct Fr as (_ & F2 & _). rewrite F2. split; [|auto]. intros Y y Hy (R & _). exfalso. unfold before in R. rewrite Y in R. lia. }
        assert (VSc : VS s n v) by (split; auto). destruct e as [w|].
        * destruct O as (O1 & w0 & b & l' & ->). cbn [tl] in ST. destruct (sem c) eqn:EM.
          -- assert (KR : RNG c (sf c)) by (split; [right; auto|rewrite <- INF_eq; exact (cm_f _ _ _ C)]). specialize (O1 KR). destruct Fr as (F1 & F2 & F3).
             assert (Cx : forall p, CM s g (emit c (sf c) w p)) by (intros p; apply (CM_emit c (sf c) w p C KR); [destruct (srv c); lia|rewrite F1; intros r []]).
             assert (Bx : forall p, Base H (emit c (sf c) w p)).
             { intros p y Y R. unfold psd, RNG, emit in *. cbn [srv ska sf sem] in *. assert (y = sf c) by (destruct R as (R & _); unfold before in R; destruct (srv c); lia). subst y. cbn [sout row_get]. now rewrite Z.eqb_refl. }
             injection ST as <- <-. apply own_stay; [apply Cx|]. destruct stop; cbn [emit sph PI]; [apply Bx|]. split; [apply Bx|]. split; [exact Q1|]. split; [apply (LP_emit c (sf c) w _ O1 n LPc K4)|]. split; [exact VSc|]. intros _ _.
             eapply (VW_emit c (sf c) w _ O1 n b l'); [split; assumption|]. destruct V as [W1 W2 W3 W4]. constructor; auto.
             ++ inversion W1 as [|? ? A B]; subst. constructor; [exact A|]. exact B.
             ++ intros e [<-|He]; [split; [cbn; lia|cbn; auto]|apply W2; now right].
             ++ intros y Hy. destruct (W3 y Hy) as [K|(a & [K|K] & Kk)]; [now left| |right; exists a; split; [now right|exact Kk]]. subst a. right. exists (sf c, w, b). split; [now left|exact Kk].
          -- injection ST as <- <-. apply own_stay; [now apply CM_ph|]. cbn [with_ph sph PI]. assert (NR : forall y, psd c y -> ~ RNG c y).
             { intros y Y ([R|(R & _)] & _); [|congruence]. destruct Fr as (_ & F2 & _). unfold psd, before in *. rewrite F2 in Y. destruct (srv c); lia. }
             split; [intros y Y R; destruct (NR y Y R)|]. split; [exact Q1|]. split; [exact LPc|]. split; [exact VSc|]. intros _ _. apply VW_ph, (VW_tail _ n (sf c, w0, b)); [exact V|]. intros R. exfalso. apply (NR (sf c)); [|exact R].
             destruct Fr as (_ & F2 & _). unfold psd. rewrite F2. destruct (srv c); lia.
        * injection ST as <- <-. apply own_stay; [now apply CM_ph|]. cbn [with_ph sph PI]. split.
          -- intros y Y R. assert (y = sf c).
             { destruct Fr as (_ & F2 & _). unfold psd in Y. cbn [with_ph srv ska] in Y. rewrite F2 in Y. destruct R as (R & _). unfold before in R. cbn [with_ph srv sf] in R. destruct (srv c); lia. }
             subst y. destruct (vw_all _ _ _ _ _ _ V (sf c) (conj K4 Hf)) as [K|(a & Ka & Kb)]; [now apply K|]. destruct (O a Ka Kb).
          -- split; [exact Q1|]. split; [exact LPc|]. split; [exact VSc|]. intros _ _. now apply VW_ph.
      + injection ST as <- <-. assert (Bp : bare (pcs s t)) by (rewrite Q1; repeat split). apply own_go; auto; [repeat split| |now apply CM_ph|].
        * cbn [JI]. split; [exact (cm_f _ _ _ C)|]. split; [|exact K5]. split; [repeat split; auto; apply K2|exact K7].
        * cbn [with_ph sph PI]. split; [exact Fr|]. rewrite own_pc. reflexivity.
    - (* FRetry *) destruct Q as (Ba & Q). destruct (pcs s t) as [| | | | | | | | |y o n v| | | | | | | | | | | | | | | | | | | | | | | | | | | |] eqn:EP; try discriminate ST.
      destruct (srch_leaf _ _ y o n v Q eq_refl) as (-> & ->). pose proof (proj2 (proj2 (proj2 I)) t) as J. rewrite EP in J. cbn [JI] in J. destruct J as (J1 & J2 & J3 & J4). pose proof J2 as (K1 & K2 & K3 & K4).
      assert (Bp : bare (pcs s t)) by (rewrite EP; repeat split). destruct (v_del v) eqn:D; injection ST as <- <-.
      + apply own_go; auto; [repeat split|cbn [JI]; split; [exact J1|apply (cm_rt _ _ _ C)]|]. rewrite E. cbn [PI]. split; [exact Ba|]. rewrite own_pc. reflexivity.
      + apply own_go; auto; [repeat split|exact Logic.I|now apply CM_ph|]. cbn [with_ph sph PI]. split; [exact Ba|]. split; [apply own_pc|]. destruct (gl_leaf _ _ GB n K1 J3) as (El & _). rewrite El in K4.
        split; [|split; [split; auto|]].
        * split; [exact K1|]. split; [exact J3|]. split; [|auto]. intros Y y Hy. apply Ba. unfold psd. cbn [with_ph srv ska]. cbn [go nd] in Hy. cbn in Y. rewrite Y. lia.
        * intros _ _ S. specialize (J4 eq_refl (same_nosplit _ _ K2 S)). cbn. lia.
    - (* FLow *) destruct Q as (Ba & Q1 & Q2 & Q3 & Q4). injection ST as <- <-. apply own_stay; [now apply CM_ph|]. cbn [with_ph sph PI]. split; [exact Ba|]. split; [exact Q1|]. split; [exact Q2|]. split; [exact Q3|].
      intros D S. rewrite S. pose proof Q2 as (L1 & L2 & _). apply VW_ph, VW_read; auto; [now apply (lk n v)|now apply base_rest].
    - (* FNext *) destruct Q as (Ba & Q1 & Q2 & Q3 & Q4). assert (Bp : bare (pcs s t)) by (rewrite Q1; repeat split). destruct (v_del v) eqn:D.
      + injection ST as <- <-. apply own_go; auto; [repeat split|cbn [JI]; split; [exact (cm_ka _ _ _ C)|apply (cm_rt _ _ _ C)]|now apply CM_ph|]. cbn [with_ph sph PI]. split; [exact Ba|]. rewrite own_pc. reflexivity.
      + destruct (same s n v) eqn:S.
        * specialize (Q4 eq_refl eq_refl). destruct l as [|[[k w] b] l]; injection ST as <- <-; (apply own_stay; [now apply CM_ph|]); cbn [with_ph sph PI]; (split; [exact Ba|]); (split; [exact Q1|]); (split; [exact Q2|]); (split; [exact Q3|]); (split; [exact D|]); intros _; apply VW_ph; [exact Q4|].
          now apply VW_flag with (b := b).
        * destruct j as [|[k w] j]; injection ST as <- <-; (apply own_stay; [now apply CM_ph|]); cbn [with_ph sph PI]; (split; [exact Ba|]); (split; [exact Q1|]); (split; [exact Q2|]); (split; [exact Q3|]); (split; [exact D|]); congruence.
    - (* FEnt *) destruct Q as (Ba & Q1 & Q2 & Q3 & D & Q4). pose proof Q2 as (L1 & L2 & L3 & L4). destruct (same s n v) eqn:S.
      + specialize (Q4 eq_refl). pose proof (lk n v L1 L2 D S) as L. destruct (vw_in _ _ _ _ _ _ Q4 _ (or_introl eq_refl)) as (V1 & V2). cbn [vkey vval fst snd] in V1, V2. destruct (dupl (srv c) (ska c) k) eqn:Du.
        * injection ST as <- <-. apply own_stay; [now apply CM_ph|]. cbn [with_ph sph PI]. split; [exact Ba|]. split; [exact Q1|]. split; [exact Q2|]. split; [exact Q3|]. intros _ _. apply VW_ph, (VW_tail _ n (k, w, false)); [exact Q4|]. apply Ba. unfold psd. cbn [with_ph srv ska vkey fst].
          unfold dupl in Du. destruct (srv c); now apply Z.leb_le in Du.
        * assert (Hk : if srv c then k < ska c else ska c < k) by (unfold dupl in Du; destruct (srv c); now apply Z.leb_gt in Du).
          assert (KR : RNG c k).
          { split.
            - left. pose proof (cm_fka _ _ _ C) as Q. unfold before. destruct (srv c); lia.
            - rewrite <- INF_eq. pose proof (rh_INF n L). pose proof (lo_nonneg n L1 L2). lia. }
          specialize (V2 KR).
          assert (Cx : forall p, CM s g (emit c k w p)).
          { intros p. apply (CM_emit c k w p C KR); [destruct (srv c); lia|]. intros [k' w'] Hr. cbn [fst]. destruct (cm_out _ _ _ C k' w' Hr) as (_ & Hp). unfold psd in Hp. destruct (srv c); lia. }
          injection ST as <- <-. apply own_stay; [apply Cx|].
          destruct stop; cbn [emit sph PI]; [exact (Base_emit c k w _ V2 n false l L1 Q2 Ba Q4 V1)|]. split; [exact (Base_emit c k w _ V2 n false l L1 Q2 Ba Q4 V1)|]. split; [exact Q1|].
          split; [apply (LP_emit c k w _ V2 n Q2); lia|]. split; [exact Q3|]. intros _ _. exact (VW_emit c k w _ V2 n false l V1 Q4).
      + injection ST as <- <-. apply own_stay; [now apply CM_ph|]. cbn [with_ph sph PI]. auto.
    - (* FEnd *) destruct Q as (Ba & Q1 & Q2 & Q3 & D & Q4). pose proof Q2 as (L1 & L2 & L3 & L4). injection ST as <- <-. apply own_stay; [now apply CM_ph|]. destruct (same s n v) eqn:S; cbn [with_ph sph PI]; [|auto].
      specialize (Q4 eq_refl). pose proof (lk n v L1 L2 D S) as L. destruct (gl_link _ _ GB n L) as (_ & G2 & G3 & _). pose proof (rh_ge s g n GA GB L1) as G4.
      assert (X : forall y, lo (nd s n) <= y < rh g n -> SetY H c y) by (intros y Hy; destruct (vw_all _ _ _ _ _ _ Q4 y Hy) as [K|(a & [] & _)]; exact K).
      split; [exact Ba|]. split; [exact Q1|]. split; [exact L1|]. split; [exact L2|]. split.
      + intros Y y Hy. destruct (Z_lt_le_dec y (lo (nd s n))); [now apply L3|]. apply X. lia.
      + intros Y. split; [auto|]. intros y Hy. destruct (Z_lt_le_dec y (rh g n)); [now apply X|]. apply Ba. unfold psd. cbn [with_ph srv ska]. pose proof (vw_top _ _ _ _ _ _ Q4 Y). cbn in Y. rewrite Y. lia.
    - (* FAdv *) destruct Q as (Ba & Q1 & L1 & L2 & Q3 & Q4). destruct (gl_leaf _ _ GB n L1 L2) as (_ & _ & _ & _ & _ & GN). destruct (srv c) eqn:RV; injection ST as <- <-.
      + destruct (Q4 eq_refl) as (A1 & A2). pose proof (lo_nonneg n L1 L2) as A3. assert (Cx : forall p, CM s g (back_to c (lo (nd s n)) p)).
        { intros p. destruct C as [C1 C2 C3 C4 C5 C6]. unfold back_to. constructor; cbn [sf ska srv srt sout sem]; auto.
          - unfold yr in *. lia.
          - rewrite RV in *. lia.
          - intros k w Hk. destruct (C6 k w Hk) as (Z1 & Z2). split; [exact Z1|]. unfold psd in *. cbn [srv ska]. rewrite RV in *. lia. }
        assert (Bx : forall p, Base H (back_to c (lo (nd s n)) p)).
        { intros p y Y. unfold psd, back_to in Y. cbn [srv ska] in Y. rewrite RV in Y. now apply A2. }
        pose proof (P n L1 L2) as Pn. unfold PV1 in Pn. destruct (prv (nd s n)) as [b|]; (apply own_stay; [apply Cx|]); cbn [back_to sph PI].
        * split; [apply Bx|]. split; [exact Q1|]. destruct Pn as (P1 & P2 & P3). split; [exact P1|]. split; [exact P2|]. split; [cbn; congruence|]. cbn. lia.
        * intros y R. apply A2; [|exact R]. destruct R as (_ & R). lia.
      + specialize (Q3 eq_refl). destruct (nxt (nd s n)) as [b|] eqn:Nx; (apply own_stay; [now apply CM_ph|]); cbn [with_ph sph PI].
        * split; [exact Ba|]. split; [exact Q1|]. destruct (GN b eq_refl) as (N1 & N2). split; [exact N1|]. split; [exact N2|]. split; [intros _; exact Q3|cbn; congruence].
        * intros y R. apply Q3; [|exact R]. destruct R as (_ & R). cbn [nlo]. rewrite INF_eq. lia.
    - (* FStab *) destruct Q as (Ba & Q1 & Q2). destruct (v_dirty (ver (nd s n))) eqn:D; [discriminate ST|]. injection ST as <- <-. apply v_dirty_false in D. apply own_stay; [now apply CM_ph|].
      assert (V : VS s n (ver (nd s n))) by (split; [exact D|apply vle_refl]). destruct (srv c) eqn:RV; cbn [with_ph sph PI]; (split; [exact Ba|]); (split; [exact Q1|]); (split; [exact Q2|]); (split; [exact V|]); cbn; congruence.
    - (* FWalk *) destruct Q as (Ba & Q1 & Q2 & Q3 & RV). pose proof Q2 as (L1 & L2 & L3 & L4). destruct (gl_leaf _ _ GB n L1 L2) as (_ & _ & _ & _ & _ & GN). pose proof (rh_ge s g n GA GB L1) as G4.
      assert (X : ska c <= nlo s (nxt (nd s n)) -> v_del v = false -> same s n v = true -> ska c <= rh g n).
      { intros A1 A2 A3. pose proof (lk n v L1 L2 A2 A3) as L. destruct (gl_link _ _ GB n L) as (_ & _ & G3 & _). lia. }
      injection ST as <- <-. apply own_stay; [now apply CM_ph|]. destruct (nxt (nd s n)) as [b|] eqn:Nx; cbn [nlo] in X.
      + destruct (GN b eq_refl) as (N1 & N2). destruct ((ska c <? lo (nd s b)) || ((ska c =? lo (nd s b)) && sst c)) eqn:T; cbn [with_ph sph PI].
        * split; [exact Ba|]. split; [exact Q1|]. split; [exact Q2|]. split; [exact Q3|]. intros _. apply X. apply orb_true_iff in T. rewrite andb_true_iff, Z.ltb_lt, Z.eqb_eq in T. lia.
        * split; [exact Ba|]. split; [exact Q1|]. split; [exact N1|]. split; [exact N2|]. split; [cbn; congruence|]. intros _. cbn. apply orb_false_iff in T. destruct T as (T & _). now apply Z.ltb_ge in T.
      + cbn [with_ph sph PI]. split; [exact Ba|]. split; [exact Q1|]. split; [exact Q2|]. split; [exact Q3|]. intros _. apply X. pose proof (cm_ka _ _ _ C) as (_ & K). lia.
  Qed.
End Own.
