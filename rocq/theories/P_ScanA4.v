(* Scans beside other operations: runs. *)
From Verif Require Import Lib M_Tree M_Stampc P_Stampc1 M_Conc Spec_Conc M_ConcScan Spec_ConcScan P_Conc1 P_Conc2 P_Conc3 P_Conc4 P_Conc14 P_Conc15 P_Conc18 P_Conc19 P_Conc20 P_Conc21 P_Conc22 P_Conc23 P_ScanA1 P_ScanA2 P_ScanA3.

(* ---- steps ---- *)
Definition calm (q : pct) : Prop := q = Idle \/ (exists f n, q = PRoot f OGet n) \/ (exists f n v, q = PAdv f OGet n v).
Lemma scan_quiet s t c j stop s' c' : scan_step s t c j stop = Some (s', c') -> s' = s \/ exists q, s' = go s t q /\ calm q.
Proof.
  intros ST. unfold scan_step in ST. destruct (sph c); try discriminate ST;
    repeat match type of ST with
    | Some (?a, _) = Some _ => injection ST as <- <-
    | None = Some _ => discriminate ST
    | (if ?b then _ else _) = _ => destruct b
    | match ?b with _ => _ end = _ => destruct b
    end; auto; right; eexists; (split; [reflexivity|]); unfold calm; eauto 7.
Qed.
Lemma scan_id s t c j stop s' c' : scan_step s t c j stop = Some (s', c') -> srv c' = srv c /\ sf c' = sf c /\ sem c' = sem c.
Proof.
  intros ST. unfold scan_step in ST. destruct (sph c); try discriminate ST;
    repeat match type of ST with
    | Some (_, match ?b with _ => _ end) = Some _ => destruct b
    | Some (_, ?a) = Some _ => injection ST as <- <-
    | None = Some _ => discriminate ST
    | (if ?b then _ else _) = _ => destruct b eqn:?
    | match ?b with _ => _ end = _ => destruct b
    end; cbn; auto.
Qed.
Lemma srch_step s t x s' y : step s t x = Some s' -> (forall y' o n v, pcs s t <> PLeaf y' o n v) -> srch (pcs s t) y -> srch (pcs s' t) y.
Proof.
  intros ST N. revert ST N. unfold step. destruct (pcs s t) as [] eqn:E; intros ST N; cbn [srch]; try contradiction; destruct o; try contradiction; intros ->;
    try (destruct (N _ _ _ _ eq_refl)); destruct x; try discriminate ST;
    repeat match type of ST with
    | Some _ = Some _ => injection ST as <-
    | None = Some _ => discriminate ST
    | (if ?b then _ else _) = _ => destruct b
    | match ?b with _ => _ end = _ => destruct b
    | (let _ := _ in _) = _ => cbv zeta in ST
    end; cbn [go pcs]; rewrite ?setf_same; unfold enter;
    repeat match goal with |- context[if ?b then _ else _] => destruct b | |- context[match ?b with Some _ => _ | None => _ end] => destruct b end; reflexivity.
Qed.
Lemma PI_go H s g t q t' c p : t' <> t -> PI H s g t' c p -> PI H (go s t q) g t' c p.
Proof.
  intros N. assert (E : pcs (go s t q) t' = pcs s t') by (cbn; now apply setf_other).
  assert (V : forall n l, VW H s g c n l -> VW H (go s t q) g c n l) by (intros n l [A1 A2 A3 A4]; constructor; auto).
  destruct p; cbn [PI]; rewrite ?E; auto.
  - intros (A & B & C & D). repeat (split; [assumption|]). intros Q. destruct (D Q). auto.
  - intros (A & B & C & D). repeat (split; [assumption|]). intros Q. destruct (D Q). auto.
  - intros (A & B & C & D & F). split; [exact A|]. split; [exact B|]. split; [exact C|]. split; [exact D|]. intros Q1 Q2. auto.
  - intros (A & B & C & D & F & K). split; [exact A|]. split; [exact B|]. split; [exact C|]. split; [exact D|]. split; [exact F|]. auto.
  - intros (A & B & C & D & F & K). split; [exact A|]. split; [exact B|]. split; [exact C|]. split; [exact D|]. split; [exact F|]. auto.
Qed.
Lemma CM_go s g t q c : CM s g c -> CM (go s t q) g c. Proof. intros []. constructor; auto. Qed.
Lemma CM_ph2 s g c p : CM s g c -> CM s g (with_ph c p). Proof. intros []. constructor; auto. Qed.
Lemma VW_ph2 H s g c p n l : VW H s g c n l -> VW H s g (with_ph c p) n l. Proof. intros []. constructor; auto. Qed.
Lemma PI_ph H s g t c q p : PI H s g t c p -> PI H s g t (with_ph c q) p.
Proof.
  destruct p; cbn [PI]; auto.
  - intros (A & B & C & D). split; [exact A|]. split; [exact B|]. split; [exact C|]. intros Q. destruct (D Q). auto using VW_ph2.
  - intros (A & B & C & D). split; [exact A|]. split; [exact B|]. split; [exact C|]. intros Q. destruct (D Q). auto using VW_ph2.
  - intros (A & B & C & D & F). split; [exact A|]. split; [exact B|]. split; [exact C|]. split; [exact D|]. auto using VW_ph2.
  - intros (A & B & C & D & F & K). split; [exact A|]. split; [exact B|]. split; [exact C|]. split; [exact D|]. split; [exact F|]. auto using VW_ph2.
  - intros (A & B & C & D & F & K). split; [exact A|]. split; [exact B|]. split; [exact C|]. split; [exact D|]. split; [exact F|]. auto using VW_ph2.
Qed.
Lemma PI_mono2 (H H' : Z -> option Z -> Prop) s g t c p : (forall y r, H y r -> H' y r) -> CM s g c -> p <> FIdle -> PI H s g t c p -> PI H' s g t c p.
Proof.
  intros HH C N Q. destruct (SI_mono H H' HH s g t (with_ph c p)) as [K|(_ & K)].
  - right. split; [now apply CM_ph2|]. cbn [with_ph sph]. now apply PI_ph.
  - destruct (N K).
  - cbn [with_ph sph] in K. apply (PI_ph H' s g t (with_ph c p) (sph c)) in K. destruct c; exact K.
Qed.

(* ---- runs ---- *)
Section Snoc.
  Variables (l : list (sevent * sstt)) (e : sevent) (S' : sstt).
  Lemma sat_old k : (k <= length l)%nat -> sat (l ++ [(e, S')]) k = sat l k.
  Proof. intros H. unfold sat. rewrite map_app, app_comm_cons. apply app_nth1. cbn [length]. rewrite map_length. lia. Qed.
  Lemma sat_last : sat (l ++ [(e, S')]) (S (length l)) = S'.
  Proof. unfold sat. rewrite map_app, app_comm_cons, app_nth2 by (cbn [length]; rewrite map_length; lia). cbn [length]. rewrite map_length, Nat.sub_diag. reflexivity. Qed.
  Lemma sev_old k d : (k < length l)%nat -> (sev (l ++ [(e, S')]) k d <-> sev l k d).
  Proof. intros H. unfold sev. now rewrite nth_error_app1. Qed.
  Lemma sev_last d : sev (l ++ [(e, S')]) (length l) d <-> d = e.
  Proof. unfold sev. rewrite nth_error_app2, Nat.sub_diag by lia. cbn. split; [intros (x & [= <- _]); reflexivity|intros ->; eauto]. Qed.
End Snoc.
Lemma sev_lt m k d : sev m k d -> (k < length m)%nat.
Proof. intros (x & H). apply nth_error_Some. congruence. Qed.

(* The moments a scan started by event i has seen: an ended scan has seen none after its last step. *)
Definition HK (l : list (sevent * sstt)) (i : nat) (r : bool) (y : Z) (v : option Z) : Prop :=
  exists k, (i < k)%nat /\ (if r then (k < length l)%nat else (k <= length l)%nat) /\ entry (cs (sat l k)) y v.
Definition TI (l : list (sevent * sstt)) (s : cst) (g : gst) (t : nat) (c : scn) : Prop :=
  sph c = FIdle \/ exists i, sev l i (t, SStart (srv c) (sf c) (sem c)) /\ (forall k rv f em, (i < k)%nat -> ~ sev l k (t, SStart rv f em)) /\
    CM s g c /\ PI (HK l i (at_rest (sph c))) s g t c (sph c).
Definition ALLS (l : list (sevent * sstt)) (S : sstt) : Prop :=
  S = sat l (length l) /\ PV (cs S) /\ exists g, Inv (cs S) g /\ forall t, TI l (cs S) g t (sc S t).

Lemma HK_snoc l e S' i r r' y v : (r' = true -> r = false -> True) -> HK l i r y v -> HK (l ++ [(e, S')]) i r' y v.
Proof.
  intros _ (k & A & B & C). assert (K : (k <= length l)%nat) by (destruct r; lia). exists k. split; [exact A|]. rewrite sat_old by exact K. split; [|exact C]. rewrite app_length. cbn [length]. destruct r'; lia.
Qed.
Lemma rest_follow s p : at_rest (follow s p) = at_rest p. Proof. destruct p; reflexivity. Qed.
Lemma idle_follow s p : follow s p = FIdle -> p = FIdle. Proof. destruct p; cbn; congruence. Qed.

Section Step.
  Variables (l : list (sevent * sstt)) (S : sstt) (t : nat) (x : schoice) (S' : sstt).
  Hypothesis A : ALLS l S.
  Hypothesis ST : sstep S t x = Some S'.
  Hypothesis M : misp (cs S') = false.
  Hypothesis B : abnd (cs S') = false.
  Let l' := l ++ [((t, x), S')].
  Lemma len_l : length l' = Datatypes.S (length l). Proof. unfold l'. rewrite app_length. cbn. lia. Qed.
  Lemma hk_now i y v : (i <= length l)%nat -> entry (cs S') y v -> HK l' i false y v.
  Proof. intros Hi E. exists (Datatypes.S (length l)). rewrite len_l. split; [lia|]. split; [lia|]. unfold l'. now rewrite sat_last. Qed.
  Lemma hk_old i r y v : (i < length l)%nat -> entry (cs S) y v -> HK l' i r y v.
  Proof.
    destruct A as (A1 & _). intros Hi E. exists (length l). rewrite len_l. split; [exact Hi|]. split; [destruct r; lia|]. unfold l'. rewrite sat_old, <- A1 by lia. exact E.
  Qed.
  Lemma nostart_keep i t' : (i < length l)%nat -> (forall k rv f em, (i < k)%nat -> ~ sev l k (t', SStart rv f em)) -> (t' = t -> forall rv f em, x <> SStart rv f em) ->
    forall k rv f em, (i < k)%nat -> ~ sev l' k (t', SStart rv f em).
  Proof.
    intros Hi N X k rv f em Hk Q. pose proof (sev_lt _ _ _ Q) as K. rewrite len_l in K. unfold l' in Q. destruct (Nat.eq_dec k (length l)) as [->|D].
    - apply sev_last in Q. injection Q as Q1 Q2. exact (X Q1 rv f em (eq_sym Q2)).
    - apply (sev_old l (t, x) S') in Q; [|lia]. exact (N _ _ _ _ Hk Q).
  Qed.
  Lemma sev_keep i d : sev l i d -> sev l' i d. Proof. intros H. unfold l'. apply sev_old; [now apply sev_lt in H|exact H]. Qed.

End Step.
Lemma all_sstep l S t x S' : ALLS l S -> sstep S t x = Some S' -> misp (cs S') = false -> abnd (cs S') = false -> ALLS (l ++ [((t, x), S')]) S'.
Proof.
    intros A ST M B.
    split; [rewrite app_length; cbn [length]; rewrite Nat.add_1_r, sat_last; reflexivity|]. pose proof A as (A1 & P & g & I & T). unfold sstep in ST. destruct x as [b|rv f em|j stop].
    - (* a step of the layer *) destruct (base_ok (sph (sc S t)) (pcs (cs S) t)) eqn:BO; [|discriminate ST]. destruct (step (cs S) t b) as [c'|] eqn:E; [|discriminate ST]. injection ST as <-. cbn [seen_by cs sc] in *.
      destruct (Inv_step _ _ _ _ _ I E M B) as (g' & I' & R & F). split; [exact (PV_step _ _ _ _ _ _ I I' E R F P)|]. exists g'. split; [exact I'|]. intros t'. destruct (T t') as [Q|(i & T1 & T2 & C & Q)].
      + left. cbn [with_ph sph]. rewrite Q. reflexivity.
      + right. exists i. pose proof (sev_lt _ _ _ T1) as Hi. split; [now apply sev_keep|]. split; [apply nostart_keep; auto; discriminate|]. cbn [with_ph sph srv sf sem]. split; [apply CM_ph2; exact (CM_step _ _ _ _ I' R _ C)|].
        apply PI_ph. rewrite rest_follow. destruct (at_rest (sph (sc S t'))) eqn:AR.
        * destruct (sph (sc S t')) as [| | | | | | | | | | | |a] eqn:Ep; try discriminate AR; [exact Logic.I|]. cbn [follow PI] in *.
          destruct a; [intros y K|intros y K1 K]; [apply (HK_snoc l _ _ i true true); auto; now apply Q|apply (HK_snoc l _ _ i true true); auto; now apply Q].
        * apply (PI_step (HK l i false) (HK (l ++ [((t, SBase b), seen_by S c')]) i false) (cs S) g t b c' g' I I' E R F); auto.
          -- intros y r. now apply HK_snoc.
          -- intros y r K. apply hk_now; [lia|exact K].
          -- intros y r K. apply (hk_old l S); [exact A|exact Hi|exact K].
          -- intros ->. right. destruct (sph (sc S t)); cbn [base_ok at_rest] in *; try discriminate; (split; [auto|]); intros y; apply (srch_step _ _ _ _ _ E); intros y' o n v Ep; rewrite Ep in BO; discriminate.
    - (* a scan starts *) destruct (at_rest (sph (sc S t)) && (0 <=? f) && (f <? 2 ^ 64)) eqn:C; [|discriminate ST]. destruct (pcs (cs S) t) eqn:Ep; try discriminate ST. injection ST as <-. unfold put_sc in *. cbn [cs sc] in *.
      apply andb_prop in C. destruct C as (C & C3). apply andb_prop in C. destruct C as (C1 & C2). apply Z.leb_le in C2. apply Z.ltb_lt in C3.
      assert (Y : yr f) by (split; [exact C2|]; rewrite INF_eq; exact C3).
      split; [exact P|]. exists g. pose proof (proj2 (rootJ _ _ (proj1 I) f OGet Y)) as RJ. assert (I' : Inv (go (cs S) t (PRoot f OGet (rootp (cs S)))) g).
      { apply Inv_go; [exact I|rewrite Ep; repeat split|repeat split|]. cbn [JI]. split; [exact Y|exact RJ]. }
      split; [exact I'|]. intros t'. destruct (Nat.eq_dec t' t) as [->|N].
      + rewrite setf_same. right. exists (length l). cbn [srv sf sem sph]. split; [apply sev_last; reflexivity|]. split.
        * intros k rv0 f0 em0 Hk Q. apply sev_lt in Q. rewrite len_l in Q. lia.
        * split; [constructor; cbn [sf ska srv srt sout]; auto; [destruct rv; lia|exact Logic.I|intros k w []]|]. cbn [PI]. split; [repeat split|]. cbn. rewrite setf_same. reflexivity.
      + rewrite setf_other by exact N. destruct (T t') as [Q|(i & T1 & T2 & Cc & Q)]; [now left|]. right. exists i. pose proof (sev_lt _ _ _ T1) as Hi. split; [now apply sev_keep|]. split; [apply nostart_keep; auto; congruence|].
        split; [now apply CM_go|]. apply PI_go; [exact N|]. destruct (sph (sc S t')) eqn:Ep'; try exact Logic.I; (eapply PI_mono2; [|exact Cc|discriminate|exact Q]); intros y r; now apply HK_snoc.
    - (* a step of the scan *) destruct (scan_step (cs S) t (sc S t) j stop) as [[c' xx]|] eqn:E; [|discriminate ST]. injection ST as <-. unfold put_sc in *. cbn [cs sc] in *.
      destruct (T t) as [Q|(i & T1 & T2 & C & Q)]; [unfold scan_step in E; rewrite Q in E; discriminate E|]. pose proof (sev_lt _ _ _ T1) as Hi.
      assert (AR : at_rest (sph (sc S t)) = false) by (unfold scan_step in E; destruct (sph (sc S t)); try discriminate E; reflexivity). rewrite AR in Q.
      assert (HE : forall y r, entry (cs S) y r -> HK l i false y r) by (intros y r K; exists (length l); rewrite <- A1; split; [exact Hi|split; [lia|exact K]]).
      destruct (own_step (HK l i false) (cs S) g t I P HE (sc S t) j stop c' xx C Q E) as (O1 & O2 & O3 & O4 & O5 & O6 & O7 & O8 & O9). destruct (scan_id _ _ _ _ _ _ _ E) as (D1 & D2 & D3).
      assert (Pc : PV c') by (intros n; rewrite O2, O1; intros N1 N2; specialize (P n N1 N2); unfold PV1 in *; rewrite O1, ?O2; exact P). split; [exact Pc|]. exists g. split; [exact O7|].
      intros t'. destruct (Nat.eq_dec t' t) as [->|N].
      + rewrite setf_same. right. exists i. split; [rewrite D1, D2, D3; now apply sev_keep|]. split; [apply nostart_keep; auto; discriminate|]. split; [exact O8|].
        destruct (sph xx) eqn:Ep'; try exact Logic.I; (eapply PI_mono2; [|exact O8|discriminate|exact O9]); intros y r; now apply HK_snoc.
      + rewrite setf_other by exact N. destruct (T t') as [K|(i' & T1' & T2' & Cc & K)]; [now left|]. right. exists i'. pose proof (sev_lt _ _ _ T1') as Hi'. split; [now apply sev_keep|]. split; [apply nostart_keep; auto; congruence|].
        assert (KK' : PI (HK (l ++ [((t, SGo j stop), MkSS c' (setf (sc S) t xx))]) i' (at_rest (sph (sc S t')))) (cs S) g t' (sc S t') (sph (sc S t'))).
        { destruct (sph (sc S t')) eqn:Ep'; try exact Logic.I; (eapply PI_mono2; [|exact Cc|discriminate|exact K]); intros y r; now apply HK_snoc. }
        destruct (scan_quiet _ _ _ _ _ _ _ E) as [->|(q & -> & _)]; [split; [exact Cc|exact KK']|]. split; [now apply CM_go|]. now apply PI_go.
  Qed.
Lemma s_marks S t x S' : sstep S t x = Some S' -> (misp (cs S') = false -> misp (cs S) = false) /\ (abnd (cs S') = false -> abnd (cs S) = false).
  Proof.
    intros ST. unfold sstep in ST. destruct x as [b|rv f em|j stop].
    - destruct (base_ok _ _); [|discriminate ST]. destruct (step (cs S) t b) as [c'|] eqn:E; [|discriminate ST]. injection ST as <-. exact (step_marks _ _ _ _ E).
    - destruct (_ && _); [|discriminate ST]. destruct (pcs (cs S) t); try discriminate ST. injection ST as <-. auto.
    - destruct (scan_step (cs S) t (sc S t) j stop) as [[c' xx]|] eqn:E; [|discriminate ST]. injection ST as <-. destruct (scan_quiet _ _ _ _ _ _ _ E) as [->|(q & -> & _)]; auto.
  Qed.

Lemma alls_start : ALLS [] sstart.
Proof. split; [reflexivity|]. split; [exact PV_start|]. exists g_start. split; [exact Inv_start|]. intros t. now left. Qed.
Lemma ssteps_marks S l S' : ssteps S l S' -> (misp (cs S') = false -> misp (cs S) = false) /\ (abnd (cs S') = false -> abnd (cs S) = false).
Proof. induction 1 as [|S t x S1 l S2 E H IH]; [auto|]. destruct (s_marks S t x S1 E). destruct IH. auto. Qed.
Lemma alls_steps S l S' : ssteps S l S' -> forall l0, ALLS l0 S -> misp (cs S') = false -> abnd (cs S') = false -> ALLS (l0 ++ l) S'.
Proof.
  induction 1 as [|S t x S1 l S2 E H IH]; intros l0 A M B; [now rewrite app_nil_r|]. destruct (ssteps_marks _ _ _ H) as (M1 & B1).
  change (((t, x), S1) :: l) with ([((t, x), S1)] ++ l). rewrite app_assoc. apply IH; auto. apply (all_sstep l0 S); auto.
Qed.

(* ---- what an ended scan has reported ---- *)
Lemma in_order_app rv l k w : in_order rv l -> (forall r, In r l -> before rv (fst r) k) -> in_order rv (l ++ [(k, w)]).
Proof.
  induction l as [|[k0 w0] l IH]; cbn [app in_order]; intros A B; [split; [intros r []|exact Logic.I]|]. destruct A as (A1 & A2). split; [|apply IH; auto; intros r Hr; apply B; now right].
  intros r Hr. apply in_app_or in Hr. destruct Hr as [Hr|[<-|[]]]; [auto|]. exact (B _ (or_introl eq_refl)).
Qed.
Lemma in_order_rev rv l : in_order (negb rv) l -> in_order rv (rev l).
Proof.
  induction l as [|[k w] l IH]; cbn [rev in_order]; [auto|]. intros (A & B). apply in_order_app; [auto|]. intros r Hr. apply in_rev in Hr. specialize (A r Hr). unfold before, negb in *. destruct rv; exact A.
Qed.
Lemma in_order_get rv l k w : in_order rv l -> In (k, w) l -> row_get k l = Some w.
Proof.
  induction l as [|[k0 w0] l IH]; cbn [in_order]; intros A Hin; [destruct Hin|]. cbn [row_get]. destruct Hin as [Q|Q]; [injection Q as -> ->; now rewrite Z.eqb_refl|]. destruct A as (A1 & A2).
  destruct (Z.eqb_spec k0 k) as [->|]; [|auto]. specialize (A1 _ Q). cbn [fst] in A1. unfold before in A1. destruct rv; lia.
Qed.
Lemma says_get l y : says (rev l) y (row_get y l).
Proof.
  unfold says. destruct (row_get y l) as [w|] eqn:E.
  - apply -> in_rev. now apply row_get_In.
  - intros w Q. apply in_rev in Q. revert E Q. induction l as [|[k0 w0] l IH]; cbn [row_get]; intros E Q; [destruct Q|]. destruct (Z.eqb_spec k0 y); [discriminate|]. destruct Q as [Q|Q]; [congruence|auto].
Qed.
Lemma ended l S i t rv f em all : ALLS l S -> (0 < length l)%nat -> sev l i (t, SStart rv f em) -> (forall k rv' f' em', (i < k < length l)%nat -> ~ sev l k (t, SStart rv' f' em')) ->
  sph (sc S t) = FDone all -> scan_true l i (length l - 1) rv f em (rev (sout (sc S t))) all.
Proof.
  intros (_ & _ & g & I & T) L E N D. destruct (T t) as [Q|(i' & T1 & T2 & C & Q)]; [congruence|].
  assert (i' = i).
  { pose proof (sev_lt _ _ _ T1). pose proof (sev_lt _ _ _ E). destruct (Nat.lt_trichotomy i i') as [K|[K|K]]; [|auto|]; exfalso.
    - exact (N i' _ _ _ (conj K H) T1).
    - exact (T2 i _ _ _ K E). }
  subst i'. assert (X : SStart (srv (sc S t)) (sf (sc S t)) (sem (sc S t)) = SStart rv f em) by (destruct E as (a & E), T1 as (b & T1); congruence). injection X as X1 X2 X3.
  destruct C as [C1 C2 C3 C4 C5 C6]. split; [apply in_order_rev; now rewrite <- X1|]. split.
  - intros k w Hk. apply in_rev in Hk. destruct (C6 k w Hk) as (K & _). unfold RNG in K. now rewrite X1, X2, X3 in K.
  - intros y R P. exists (row_get y (sout (sc S t))). assert (K : HK l i true y (row_get y (sout (sc S t)))).
    { rewrite D in Q. cbn [PI at_rest] in Q. assert (R' : RNG (sc S t) y) by (unfold RNG; now rewrite X1, X2, X3). destruct all; [now apply Q|]. apply Q; [|exact R'].
      destruct P as [P|(k & w & Hk & P)]; [discriminate P|]. apply in_rev in Hk. destruct (C6 k w Hk) as (_ & K). unfold psd, before in *. rewrite X1 in *. destruct rv; lia. }
    destruct K as (k & K1 & K2 & K3). exists k. split; [apply says_get|]. split; [lia|exact K3].
Qed.

(* ---- prefixes ---- *)
Lemma ssteps_app S l1 l2 S' : ssteps S (l1 ++ l2) S' -> exists S1, ssteps S l1 S1 /\ ssteps S1 l2 S'.
Proof.
  revert S. induction l1 as [|[[t x] s] l1 IH]; cbn [app]; intros S H; [exists S; split; [constructor|exact H]|]. inversion H as [|? ? ? ? ? ? Q1 Q2]; subst. destruct (IH _ Q2) as (S1 & A & B). exists S1. split; [now constructor|exact B].
Qed.
Lemma sat_app l1 l2 k : (k <= length l1)%nat -> sat (l1 ++ l2) k = sat l1 k.
Proof. intros H. unfold sat. rewrite map_app, app_comm_cons. apply app_nth1. cbn [length]. rewrite map_length. lia. Qed.
Lemma sev_app l1 l2 k d : (k < length l1)%nat -> (sev (l1 ++ l2) k d <-> sev l1 k d).
Proof. intros H. unfold sev. now rewrite nth_error_app1. Qed.

Lemma conc_scan_main l S : ssteps sstart l S -> misp (cs S) = false -> abnd (cs S) = false ->
  forall i j t rv f em res all, scanned l i j t rv f em res all -> scan_true l i j rv f em res all.
Proof.
  intros H M B i j t rv f em res all (E1 & E2 & E3 & E4 & E5 & E6). pose (a := firstn (Datatypes.S j) l). pose (b := skipn (Datatypes.S j) l).
  assert (La : length a = Datatypes.S j) by (unfold a; rewrite firstn_length; lia). assert (El : l = a ++ b) by (symmetry; apply firstn_skipn). rewrite El in *. clearbody a b. clear El l.
  destruct (ssteps_app _ _ _ _ H) as (S1 & H1 & H2). destruct (ssteps_marks _ _ _ H2) as (M1 & B1). pose proof (alls_steps _ _ _ H1 [] alls_start (M1 M) (B1 B)) as A. cbn [app] in A.
  assert (ES : S1 = sat (a ++ b) (Datatypes.S j)) by (rewrite sat_app, <- La by lia; apply A). rewrite <- ES in E4, E5. subst res.
  assert (Q : scan_true a i (length a - 1) rv f em (rev (sout (sc S1 t))) all).
  { apply (ended a S1 i t); auto; [lia|apply (sev_app a b); [lia|exact E1]|]. intros k rv' f' em' K Q. apply (E6 k rv' f' em'); [lia|]. apply sev_app; [lia|exact Q]. }
  destruct Q as (Q1 & Q2 & Q3). split; [exact Q1|]. split; [exact Q2|]. intros y R P. destruct (Q3 y R P) as (r & k & K1 & K2 & K3). exists r, k. split; [exact K1|]. split; [lia|]. rewrite sat_app by lia. exact K3.
Qed.

(* ---- runs without deleted leaves ---- *)
Lemma s_undel_all S l S' : ssteps S l S' -> forall g b, Inv (cs S) g -> XI (cs S) b -> PV (cs S) -> forall l0, ALLS l0 S -> misp (cs S) = false -> abnd (cs S') = false -> nodel (cs S) -> (forall e, In e l -> nodel (cs (snd e))) -> misp (cs S') = false.
Proof.
  induction 1 as [|S t x S1 l S2 E H IH]; intros g b Ig X P l0 A M B N H1; [exact M|]. destruct (ssteps_marks _ _ _ H) as (_ & B1). pose proof (H1 _ (or_introl eq_refl)) as N1. cbn [snd] in N1.
  assert (Q : misp (cs S1) = false /\ exists b1, XI (cs S1) b1).
  { unfold sstep in E. destruct x as [c|rv f em|j stop].
    - destruct (base_ok _ _); [|discriminate E]. destruct (step (cs S) t c) as [c'|] eqn:E'; [|discriminate E]. injection E as <-. cbn [seen_by cs] in *. split; [exact (misp_ok _ _ _ _ _ _ Ig X N E' M)|].
      exact (XI_step (cs S) g b t c c' Ig X N N1 E' M (B1 B)).
    - destruct (_ && _); [|discriminate E]. destruct (pcs (cs S) t); try discriminate E. injection E as <-. split; [exact M|]. exists b. apply (XI_flat (cs S) b _ t); [exact (flat_go (cs S) (cs S) t _ (flat_refl (cs S)))|exact X|intros t' N'; cbn; now apply setf_other|]. cbn. rewrite setf_same. exact Logic.I.
    - destruct (scan_step (cs S) t (sc S t) j stop) as [[c' xx]|] eqn:E'; [|discriminate E]. injection E as <-. cbn [put_sc cs] in *. destruct (scan_quiet _ _ _ _ _ _ _ E') as [->|(q & -> & Hq)]; [eauto|]. split; [exact M|].
      exists b. apply (XI_flat (cs S) b _ t); [exact (flat_go (cs S) (cs S) t _ (flat_refl (cs S)))|exact X|intros t' N'; cbn; now apply setf_other|]. cbn. rewrite setf_same. destruct Hq as [->|[(f & n & ->)|(f & n & v & ->)]]; exact Logic.I. }
  destruct Q as (M1 & b1 & X1). pose proof (all_sstep l0 S t x S1 A E M1 (B1 B)) as A1. pose proof A1 as (_ & P1 & g1 & I1 & _). apply (IH g1 b1 I1 X1 P1 _ A1); auto. intros e He. apply H1. now right.
Qed.
Lemma conc_scan_undel l S : ssteps sstart l S -> s_undeleted l -> abnd (cs S) = false -> misp (cs S) = false.
Proof.
  intros H U A. apply (s_undel_all sstart l S H g_start (fun _ => 0) Inv_start XI_start PV_start [] alls_start); auto.
  - intros a. exact (U 0%nat a ltac:(lia)).
  - intros e He. destruct (In_nth_error _ _ He) as (k & Hk). assert (K : (k < length l)%nat) by (apply nth_error_Some; congruence). assert (V : nodel (cs (sat l (Datatypes.S k)))) by (intros a; exact (U (Datatypes.S k) a K)).
    unfold sat in V. cbn [nth] in V. assert (Q : nth k (map snd l) sstart = snd e) by (apply nth_error_nth; now apply map_nth_error). now rewrite Q in V.
Qed.
Lemma s_abnd_only S t x S' : sstep S t x = Some S' -> x <> SBase Abandon -> abnd (cs S) = false -> abnd (cs S') = false.
Proof.
  intros E N A. unfold sstep in E. destruct x as [c|rv f em|j stop].
  - destruct (base_ok _ _); [|discriminate E]. destruct (step (cs S) t c) as [c'|] eqn:E'; [|discriminate E]. injection E as <-. cbn [seen_by cs]. apply (abnd_only _ _ _ _ E'); [congruence|exact A].
  - destruct (_ && _); [|discriminate E]. destruct (pcs (cs S) t); try discriminate E. injection E as <-. exact A.
  - destruct (scan_step (cs S) t (sc S t) j stop) as [[c' xx]|] eqn:E'; [|discriminate E]. injection E as <-. destruct (scan_quiet _ _ _ _ _ _ _ E') as [->|(q & -> & Hq)]; exact A.
Qed.
Lemma s_abnd_all S l S' : ssteps S l S' -> (forall e, In e l -> snd (fst e) <> SBase Abandon) -> abnd (cs S) = false -> abnd (cs S') = false.
Proof. induction 1 as [|S t x S1 l S2 E H IH]; intros N A; [exact A|]. apply IH; [intros e He; apply N; now right|]. apply (s_abnd_only S t x S1 E); [exact (N _ (or_introl eq_refl))|exact A]. Qed.
Lemma nogive l S : ssteps sstart l S -> s_no_giving_up l -> abnd (cs S) = false.
Proof.
  intros H N. apply (s_abnd_all _ _ _ H); [|reflexivity]. intros [[t x] s] He Q. cbn in Q. subst x. destruct (In_nth_error _ _ He) as (k & Hk). apply (N k t). exists s. exact Hk.
Qed.
Lemma conc_scan_undeleted l S : ssteps sstart l S -> s_undeleted l -> s_no_giving_up l ->
  forall i j t rv f em res all, scanned l i j t rv f em res all -> scan_true l i j rv f em res all.
Proof. intros H U N. pose proof (nogive _ _ H N) as A. apply (conc_scan_main l S); auto. now apply (conc_scan_undel l). Qed.

(* ---- runs without removals ---- *)
Lemma s_alive S l S' : ssteps S l S' -> (forall e y, In e l -> snd (fst e) <> SBase (Start y ORem)) -> alive (cs S) -> (forall t, norem (pcs (cs S) t)) -> forall e, In e l -> alive (cs (snd e)).
Proof.
  induction 1 as [|S t x S1 l S2 E H IH]; intros R A N e He; [destruct He|].
  assert (Q : alive (cs S1) /\ forall t0, norem (pcs (cs S1) t0)).
  { assert (G : forall q, calm q -> forall t0, norem (pcs (go (cs S) t q) t0)).
    { intros q Hq t0. cbn. unfold setf. destruct (t0 =? t)%nat; [|apply N]. destruct Hq as [->|[(f & n & ->)|(f & n & v & ->)]]; split; intros; discriminate. }
    unfold sstep in E. destruct x as [c|rv f em|j stop].
    - destruct (base_ok _ _); [|discriminate E]. destruct (step (cs S) t c) as [c'|] eqn:E'; [|discriminate E]. injection E as <-. cbn [seen_by cs]. split; [exact (alive_step _ _ _ _ E' (N t) A)|].
      apply (norem_step _ _ _ _ E'); [|exact N]. intros y ->. exact (R _ y (or_introl eq_refl) eq_refl).
    - destruct (_ && _); [|discriminate E]. destruct (pcs (cs S) t); try discriminate E. injection E as <-. split; [exact A|]. apply G. right. left. eauto.
    - destruct (scan_step (cs S) t (sc S t) j stop) as [[c' xx]|] eqn:E'; [|discriminate E]. injection E as <-. cbn [put_sc cs]. destruct (scan_quiet _ _ _ _ _ _ _ E') as [->|(q & -> & Hq)]; [auto|]. split; [exact A|now apply G]. }
  destruct Q as (Q1 & Q2). destruct He as [<-|He]; [exact Q1|]. apply IH; auto. intros e' y He'. apply R. now right.
Qed.
Lemma conc_scan_norem l S : ssteps sstart l S -> s_no_removals l -> s_no_giving_up l ->
  forall i j t rv f em res all, scanned l i j t rv f em res all -> scan_true l i j rv f em res all.
Proof.
  intros H R N. apply (conc_scan_undeleted l S); auto. assert (A0 : alive (cs sstart)) by (intros a; cbn; destruct (a =? 0)%nat; reflexivity).
  assert (AL : forall e, In e l -> alive (cs (snd e))).
  { apply (s_alive _ _ _ H); auto; [|intros t; split; intros; discriminate]. intros [[t x] s] y He Q. cbn in Q. subst x. destruct (In_nth_error _ _ He) as (k & Hk). apply (R k t y). exists s. exact Hk. }
  intros k a Hk _. destruct k as [|k]; [apply A0|]. unfold sat. cbn [nth]. destruct (nth_error l k) as [e|] eqn:E; [|apply nth_error_None in E; lia].
  assert (Q : nth k (map snd l) sstart = snd e) by (apply nth_error_nth; now apply map_nth_error). rewrite Q. apply AL. eapply nth_error_In. exact E.
Qed.
