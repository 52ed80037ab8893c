(* Scans beside other operations: what a scan knows. *)
From Verif Require Import Lib M_Tree M_Stampc P_Stampc1 M_Conc Spec_Conc M_ConcScan Spec_ConcScan P_Conc1 P_Conc2 P_Conc3 P_Conc4 P_Conc14 P_Conc15 P_Conc18 P_Conc19 P_Conc20 P_ScanA1.
From Coq Require Import Sorting.Sorted.

Definition vkey (e : Z * Z * bool) : Z := fst (fst e).
Definition vval (e : Z * Z * bool) : Z := snd (fst e).
Definition RNG (c : scn) (y : Z) : Prop := in_range (srv c) (sf c) (sem c) y.
(* Keys the scan is through with according to ka. *)
Definition psd (c : scn) (y : Z) : Prop := if srv c then ska c <= y else y <= ska c.
Definition srch (p : pct) (y : Z) : Prop :=
  match p with
  | PRoot y' OGet _ | PUp y' OGet _ | PIn y' OGet _ _ _ _ | PKid y' OGet _ _ _ | PChk y' OGet _ _ _ _ | PRe y' OGet _ _ | PLast y' OGet _ _ _ | PLastC y' OGet _ _ _ _
  | PLeaf y' OGet _ _ | PAdv y' OGet _ _ | PLLast y' OGet _ _ _ | PLLastC y' OGet _ _ _ _ | PWalk y' OGet _ _ | PNext y' OGet _ => y' = y
  | _ => False
  end.

(* H y r: at some moment since the scan started y had entry r. *)
Section H.
  Variable H : Z -> option Z -> Prop.
  Definition SetY (c : scn) (y : Z) : Prop := RNG c y -> H y (row_get y (sout c)).
  Definition Base (c : scn) : Prop := forall y, psd c y -> SetY c y.
  Definition LP (s : cst) (c : scn) (n : nat) : Prop :=
    (n < fr s)%nat /\ isl (nd s n) = true /\ (srv c = false -> forall y, y < lo (nd s n) -> SetY c y) /\ (srv c = true -> lo (nd s n) <= ska c).
  Definition VS (s : cst) (n : nat) (v : cver) : Prop := stbl v /\ vle v (ver (nd s n)).
  Record VW (s : cst) (g : gst) (c : scn) (n : nat) (l : view) : Prop := {
    vw_ord : StronglySorted (fun a b => before (srv c) (vkey a) (vkey b)) l;
    vw_in : forall e, In e l -> lo (nd s n) <= vkey e < rh g n /\ (RNG c (vkey e) -> H (vkey e) (Some (vval e)));
    vw_all : forall y, lo (nd s n) <= y < rh g n -> SetY c y \/ exists e, In e l /\ vkey e = y;
    vw_top : srv c = true -> ska c <= rh g n }.
  Definition Fresh (c : scn) : Prop := sout c = [] /\ ska c = sf c /\ sst c = false.
  Definition NV (s : cst) (g : gst) (c : scn) (n : nat) (v : cver) : Prop :=
    KK s g n v (sf c) /\ isl (nd s n) = true /\ v_del v = false /\ (nosplit v (ver (nd s n)) -> sf c < rh g n).

  Definition PI (s : cst) (g : gst) (t : nat) (c : scn) (p : phase) : Prop :=
    match p with
    | FIdle => True
    | FInit => Fresh c /\ srch (pcs s t) (sf c)
    | FIni n v l => Fresh c /\ pcs s t = Idle /\ NV s g c n v /\ (same s n v = true -> VW s g c n l /\ forall e, In e l -> vkey e = sf c \/ before (srv c) (sf c) (vkey e))
    | FIniC n v e l => Fresh c /\ pcs s t = Idle /\ NV s g c n v /\ (same s n v = true -> VW s g c n l /\
        match e with
        | Some w => (RNG c (sf c) -> H (sf c) (Some w)) /\ exists w0 b l', l = (sf c, w0, b) :: l'
        | None => forall e, In e l -> vkey e <> sf c
        end)
    | FRetry => Base c /\ srch (pcs s t) (ska c)
    | FLow n v => Base c /\ pcs s t = Idle /\ LP s c n /\ VS s n v /\ (srv c = true -> v_del v = false -> same s n v = true -> ska c <= rh g n)
    | FNext n v l => Base c /\ pcs s t = Idle /\ LP s c n /\ VS s n v /\ (v_del v = false -> same s n v = true -> VW s g c n l)
    | FEnt n v k w l => Base c /\ pcs s t = Idle /\ LP s c n /\ VS s n v /\ v_del v = false /\ (same s n v = true -> VW s g c n ((k, w, false) :: l))
    | FEnd n v => Base c /\ pcs s t = Idle /\ LP s c n /\ VS s n v /\ v_del v = false /\ (same s n v = true -> VW s g c n [])
    | FAdv n => Base c /\ pcs s t = Idle /\ (n < fr s)%nat /\ isl (nd s n) = true /\
        (srv c = false -> forall y, y < nlo s (nxt (nd s n)) -> SetY c y) /\
        (srv c = true -> lo (nd s n) <= ska c /\ forall y, lo (nd s n) <= y -> SetY c y)
    | FStab n => Base c /\ pcs s t = Idle /\ LP s c n
    | FWalk n v => Base c /\ pcs s t = Idle /\ LP s c n /\ VS s n v /\ srv c = true
    | FDone true => forall y, SetY c y
    | FDone false => Base c
    end.
  Record CM (s : cst) (g : gst) (c : scn) : Prop := {
    cm_f : yr (sf c); cm_ka : yr (ska c); cm_fka : if srv c then ska c <= sf c else sf c <= ska c; cm_rt : (srt c < fr s)%nat /\ l0 g (srt c) = 0;
    cm_ord : in_order (negb (srv c)) (sout c);
    cm_out : forall k w, In (k, w) (sout c) -> RNG c k /\ psd c k }.
  Definition SI (s : cst) (g : gst) (t : nat) (c : scn) : Prop := sph c = FIdle \/ (CM s g c /\ PI s g t c (sph c)).
End H.

(* ---- more moments ---- *)
Section Mono.
  Variables H H' : Z -> option Z -> Prop.
  Hypothesis HH : forall y r, H y r -> H' y r.
  Lemma SetY_mono c y : SetY H c y -> SetY H' c y. Proof. unfold SetY. auto. Qed.
  Lemma Base_mono c : Base H c -> Base H' c. Proof. intros B y Q. apply SetY_mono. now apply B. Qed.
  Lemma LP_mono s c n : LP H s c n -> LP H' s c n.
  Proof. intros (A & B & C & D). repeat split; auto. intros Q y Hy. now apply SetY_mono, C. Qed.
  Lemma VW_mono s g c n l : VW H s g c n l -> VW H' s g c n l.
  Proof.
    intros [A B C D]. constructor; auto.
    - intros e He. destruct (B e He). auto.
    - intros y Hy. destruct (C y Hy) as [Q|Q]; [left; now apply SetY_mono|right; exact Q].
  Qed.
  Lemma PI_mono s g t c p : PI H s g t c p -> PI H' s g t c p.
  Proof.
    destruct p as [| |n v l|n v e l| |n v|n v l|n v k w l|n v|n|n|n v|[|]]; cbn [PI]; try (intros Q; exact Q).
    - intros (A & B & C & D). split; [exact A|]. split; [exact B|]. split; [exact C|]. intros Q. destruct (D Q). auto using VW_mono.
    - intros (A & B & C & D). split; [exact A|]. split; [exact B|]. split; [exact C|]. intros Q. destruct (D Q) as (D1 & D2). split; [now apply VW_mono|]. destruct e as [w|]; [|exact D2]. destruct D2 as (D2 & D3). split; auto.
    - intros (A & B). split; [now apply Base_mono|exact B].
    - intros (A & B & C & D & E). split; [now apply Base_mono|]. split; [exact B|]. split; [now apply LP_mono|]. auto.
    - intros (A & B & C & D & E). split; [now apply Base_mono|]. split; [exact B|]. split; [now apply LP_mono|]. split; auto using VW_mono.
    - intros (A & B & C & D & E & F). split; [now apply Base_mono|]. split; [exact B|]. split; [now apply LP_mono|]. split; [exact D|]. split; auto using VW_mono.
    - intros (A & B & C & D & E & F). split; [now apply Base_mono|]. split; [exact B|]. split; [now apply LP_mono|]. split; [exact D|]. split; auto using VW_mono.
    - intros (A & B & C & D & E & F). split; [now apply Base_mono|]. split; [exact B|]. split; [exact C|]. split; [exact D|]. split.
      + intros Q y Hy. now apply SetY_mono, E.
      + intros Q. destruct (F Q) as (F1 & F2). split; [exact F1|]. intros y Hy. now apply SetY_mono, F2.
    - intros (A & B & C). split; [now apply Base_mono|]. split; [exact B|]. now apply LP_mono.
    - intros (A & B & C & D & E). split; [now apply Base_mono|]. split; [exact B|]. split; [now apply LP_mono|]. auto.
    - intros Q y. now apply SetY_mono.
    - apply Base_mono.
  Qed.
  Lemma SI_mono s g t c : SI H s g t c -> SI H' s g t c.
  Proof. intros [Q|(A & B)]; [now left|right]. split; [exact A|now apply PI_mono]. Qed.
End Mono.

(* ---- the other threads' steps ---- *)
Lemma row_get_In y w : forall l, row_get y l = Some w -> In (y, w) l.
Proof. induction l as [|[k x] l IH]; cbn [row_get]; [discriminate|]. destruct (Z.eqb_spec k y) as [->|]; [intros [= ->]; now left|right; auto]. Qed.
Lemma none_set H s g c y : CM s g c -> sout c = [] \/ Base H c -> H y None -> SetY H c y.
Proof.
  intros C D Q. destruct (row_get y (sout c)) as [w|] eqn:E; [|unfold SetY; now rewrite E]. destruct D as [D|D]; [rewrite D in E; discriminate E|].
  apply D. destruct (cm_out _ _ _ C y w (row_get_In _ _ _ E)). assumption.
Qed.
Lemma follow1_key rs e : vkey (follow1 rs e) = vkey e.
Proof. destruct e as [[k w] [|]]; cbn [follow1]; [destruct (row_get k rs)|]; reflexivity. Qed.
Lemma map_sorted {A} (R : A -> A -> Prop) (f : A -> A) : (forall a b, R a b -> R (f a) (f b)) -> forall l, StronglySorted R l -> StronglySorted R (map f l).
Proof. intros Hf. induction 1 as [|a l S IH Hall]; cbn [map]; constructor; auto. rewrite Forall_map. eapply Forall_impl; [|exact Hall]. auto. Qed.

Section Other.
  Variables (H H' : Z -> option Z -> Prop) (s : cst) (g : gst) (t0 : nat) (x : choice) (s' : cst) (g' : gst).
  Hypothesis I : Inv s g.
  Hypothesis I' : Inv s' g'.
  Hypothesis ST : step s t0 x = Some s'.
  Hypothesis R : Rel s g s' g'.
  Hypothesis F : Frame s g s' g' t0.
  Hypothesis HH : forall y r, H y r -> H' y r.
  Hypothesis HN : forall y r, entry s' y r -> H' y r.
  Hypothesis HO : forall y r, entry s y r -> H' y r.
  Let G := proj1 I.
  Let G' := proj1 I'.

  Lemma CM_step c : CM s g c -> CM s' g' c.
  Proof.
    intros [A B B' (C1 & C2) D E]. constructor; auto. pose proof (rl_fr _ _ _ _ R). split; [lia|]. pose proof (rl_l0 _ _ _ _ R _ C1). pose proof (gt_num _ _ (gi_t _ _ G') (srt c) ltac:(lia)) as (Q & _). lia.
  Qed.
  Lemma LP_step c n : LP H s c n -> LP H' s' c n.
  Proof.
    intros (A & B & C & D). pose proof (rl_fr _ _ _ _ R). split; [lia|]. rewrite (rl_isl _ _ _ _ R n A), (fm_lo _ _ _ _ _ F n A). split; [exact B|]. split; [|exact D].
    intros Q y Hy. apply (SetY_mono H H' HH). now apply C.
  Qed.
  Lemma VS_step n v : (n < fr s)%nat -> VS s n v -> VS s' n v.
  Proof. intros A (B & C). split; [exact B|]. now apply (rl_ver _ _ _ _ R n A v B C). Qed.
  Lemma VS_same n v : (n < fr s)%nat -> VS s n v -> same s' n v = true -> same s n v = true /\ rh g n <= rh g' n.
  Proof.
    intros A (B & C) Q. split; [exact (same_back s g s' g' R n v A B C Q)|]. apply (rl_rh _ _ _ _ R n A). apply (proj2 (same_stbl _ _ B Q)).
  Qed.
  Lemma same_linked u gu n v : GI u gu -> (n < fr u)%nat -> isl (nd u n) = true -> v_del v = false -> same u n v = true -> linked u gu n.
  Proof.
    intros Gu A B C Q. split; [exact A|]. split; [exact B|]. destruct (ul gu n) eqn:E; [|reflexivity]. destruct (gl_leaf _ _ (gi_l _ _ Gu) n A B) as (_ & _ & _ & K & _). specialize (K E). unfold same in Q. rewrite (same_del _ _ Q) in K. congruence.
  Qed.
  Lemma VW_step c n v l : CM s g c -> sout c = [] \/ Base H c -> (n < fr s)%nat -> isl (nd s n) = true -> VS s n v -> v_del v = false -> same s' n v = true ->
    VW H s g c n l -> VW H' s' g' c n (map (follow1 (rws (nd s' n))) l).
  Proof.
    intros C B0 A B V D Q [W1 W2 W3 W4]. destruct (VS_same n v A V Q) as (Q0 & Qr). pose proof (rl_fr _ _ _ _ R) as Hfr. assert (Ei : isl (nd s' n) = true) by (rewrite (rl_isl _ _ _ _ R n A); exact B).
    pose proof (same_linked s' g' n v G' ltac:(lia) Ei D Q) as Ln'. pose proof (fm_lo _ _ _ _ _ F n A) as El. constructor.
    - apply map_sorted; [|exact W1]. intros a b. now rewrite !follow1_key.
    - intros e He. apply in_map_iff in He. destruct He as (e0 & <- & He). rewrite follow1_key, El. destruct (W2 e0 He) as (X1 & X2). split; [lia|]. intros Y.
      destruct e0 as [[k w] [|]]; cbn [follow1]; [|apply HH, X2, Y]. cbn [vkey fst] in *. destruct (row_get k (rws (nd s' n))) as [w'|] eqn:E; cbn [vval fst snd]; [|apply HH, X2, Y].
      apply HN. rewrite <- E. apply (entry_rh s' g' G' n k Ln'). unfold vkey in X1. cbn in X1. lia.
    - intros y Hy. rewrite El in Hy. destruct (Z_lt_le_dec y (rh g n)) as [Z1|Z1].
      + destruct (W3 y) as [K|(e & K1 & K2)]; [lia|left; now apply (SetY_mono H H' HH)|]. right. exists (follow1 (rws (nd s' n)) e). split; [now apply in_map|now rewrite follow1_key].
      + left. assert (N : row_get y (rws (nd s' n)) = None).
        { destruct (row_get y (rws (nd s' n))) as [w|] eqn:E; [|reflexivity]. exfalso. pose proof (rh_ge s g n (gi_t _ _ G) (gi_l _ _ G) A).
          destruct (rows_new s g t0 x s' g' I I' ST R F n y w A B E) as [K|K]; [|lia]. destruct (gl_rows _ _ (gi_l _ _ G) n A B) as (_ & K2 & _). specialize (K2 y ltac:(congruence)). lia. }
        apply (none_set H' s' g' c y (CM_step c C)); [destruct B0 as [B0|B0]; [now left|right; now apply (Base_mono H)]|]. apply HN. rewrite <- N. apply (entry_rh s' g' G' n y Ln'). rewrite El. lia.
    - intros Y. specialize (W4 Y). lia.
  Qed.
  Lemma NV_step c n v : NV s g c n v -> NV s' g' c n v.
  Proof.
    intros (A & B & C & D). split; [exact (KK_stable s g s' g' 0 1 R (Nat.neq_succ_0 0) n v (sf c) A)|]. destruct A as (A1 & A2 & A3 & A4). split; [now rewrite (rl_isl _ _ _ _ R n A1)|]. split; [exact C|].
    exact (rh_stable s g s' g' 0 1 R (Nat.neq_succ_0 0) n v (sf c) A1 A2 A3 D).
  Qed.
  (* The scanning thread is not the one that steps, or it is on its way to a leaf. *)
  Lemma PI_step t c p : CM s g c -> (t = t0 -> at_rest p = true \/ ((p = FInit \/ p = FRetry) /\ forall y, srch (pcs s t) y -> srch (pcs s' t) y)) ->
    PI H s g t c p -> PI H' s' g' t c (follow s' p).
  Proof.
    intros C T P. assert (PC : at_rest p = false -> p <> FInit -> p <> FRetry -> pcs s' t = pcs s t).
    { intros Q1 Q2 Q3. destruct (Nat.eq_dec t t0) as [E|E]; [|exact (fm_pc _ _ _ _ _ F t E)]. destruct (T E) as [K|([K|K] & _)]; congruence. }
    assert (PS : forall y, (p = FInit \/ p = FRetry) -> srch (pcs s t) y -> srch (pcs s' t) y).
    { intros y Q. destruct (Nat.eq_dec t t0) as [E|E]; [|now rewrite (fm_pc _ _ _ _ _ F t E)]. destruct (T E) as [K|(_ & K)]; [|apply K]. destruct Q as [->| ->]; discriminate K. }
    pose proof (rl_fr _ _ _ _ R) as Hfr. pose proof (Base_mono H H' HH c) as BM.
    destruct p as [| |n v l|n v e l| |n v|n v l|n v k w l|n v|n|n|n v|[|]]; cbn [PI follow] in *.
    - exact Logic.I.
    - destruct P as (A & B). split; [exact A|]. apply PS; auto.
    - destruct P as (A & B & N & D). split; [exact A|]. split; [rewrite PC; auto; discriminate|]. split; [now apply NV_step|]. destruct N as ((N1 & N2 & N3 & N4) & N5 & N6 & N7).
      assert (V : VS s n v) by (split; auto). intros Q. destruct (VS_same n v N1 V Q) as (Q0 & _). destruct (D Q0) as (D1 & D2). split; [apply (VW_step c n v); auto; left; apply A|].
      intros e He. apply in_map_iff in He. destruct He as (e0 & <- & He). rewrite follow1_key. auto.
    - destruct P as (A & B & N & D). split; [exact A|]. split; [rewrite PC; auto; discriminate|]. split; [now apply NV_step|]. destruct N as ((N1 & N2 & N3 & N4) & N5 & N6 & N7).
      assert (V : VS s n v) by (split; auto). intros Q. destruct (VS_same n v N1 V Q) as (Q0 & _). destruct (D Q0) as (D1 & D2). split; [apply (VW_step c n v); auto; left; apply A|].
      destruct e as [w|].
      + destruct D2 as (D2 & w0 & b & l' & ->). split; [auto|]. cbn [map]. destruct b; cbn [follow1]; [destruct (row_get _ _)|]; eauto.
      + intros e He. apply in_map_iff in He. destruct He as (e0 & <- & He). rewrite follow1_key. auto.
    - destruct P as (A & B). split; [auto|]. apply PS; auto.
    - destruct P as (A & B & L & V & D). split; [auto|]. split; [rewrite PC; auto; discriminate|]. split; [now apply LP_step|]. destruct L as (L1 & L2 & _). split; [now apply VS_step|].
      intros Y1 Y2 Q. destruct (VS_same n v L1 V Q) as (Q0 & Q1). specialize (D Y1 Y2 Q0). lia.
    - destruct P as (A & B & L & V & D). split; [auto|]. split; [rewrite PC; auto; discriminate|]. split; [now apply LP_step|]. destruct L as (L1 & L2 & _). split; [now apply VS_step|].
      intros Y Q. destruct (VS_same n v L1 V Q) as (Q0 & Q1). apply (VW_step c n v); auto.
    - destruct P as (A & B & L & V & Y & D). split; [auto|]. split; [rewrite PC; auto; discriminate|]. split; [now apply LP_step|]. destruct L as (L1 & L2 & _). split; [now apply VS_step|]. split; [exact Y|].
      intros Q. destruct (VS_same n v L1 V Q) as (Q0 & Q1). exact (VW_step c n v ((k, w, false) :: l) C (or_intror A) L1 L2 V Y Q (D Q0)).
    - destruct P as (A & B & L & V & Y & D). split; [auto|]. split; [rewrite PC; auto; discriminate|]. split; [now apply LP_step|]. destruct L as (L1 & L2 & _). split; [now apply VS_step|]. split; [exact Y|].
      intros Q. destruct (VS_same n v L1 V Q) as (Q0 & Q1). exact (VW_step c n v [] C (or_intror A) L1 L2 V Y Q (D Q0)).
    - destruct P as (A & B & L1 & L2 & D & E). split; [auto|]. split; [rewrite PC; auto; discriminate|]. split; [lia|]. split; [now rewrite (rl_isl _ _ _ _ R n L1)|]. split.
      + intros Y y Hy. destruct (Z_lt_le_dec y (nlo s (nxt (nd s n)))) as [Z1|Z1]; [apply (SetY_mono H H' HH); now apply D|].
        apply (none_set H' s' g' c y (CM_step c C)); [right; auto|]. apply HO. exact (nxt_step s g t0 x s' g' I I' ST R F n y L1 L2 (conj Z1 Hy)).
      + intros Y. rewrite (fm_lo _ _ _ _ _ F n L1). destruct (E Y) as (E1 & E2). split; [exact E1|]. intros y Hy. apply (SetY_mono H H' HH). now apply E2.
    - destruct P as (A & B & L). split; [auto|]. split; [rewrite PC; auto; discriminate|]. now apply LP_step.
    - destruct P as (A & B & L & V & D). split; [auto|]. split; [rewrite PC; auto; discriminate|]. split; [now apply LP_step|]. split; [|exact D]. apply VS_step; [apply L|exact V].
    - intros y. apply (SetY_mono H H' HH), P.
    - auto.
  Qed.
End Other.
