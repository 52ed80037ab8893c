(* Insertion, part 6: make_new_layer and find_insert. *)
From Verif Require Import Lib Spec_String M_Key P_Key M_Permuter P_Permuter2 M_Search P_Search M_Tree P_Tree1 P_Tree2 P_Tree3 P_Tree4 P_Tree4b P_Tree5 P_Tree5b P_Tree6 P_Tree6b P_Tree6d P_Tree6e.

(* A twig leaf as made, and the leaf of which it is an image while the entry has not been pushed further down. *)
Definition tw (ik : Z) : leafn := lf_set_perm (perm_make_sorted W 1) (lf_set_slot 0 ik 128 LvEmpty [] leaf_root).
Definition vt (ik v : Z) (o : list Z) : leafn := lf_set_perm (perm_make_sorted W 1) (lf_set_slot 0 ik 64 (LvVal v) o leaf_root).

Lemma sorted1 : perm_ok W (perm_make_sorted W 1) /\ perm_size (perm_make_sorted W 1) = 1%nat /\ perm_get (perm_make_sorted W 1) 0 = 0%nat /\
  perm_back W (perm_make_sorted W 1) = 1%nat.
Proof.
  destruct (make_sorted_spec W 1 HW15 ltac:(pose proof W_eq; lia)) as (A & _). split; [exact A|]. repeat split.
Qed.

Lemma single_vt v o : 8 < len o -> single (vt (slice_make_comparable o) v (skipn 8 o)) 0 v o.
Proof.
  intros Ho. destruct sorted1 as (A & B & C & _). constructor; auto; try reflexivity; try discriminate.
  unfold key_klx. destruct (Z.ltb_spec 8 (len o)); [reflexivity|lia].
Qed.
Lemma repoint_vt ik v o a : repoint (vt ik v o) 0 a (lf_set_lv 0 (LvLayer a) (tw ik)).
Proof.
  constructor; try reflexivity. intros s N. unfold slot_eq, vt, tw.
  cbn [lf_set_lv lf_set_perm lf_set_slot lf_ikey lf_klx lf_lv lf_ksuf]. unfold upd. destruct (Nat.eqb_spec s 0); [lia|]. repeat split.
Qed.
Lemma repoint_self l p a : repoint l p a (lf_set_klx p 128 (lf_set_lv p (LvLayer a) l)).
Proof.
  constructor; try reflexivity; cbn; try apply upd_same. intros s N. unfold slot_eq. cbn [lf_set_klx lf_set_lv lf_ikey lf_klx lf_lv lf_ksuf]. now rewrite !upd_other.
Qed.
Lemma live_vt ik v o : live_slot (vt ik v o) 0.
Proof. exists 0%nat. unfold vt. cbn [lf_set_perm lf_perm]. destruct sorted1 as (A & B & C & _). rewrite B. split; [lia|auto]. Qed.

Lemma push_lnew k g0 hv gv Lc lc q s : lnew k g0 gv -> k = g_pre gv Lc ++ be_bytes 8 (lf_ikey lc q) ++ s -> s <> [] -> lnew k g0 (g_push hv gv Lc lc q).
Proof.
  intros A E N. apply (lnew_trans _ _ gv); auto. intros M HM. unfold g_push in *. cbn [g_lay g_pre] in *. unfold upd in *. destruct (Nat.eqb_spec M (hp_next hv)) as [X|X].
  - right. exists s. split; [rewrite <- app_assoc|]; auto.
  - left. auto.
Qed.

Lemma push_spill h0 g0 n hv gv Lc cur lc q v h' lc' nl e : Inv h0 g0 -> Inv hv gv -> g_lay gv cur = Some Lc -> hp_node hv cur = Some (NLeaf lc) -> live_slot lc q -> lf_klx lc q = 64 -> lf_lv lc q = LvVal v ->
  hp_next h' = S (hp_next hv) -> hp_node h' (hp_next hv) = Some (NLeaf nl) -> hp_node h' cur = Some (NLeaf lc') -> (forall m, m <> cur -> m <> hp_next hv -> hp_node h' m = hp_node hv m) ->
  repoint lc q (hp_next hv) lc' -> single nl e v (lf_ksuf lc q) ->
  hmv (spill h0 n) h0 g0 hv gv -> (cur = n \/ (hp_next h0 <= cur)%nat) -> (hp_next h0 <= hp_next hv)%nat -> hmv (spill h0 n) h0 g0 h' (g_push hv gv Lc lc q).
Proof.
  intros HI0 HI A1 A2 A3 A4 A5 B1 B2 B3 B4 B5 B6 H1 H2 H3.
  assert (H4 := ps_hmv hv gv Lc cur lc q h' HI A1 A2 A3 A4 B1 B4).
  apply (hmv_comp _ _ _ _ _ _ _ _ _ H1 H4). intros b k b1 b2 Q0 Q1 R1 [->|[-> ->]]; [exact R1|].
  right. split; [|exact H3]. destruct R1 as [->|[R1 _]]; [|exact R1]. destruct H2 as [H2|H2]; [exact H2|]. pose proof (home_live _ _ _ _ HI0 Q0). lia.
Qed.

Section NewLayer.
Context (h0 : heap) (g0 : ghost) (n : nat) (l : leafn) (p : nat) (v : Z) (k : list Z) (HI0 : Inv h0 g0).
Hypothesis Hkb : bytes_ok k.

(* hv is the heap in which the twigs made so far are complete layers and the old entry is stored in the last of them. *)
Record TW (h hv : heap) (gv : ghost) (head tail : option addr) (cur q Lc : nat) (lc : leafn) (o s : list Z) : Prop := {
  tw_inv : Inv hv gv;
  tw_holds : forall k v, holds hv gv k v <-> holds h0 g0 k v;
  tw_stale : forall M m, stale h0 g0 M m -> stale hv gv M m;
  tw_next : hp_next hv = hp_next h;
  tw_new : lnew k g0 gv /\ hmv (spill h0 n) h0 g0 hv gv /\ (cur = n \/ (hp_next h0 <= cur)%nat) /\ (hp_next h0 <= hp_next hv)%nat;
  tw_lay : g_lay gv cur = Some Lc;
  tw_node : hp_node hv cur = Some (NLeaf lc);
  tw_live : live_slot lc q;
  tw_klx : lf_klx lc q = 64;
  tw_lv : lf_lv lc q = LvVal v;
  tw_suf : lf_ksuf lc q = o;
  tw_key : k = g_pre gv Lc ++ be_bytes 8 (lf_ikey lc q) ++ s;
  tw_n : hp_node h n = Some (NLeaf l);
  tw_real : match tail with
    | None => head = None /\ cur = n /\ q = p /\ (forall m, hp_node hv m = hp_node h m)
    | Some t => cur = t /\ q = 0%nat /\ t <> n /\ (exists ik o, hp_node h t = Some (NLeaf (tw ik)) /\ lc = vt ik v o) /\
        (exists hd, head = Some hd /\ hp_node hv n = Some (NLeaf (lf_set_klx p 128 (lf_set_lv p (LvLayer hd) l)))) /\
        (forall m, m <> n -> m <> t -> hp_node hv m = hp_node h m)
    end
}.

(* The real heap after pointing the last twig (or n) at the new node a, apart from n itself. *)
Definition point_tail (h : heap) (tail : option addr) (a : addr) : res heap :=
  match tail with
  | Some t => tl <- hleaf h t ;; Ok (hset h t (NLeaf (lf_set_lv 0 (LvLayer a) tl)))
  | None => Ok h
  end.
Definition nhead (head : option addr) (a : addr) : addr := match head with Some x => x | None => a end.

(* The leaf that cur becomes. *)
Lemma tw_point h hv gv head tail cur q Lc lc o s nl : TW h hv gv head tail cur q Lc lc o s ->
  let a := hp_next h in let h1 := snd (halloc h (NLeaf nl)) in
  exists h2 lc', point_tail h1 tail a = Ok h2 /\ hp_next h2 = S a /\ hp_node h2 a = Some (NLeaf nl) /\ hp_node h2 n = Some (NLeaf l) /\ n <> a /\ cur <> a /\
    repoint lc q a lc' /\
    (forall h', hp_node h' n = Some (NLeaf (lf_set_klx p 128 (lf_set_lv p (LvLayer (nhead head a)) l))) ->
      (forall m, m <> n -> hp_node h' m = hp_node h2 m) -> 
      hp_node h' a = Some (NLeaf nl) /\ hp_node h' cur = Some (NLeaf lc') /\ forall m, m <> cur -> m <> a -> hp_node h' m = hp_node hv m).
Proof.
  intros T a h1. destruct T as [T1 T2 T3 T4 TNW T5 T6 T7 T8 T9 T10 T11 T12 T13].
  assert (Cl : (cur < a)%nat) by (destruct (iv_heap _ _ T1 cur _ T6) as [C _]; unfold a; lia).
  assert (N1 : forall m, m <> a -> hp_node h1 m = hp_node h m) by (intros; cbn; now rewrite upd_other).
  assert (N1a : hp_node h1 a = Some (NLeaf nl)) by (cbn; apply upd_same).
  destruct tail as [t|]; cbn [point_tail].
  - destruct T13 as (-> & -> & Tn & (ik & o' & R1 & R2) & (hd & -> & R3) & R4). subst lc.
    assert (Na : n <> a) by (destruct (iv_heap _ _ T1 n _ R3) as [C _]; unfold a; lia).
    assert (E1 : hp_node h1 t = Some (NLeaf (tw ik))) by (rewrite N1; auto; lia).
    rewrite (hleaf_some _ _ _ E1). cbn [bind]. eexists. exists (lf_set_lv 0 (LvLayer a) (tw ik)). split; [reflexivity|]. split; [reflexivity|].
    split; [rewrite hset_o by lia; auto|]. split; [rewrite hset_o, N1; auto|]. split; auto. split; [lia|]. split; [apply repoint_vt|].
    intros h' H1 H2. split; [rewrite H2, hset_o by lia; auto|]. split; [rewrite H2 by auto; apply hset_same|].
    intros m M1 M2. destruct (Nat.eq_dec m n) as [->|M3]; [rewrite H1; symmetry; exact R3|]. rewrite H2, hset_o, N1, R4 by auto. reflexivity.
  - destruct T13 as (-> & -> & -> & R4). assert (l = lc). { rewrite R4 in T6. congruence. } subst lc.
    eexists. eexists. split; [reflexivity|]. split; [reflexivity|]. split; auto. split; [rewrite N1; auto; lia|]. split; [lia|]. split; [lia|].
    split; [apply repoint_self|]. intros h' H1 H2. split; [rewrite H2; auto; lia|]. split; [exact H1|].
    intros m M1 M2. rewrite H2, N1, R4 by auto. reflexivity.
Qed.

Lemma twig_ok : forall fuel h hv gv head tail cur q Lc lc o s oka ka P1 P2, TW h hv gv head tail cur q Lc lc o s ->
  key_rep oka P1 o -> key_rep ka P2 s -> bytes_ok P1 -> bytes_ok P2 -> bytes_ok o -> bytes_ok s -> o <> s -> (length o < fuel)%nat ->
  exists h' hv' gv' head' tail' cur' q' Lc' lc' o' s' oka' ka' P1' P2',
    twig fuel h head tail oka ka = Ok (h', head', tail', oka', ka', key_compare_key oka' ka') /\ key_compare_key oka' ka' <> 0 /\
    TW h' hv' gv' head' tail' cur' q' Lc' lc' o' s' /\
    key_rep oka' P1' o' /\ key_rep ka' P2' s' /\ bytes_ok o' /\ bytes_ok s' /\ (s <> [] -> s' <> []).
Proof.
  induction fuel as [|f IH]; intros h hv gv head tail cur q Lc lc o s oka ka P1 P2 T R1 R2 B1 B2 B3 B4 N F; [lia|].
  cbn [twig]. destruct (Z.eqb_spec (key_compare_key oka ka) 0) as [E|E].
  2: { exists h, hv, gv, head, tail, cur, q, Lc, lc, o, s, oka, ka, P1, P2. repeat (split; [auto|]). auto. }
  pose proof R1 as (_ & _ & L1 & I1). pose proof R2 as (_ & _ & L2 & I2).
  unfold key_compare_key in E. rewrite L1, L2, I1, I2 in E. apply key_compare_eq in E. destruct E as [E1 E2].
  assert (Lo : 8 < len o).
  { destruct (Z.lt_ge_cases 8 (len o)) as [H|H]; auto. exfalso. apply N. apply slice_inj; auto.
    rewrite !skipn_all2; auto; unfold lenclass, len in *; lia. }
  assert (Ls : 8 < len s) by (unfold lenclass in E2; lia).
  unfold leaf_assign_layer. rewrite (key_has_suffix_rep _ _ _ R1). assert (E3 : (8 <? len o) = true) by lia. rewrite E3. cbn [ensure bind].
  set (nl := lf_set_perm (perm_make_sorted W 1) _). change nl with (tw (k_ikey oka)). clear nl.
  destruct (tw_point h hv gv head tail cur q Lc lc o s (tw (k_ikey oka)) T) as (h2 & lc' & Q1 & Q2 & Q3 & Q4 & Q5 & Q6 & Q7 & Q8).
  change (halloc h (NLeaf (tw (k_ikey oka)))) with (hp_next h, snd (halloc h (NLeaf (tw (k_ikey oka))))). cbv beta iota.
  unfold point_tail in Q1. rewrite Q1. cbn [bind]. set (a := hp_next h) in *.
  (* the virtual heap: the new twig holds the old entry *)
  set (l4 := lf_set_klx p 128 (lf_set_lv p (LvLayer (nhead head a)) l)) in *.
  set (vn := vt (slice_make_comparable o) v (skipn 8 o)).
  set (hv' := hset (hset h2 n (NLeaf l4)) a (NLeaf vn)).
  pose proof T as [T1 T2 T3 T4 TNW T5 T6 T7 T8 T9 T10 T11 T12 T13].
  assert (W1 : hp_next hv' = S (hp_next hv)) by (rewrite T4; exact Q2).
  assert (W2 : hp_node hv' (hp_next hv) = Some (NLeaf vn)) by (rewrite T4; apply hset_same).
  destruct (Q8 (hset h2 n (NLeaf l4)) (hset_same _ _ _) (fun m Hm => hset_other _ _ _ _ Hm)) as (V1 & V2 & V3).
  assert (W3 : hp_node hv' cur = Some (NLeaf lc')) by (unfold hv'; rewrite hset_other; auto).
  assert (W4 : forall m, m <> cur -> m <> hp_next hv -> hp_node hv' m = hp_node hv m).
  { intros m M1 M2. rewrite T4 in M2. unfold hv'. rewrite hset_other by auto. auto. }
  assert (RP : repoint lc q (hp_next hv) lc') by (rewrite T4; exact Q7).
  assert (SG : single vn 0 v (lf_ksuf lc q)) by (rewrite T10; now apply single_vt).
  pose proof (push_inv hv gv Lc cur lc q v hv' lc' vn 0%nat T1 T5 T6 T7 T8 T9 W1 W2 W3 W4 RP SG) as PI.
  pose proof (push_holds hv gv Lc cur lc q v hv' lc' vn 0%nat T1 T5 T6 T7 T8 T9 W1 W2 W3 W4 RP SG) as PH.
  set (gv' := g_push hv gv Lc lc q) in *.
  pose proof (ps_a hv gv Lc lc q) as (A1 & A2 & A3 & A4 & A5). fold gv' in A1, A2, A3, A4, A5. rewrite T4 in A1, A2, A3, A4, A5. fold a in A1, A2, A3, A4, A5.
  assert (T' : TW h2 hv' gv' (Some (nhead head a)) (Some a) a 0 a vn (skipn 8 o) (skipn 8 s)).
  { constructor; auto.
    - intros k0 v0. rewrite PH. auto.
    - intros M m H. apply (ps_stale hv gv Lc cur lc q hv' lc' T1 T6 W1 W3 W4 RP). auto.
    - destruct TNW as (TN1 & TN2 & TN3 & TN4). split; [apply (push_lnew k g0 hv gv Lc lc q s TN1 T11); intros ->; cbn in Ls; lia|].
      split; [exact (push_spill h0 g0 n hv gv Lc cur lc q v hv' lc' vn 0%nat HI0 T1 T5 T6 T7 T8 T9 W1 W2 W3 W4 RP SG TN2 TN3 TN4)|]. unfold a. rewrite <- T4. split; [right; exact TN4|rewrite W1; lia].
    - apply hset_same.
    - apply live_vt.
    - rewrite A5, T11. rewrite <- !app_assoc. f_equal. f_equal. change (lf_ikey vn 0) with (slice_make_comparable o). rewrite E1, be_bytes_slice8 by (auto; lia). now rewrite firstn_skipn.
    - split; auto. split; auto. split; auto. split; [exists (k_ikey oka), (skipn 8 o); split; auto; unfold vn; now rewrite I1|].
      split; [exists (nhead head a); split; auto; unfold hv'; rewrite hset_other by auto; apply hset_same|].
      intros m M1 M2. unfold hv'. rewrite hset_other by auto. rewrite hset_other by auto. reflexivity. }
  assert (EH : match head with Some _ => head | None => @Some addr a end = Some (nhead head a)) by (destruct head; reflexivity). rewrite EH.
  destruct (IH h2 hv' gv' (Some (nhead head a)) (Some a) a 0%nat a vn (skipn 8 o) (skipn 8 s) (key_shift oka) (key_shift ka) (P1 ++ firstn 8 o) (P2 ++ firstn 8 s) T')
    as (h3 & hv3 & gv3 & hd3 & tl3 & c3 & q3 & L3 & l3 & o3 & s3 & ok3 & k3 & P13 & P23 & Z1 & Z2 & Z3 & Z4 & Z5 & Z6 & Z7 & Z8).
  - apply key_shift_rep; auto.
  - apply key_shift_rep; auto.
  - apply bytes_ok_app. split; auto. now apply bytes_ok_firstn.
  - apply bytes_ok_app. split; auto. now apply bytes_ok_firstn.
  - now apply bytes_ok_skipn.
  - now apply bytes_ok_skipn.
  - intros X. apply N. apply slice_inj; auto.
  - rewrite skipn_length. unfold len in Lo. lia.
  - exists h3, hv3, gv3, hd3, tl3, c3, q3, L3, l3, o3, s3, ok3, k3, P13, P23. repeat (split; [auto|]). intros _. apply Z8. intros X. apply (f_equal (@length Z)) in X. rewrite skipn_length in X. cbn in X. unfold len in Ls. lia.
Qed.

End NewLayer.

Lemma sorted2 : let q := perm_remove_to_back W (perm_make_sorted W 2) 0 in
  perm_ok W q /\ perm_size q = 1%nat /\ perm_get q 0 = 1%nat /\ perm_back W q = 0%nat.
Proof.
  pose proof W_eq as WE. destruct (make_sorted_spec W 2 HW15 ltac:(lia)) as (A & B & C & D).
  destruct (doc_remove_to_back W (perm_make_sorted W 2) 0 HW15 A ltac:(lia)) as (E1 & E2 & E3 & E4 & E5). split; [exact E1|]. repeat split.
Qed.

(* The two-key leaf at the bottom of the new layers: o stored at e with its value, s ready at kx. *)
Lemma pair_leaf oka ka P1 P2 o s v : key_rep oka P1 o -> key_rep ka P2 s -> key_compare_key oka ka <> 0 ->
  let kcmp := key_compare_key oka ka in
  let nl0 := leaf_assign 1 (if kcmp <? 0 then ka else oka) (leaf_assign 0 (if kcmp <? 0 then oka else ka) leaf_root) in
  let nl1 := lf_set_lv (if 0 <? kcmp then 1%nat else 0%nat) (LvVal v) nl0 in
  let nl := lf_set_perm (if kcmp <? 0 then perm_make_sorted W 1 else perm_remove_to_back W (perm_make_sorted W 2) 0) nl1 in
  let kx := if kcmp <? 0 then 1%nat else 0%nat in
  exists e, single nl e v o /\ perm_back W (lf_perm nl) = kx /\ lf_ikey nl kx = slice_make_comparable s /\ lf_klx nl kx = key_klx s /\
    (8 < len s -> lf_ksuf nl kx = skipn 8 s) /\
    (forall j, (j < kx)%nat -> entry_lt (lf_ikey nl (perm_get (lf_perm nl) j), lf_klx nl (perm_get (lf_perm nl) j)) (slice_make_comparable s, len s)) /\
    (forall j, (kx <= j < 1)%nat -> entry_lt (slice_make_comparable s, len s) (lf_ikey nl (perm_get (lf_perm nl) j), lf_klx nl (perm_get (lf_perm nl) j))).
Proof.
  intros R1 R2 N kcmp. pose proof R1 as (_ & _ & L1 & I1). pose proof R2 as (_ & _ & L2 & I2).
  destruct sorted1 as (A1 & A2 & A3 & A4). destruct sorted2 as (B1 & B2 & B3 & B4).
  assert (CL : forall t, lenclass (key_klx t) = lenclass (len t)) by apply key_klx_class.
  destruct (Z.ltb_spec kcmp 0) as [C|C].
  - destruct (Z.ltb_spec 0 kcmp); [lia|]. exists 0%nat.
    set (l0 := leaf_assign 0 oka leaf_root). destruct (assign_spec 0 oka P1 o leaf_root R1) as (D1 & D2 & D3 & D4 & D5 & D6 & D7 & D8 & D9 & D10 & D11 & D12).
    fold l0 in D1, D2, D3, D4, D5, D6, D7, D8, D9, D10, D11, D12.
    set (l1 := leaf_assign 1 ka l0). destruct (assign_spec 1 ka P2 s l0 R2) as (F1 & F2 & F3 & F4 & F5 & F6 & F7 & F8 & F9 & F10 & F11 & F12).
    fold l1 in F1, F2, F3, F4, F5, F6, F7, F8, F9, F10, F11, F12. destruct (F5 0%nat ltac:(lia)) as [(G1 & G2 & G3 & G4) G5].
    fold l0 l1.
    cbn [lf_set_perm lf_set_lv lf_perm lf_ikey lf_klx lf_ksuf lf_lv].
    split; [|split; [auto|split; [auto|split; [auto|split; [auto|split]]]]].
    + constructor; cbn [lf_set_perm lf_set_lv lf_perm lf_ikey lf_klx lf_ksuf lf_lv lf_next lf_prev lf_parent lf_root lf_deleted lf_mod]; auto.
      * rewrite F10, D10; auto. * rewrite F11, D11; auto. * rewrite F12, D12; auto. * rewrite F6, D6; auto. * rewrite F7, D7; auto.
      * rewrite F8, D8. discriminate. * congruence. * congruence. * intros H8. rewrite G5. auto.
    + intros j Hj. replace j with 0%nat by lia. rewrite A3, G1, G2, D1, D2. unfold kcmp, key_compare_key in C. rewrite L1, L2, I1, I2 in C.
      apply key_compare_lt in C. unfold entry_lt in C |- *. cbn [fst snd] in C |- *. rewrite CL. exact C.
    + intros j Hj. lia.
  - destruct (Z.ltb_spec 0 kcmp); [|lia]. exists 1%nat.
    set (l0 := leaf_assign 0 ka leaf_root). destruct (assign_spec 0 ka P2 s leaf_root R2) as (D1 & D2 & D3 & D4 & D5 & D6 & D7 & D8 & D9 & D10 & D11 & D12).
    fold l0 in D1, D2, D3, D4, D5, D6, D7, D8, D9, D10, D11, D12.
    set (l1 := leaf_assign 1 oka l0). destruct (assign_spec 1 oka P1 o l0 R1) as (F1 & F2 & F3 & F4 & F5 & F6 & F7 & F8 & F9 & F10 & F11 & F12).
    fold l1 in F1, F2, F3, F4, F5, F6, F7, F8, F9, F10, F11, F12. destruct (F5 0%nat ltac:(lia)) as [(G1 & G2 & G3 & G4) G5].
    fold l0 l1.
    cbn [lf_set_perm lf_set_lv lf_perm lf_ikey lf_klx lf_ksuf lf_lv].
    split; [|split; [auto|split; [congruence|split; [congruence|split; [|split]]]]].
    + constructor; cbn [lf_set_perm lf_set_lv lf_perm lf_ikey lf_klx lf_ksuf lf_lv lf_next lf_prev lf_parent lf_root lf_deleted lf_mod]; auto.
      * rewrite F10, D10; auto. * rewrite F11, D11; auto. * rewrite F12, D12; auto. * rewrite F6, D6; auto. * rewrite F7, D7; auto.
      * rewrite F8, D8. discriminate.
    + intros H8. rewrite G5. auto.
    + intros j Hj. lia.
    + intros j Hj. replace j with 0%nat by lia. rewrite B3, F1, F2. unfold kcmp, key_compare_key in C, N. rewrite L1, L2, I1, I2 in C, N.
      unfold entry_lt. cbn [fst snd]. rewrite CL.
      destruct (Z.lt_trichotomy (key_compare (slice_make_comparable s) (len s) (slice_make_comparable o) (len o)) 0) as [Q|[Q|Q]].
      * apply key_compare_lt in Q. exact Q.
      * apply key_compare_eq in Q. destruct Q as [Q1 Q2]. exfalso. apply N. apply key_compare_eq. auto.
      * assert (NL : ~ entry_lt (slice_make_comparable o, len o) (slice_make_comparable s, len s)) by (rewrite <- key_compare_lt; lia).
        assert (NE : ~ (slice_make_comparable o = slice_make_comparable s /\ lenclass (len o) = lenclass (len s))) by (rewrite <- key_compare_eq; exact N).
        unfold entry_lt in NL. cbn [fst snd] in NL. lia.
Qed.

Lemma make_new_layer_ok h g k cu L s l p cu2 : Inv h g -> bytes_ok k -> located h g k cu L s l -> cu_p cu = Some p -> cu_state cu = 0 ->
  cu_n cu2 = cu_n cu -> cu_ka cu2 = cu_ka cu -> cu_i cu2 = cu_i cu -> cu_p cu2 = Some p ->
  exists h' cu', make_new_layer h cu2 = Ok (h', cu') /\ ins_post h g k h' cu' /\ cu_state cu' = cu_state cu2.
Proof.
  intros HI Hk J Hp Hst C1 C2 C3 C4. pose proof J as [J1 J2 J3 J4 J5 J6 J7 J8]. destruct (route_pre h g HI _ _ _ Hk J1) as (E1 & E2 & EL & E4).
  pose proof (iv_leaf _ _ HI L _ l J3 J4) as K. pose proof J2 as (_ & _ & KL & KI).
  destruct (lf_lower_ok l (cu_ka cu) (lo_sorted _ _ _ _ _ K)) as (i & p' & A & B & C & D & E).
  rewrite J6, Hp in A. inversion A; subst i p'. rewrite Hp in J8. destruct J8 as [LV [(_ & KX & L8 & NH)|(X & _)]]; [|congruence].
  set (n := cu_n cu) in *.
  destruct (lo_slots _ _ _ _ _ K p LV) as [[V|(V & _)] RNG]; [|congruence]. pose proof V as ((v & Vv) & [V2|(_ & Vn & Vb)]); [lia|].
  set (o := lf_ksuf l p) in *.
  assert (EIK : lf_ikey l p = slice_make_comparable s) by (destruct E as (_ & _ & E & _); congruence).
  assert (NE : o <> skipn 8 s).
  { intros X. apply (NH v). exists L, n, l, p. repeat split; auto; [lia|]. rewrite E1. f_equal. symmetry. apply (entry_is L l p s).
    - exact (inv_ikey h g HI L n l p J3 J4 LV).
    - exact V.
    - exact E2.
    - split; auto. split; auto. rewrite KX. unfold lenclass. lia. }
  pose proof (iv_pre _ _ HI L EL) as PB.
  assert (T0 : TW h g n l p v k h h g None None n p L l o (skipn 8 s)).
  { constructor; auto; try tauto; [split; [apply lnew_refl|]; split; [|auto]; intros k' b' _ Q; exists b'; split; [exact Q|left; reflexivity]|]. rewrite EIK, be_bytes_slice8, firstn_skipn by (auto; lia). auto. }
  pose proof (key_shift_rep _ _ _ PB E2 J2 L8) as RS.
  destruct (twig_ok h g n l p v k HI (S (length o)) h h g None None n p L l o (skipn 8 s) (key_make o) (key_shift (cu_ka cu)) [] (g_pre g L ++ firstn 8 s) T0)
    as (h1 & hv & gv & hd & tl & cur & q & Lc & lc & o' & s' & oka' & ka' & P1 & P2 & Z1 & Z2 & Z3 & Z4 & Z5 & Z6 & Z7 & Z8); auto.
  { apply key_make_rep. } { constructor. } { apply bytes_ok_app. split; auto. now apply bytes_ok_firstn. } { now apply bytes_ok_skipn. }
  unfold make_new_layer. rewrite C1, C2, C4. cbn [deref bind]. fold n. rewrite (hleaf_some _ _ _ J4). cbn [bind]. fold o. rewrite Z1. cbn [bind]. rewrite Vv.
  set (kcmp := key_compare_key oka' ka') in *.
  destruct (pair_leaf oka' ka' P1 P2 o' s' v Z4 Z5 Z2) as (e & SG & Q2 & Q3 & Q4 & Q5 & Q6 & Q7). fold kcmp in SG, Q2, Q3, Q4, Q5, Q6, Q7.
  set (nl := lf_set_perm _ _) in *. set (kx := if kcmp <? 0 then 1%nat else 0%nat) in *.
  destruct (tw_point h g n l p v k h1 hv gv hd tl cur q Lc lc o' s' nl Z3) as (h2 & lc' & R1 & R2 & R3 & R4 & R5 & R6 & R7 & R8).
  change (halloc h1 (NLeaf nl)) with (hp_next h1, snd (halloc h1 (NLeaf nl))). cbv beta iota.
  unfold point_tail in R1. rewrite R1. cbn [bind]. rewrite (hleaf_some _ _ _ R4). cbn [bind]. fold (nhead hd (hp_next h1)).
  set (l4 := lf_set_klx p 128 _). set (h' := hset h2 n (NLeaf l4)). set (a := hp_next h1) in *.
  destruct (R8 h' (hset_same _ _ _) (fun m Hm => hset_other _ _ _ _ Hm)) as (V1 & V3 & V4).
  destruct Z3 as [T1 T2 T3 T4 TNW T5 T6 T7 T8 T9 T10 T11 T12 T13].
  assert (W1 : hp_next h' = S (hp_next hv)) by (rewrite T4; exact R2).
  assert (W2 : hp_node h' (hp_next hv) = Some (NLeaf nl)) by (rewrite T4; exact V1).
  assert (W4 : forall m, m <> cur -> m <> hp_next hv -> hp_node h' m = hp_node hv m) by (rewrite T4; exact V4).
  assert (RP : repoint lc q (hp_next hv) lc') by (rewrite T4; exact R7).
  rewrite <- T10 in SG.
  pose proof (push_inv hv gv Lc cur lc q v h' lc' nl e T1 T5 T6 T7 T8 T9 W1 W2 V3 W4 RP SG) as PI.
  pose proof (push_holds hv gv Lc cur lc q v h' lc' nl e T1 T5 T6 T7 T8 T9 W1 W2 V3 W4 RP SG) as PH.
  pose proof (ps_stale hv gv Lc cur lc q h' lc' T1 T6 W1 V3 W4 RP) as PS.
  set (gv' := g_push hv gv Lc lc q) in *.
  pose proof (ps_a hv gv Lc lc q) as (A1 & A2 & A3 & A4 & A5). fold gv' in A1, A2, A3, A4, A5. rewrite T4 in A1, A2, A3, A4, A5. fold a in A1, A2, A3, A4, A5.
  eexists. eexists. split; [reflexivity|]. split; [|reflexivity].
  assert (HH : forall k v, holds h' gv' k v <-> holds h g k v) by (intros; rewrite PH; auto).
  assert (SZ : perm_size (lf_perm nl) = 1%nat) by apply SG.
  assert (SN : s' <> []) by (apply Z8; intros X; apply (f_equal (@length Z)) in X; rewrite skipn_length in X; cbn in X; unfold len in L8; lia).
  exists gv', a, s', nl, kx. split; [exact PI|]. split; [exact HH|]. split; [intros M m X; apply PS, T3, X|].
  destruct TNW as (TN1 & TN2 & TN3 & TN4). split; [split; [exact (push_lnew k g hv gv Lc lc q s' TN1 T11 SN)|]|].
  { exists n. split; [exact (located_home h g k cu L s l HI Hk J)|]. split; [right; cbn [cu_n]; unfold a; rewrite <- T4; exact TN4|].
    exact (push_spill h g n hv gv Lc cur lc q v h' lc' nl e HI T1 T5 T6 T7 T8 T9 W1 W2 V3 W4 RP SG TN2 TN3 TN4). }
  constructor; cbn [cu_n cu_ka cu_i cu_p]; auto.
  - rewrite A5, <- app_assoc. exact T11.
  - rewrite SZ. pose proof W_eq. lia.
  - rewrite A2, A3. now apply slice_range.
  - rewrite SZ. unfold kx. destruct (kcmp <? 0); lia.
  - rewrite SZ. exact Q7.
  - intros w. rewrite HH. apply NH.
Qed.

(* find_insert: either the key is there, or a slot is ready for it and nothing has changed. *)
Theorem find_insert_ok h g k root fuel : Inv h g -> bytes_ok k -> stale h g 0 root -> (length k < fuel)%nat ->
  exists h' cu b, find_insert fuel h root k = Ok (h', cu, b) /\
    if b then exists L s l p v0, Inv h' g /\ (forall k v, holds h' g k v <-> holds h g k v) /\ (forall M m, stale h g M m -> stale h' g M m) /\
              located h' g k cu L s l /\ cu_p cu = Some p /\ cu_state cu = 1 /\ holds h g k v0
    else cu_state cu = 2 /\ (forall v, ~ holds h g k v) /\ ins_post h g k h' cu.
Proof.
  intros HI Hk Hst Hf. destruct (iv_l0 _ _ HI) as [_ P0].
  destruct (find_locked_ok k root g Hk fuel h 0%nat k (key_make k) root HI (route_0 _ _ _)) as (h1 & cu & L & s & l & F1 & F2 & F3 & F4 & F5 & F6 & F7); auto.
  { rewrite P0. apply key_make_rep. } { now apply at_root_0. }
  pose proof (find_locked_leafs _ _ _ _ _ _ _ F1) as LFS.
  assert (GRW : forall hm g' h' c, hp_next hm = hp_next h -> (forall m, (exists l, hp_node hm m = Some (NLeaf l)) -> exists l, hp_node h m = Some (NLeaf l)) -> grown k hm g h' g' c -> grown k h g h' g' c).
  { intros hm g' h' c Q1 Q2 (n0 & (L0 & s0 & l0 & Q3 & Q4 & Q5 & Q6 & Q7) & Q8 & Q9). rewrite Q1 in Q8. exists n0. split; [|split; [auto|]].
    - destruct (Q2 n0) as (l1 & Q); [eauto|]. exists L0, s0, l1. auto.
    - assert (M0 : hmv (fun b b' => b' = b) h g hm g) by (apply hmv_leafs; intros m lm Hm; apply Q2; eauto).
      apply (hmv_comp _ _ _ _ _ _ _ _ _ M0 Q9). intros b k0 b1 b2 _ _ ->. unfold spill. rewrite Q1. auto. }
  unfold find_insert. rewrite F1. cbn [bind]. pose proof F7 as [J1 J2 J3 J4 J5 J6 J7 J8].
  destruct (cu_p cu) as [p|] eqn:Ep.
  - destruct J8 as [LV [(St & KX & L8 & NH)|(St & KX & ES & v0 & Lv & HV)]].
    + rewrite St. cbn [Z.eqb negb]. cbn [cu_p].
      destruct (make_new_layer_ok h1 g k cu L s l p (MkCur (cu_n cu) (cu_ka cu) (cu_i cu) (Some p) (cu_root cu) 2) F2 Hk F7 Ep St eq_refl eq_refl eq_refl eq_refl)
        as (h' & cu' & E1 & E2 & E3).
      rewrite E1. cbn [bind]. exists h', cu', false. split; auto. split; auto. split; [intros v; rewrite <- F3; auto|].
      destruct E2 as (g' & L' & s' & l' & p' & E4 & E5 & E6 & (E7 & E8) & E9). exists g', L', s', l', p'. split; auto. split; [intros; rewrite E5; auto|]. split; auto. split; [|exact E9]. split; [exact E7|]. apply (GRW h1); auto. intros m Q. apply LFS, Q.
    + rewrite St. cbn [Z.eqb negb]. exists h1, cu, true. split; auto. exists L, s, l, p, v0. split; [auto|]. split; [auto|]. split; [auto|].
      split; [auto|]. split; [auto|]. split; [auto|]. apply F3, HV. auto.
  - destruct J8 as [St NH]. rewrite St. cbn [Z.eqb negb]. cbn [cu_p cu_n cu_ka cu_i cu_root].
    rewrite (hleaf_some _ _ _ J4). cbn [bind]. pose proof (iv_leaf _ _ F2 L _ l J3 J4) as K.
    assert (EN : ensure (match lf_mod l with MsDeletedLayer => false | _ => true end) = Ok tt) by (pose proof (lo_mod _ _ _ _ _ K); destruct (lf_mod l); auto; congruence).
    rewrite EN. cbn [bind]. set (n := cu_n cu) in *. set (l1 := lf_set_mod MsInsert l). set (h2 := hset h1 n (NLeaf l1)).
    assert (Q1 : quiet g L n l l1).
    { constructor; try reflexivity; auto; try apply K; try discriminate. intros q _. repeat split. }
    pose proof (located_spot _ _ _ _ _ _ _ F2 Hk F7 Ep) as SP0.
    set (cu2 := MkCur n (cu_ka cu) (cu_i cu) None (cu_root cu) 2).
    pose proof (spot_quiet h1 g k cu cu2 L s l l1 F2 SP0 Q1 eq_refl eq_refl eq_refl) as SP1. fold n in SP1. fold h2 in SP1.
    pose proof (quiet_inv h1 g L n l l1 F2 J3 J4 Q1) as I2. fold h2 in I2.
    assert (H2 : forall k v, holds h2 g k v <-> holds h g k v) by (intros; unfold h2; rewrite (quiet_holds h1 g L n l l1 F2 J3 J4 Q1); auto).
    assert (S2 : forall M m, stale h g M m -> stale h2 g M m) by (intros M m X; apply (quiet_stale h1 g L n l l1 J4 Q1); auto).
    assert (POST : forall h' cu', ins_post h2 g k h' cu' -> ins_post h g k h' cu').
    { intros h' cu' (g' & L' & s' & l' & p' & E4 & E5 & E6 & (E7 & E8) & E9). exists g', L', s', l', p'. split; auto. split; [intros; rewrite E5; auto|]. split; auto. split; [|exact E9]. split; [exact E7|].
      apply (GRW h2); auto. intros m (lm & Q). apply LFS. unfold h2 in Q. destruct (Nat.eq_dec m n) as [->|N]; [eauto|]. rewrite hset_other in Q by auto. eauto. }
    assert (HM2 : home h2 g k n).
    { destruct (located_home h1 g k cu L s l F2 Hk F7) as (L0 & s0 & l0 & Q3 & Q4 & Q5 & Q6 & Q7). exists L0, s0, l1. split; auto. split; auto. split; auto. split; auto. apply hset_same. }
    assert (NH' : forall v, ~ holds h g k v) by (intros v; rewrite <- F3; auto).
    destruct ((perm_size (lf_perm l1) <? W)%nat && _) eqn:EC.
    + apply andb_true_iff in EC. destruct EC as [EC1 EC2]. apply Nat.ltb_lt in EC1.
      assert (H0 : perm_back W (lf_perm l1) <> 0%nat \/ lf_prev l1 = None \/ lf_ikey l1 0%nat = slice_make_comparable s).
      { apply orb_true_iff in EC2. destruct EC2 as [EC2|EC2].
        - apply orb_true_iff in EC2. destruct EC2 as [EC2|EC2].
          + left. apply negb_true_iff, Nat.eqb_neq in EC2. auto.
          + right. left. destruct (lf_prev l1); [discriminate|auto].
        - right. right. apply Z.eqb_eq in EC2. destruct J2 as (_ & _ & _ & KI). congruence. }
      set (cu' := MkCur n (cu_ka cu) (cu_i cu) (Some (perm_back W (lf_perm l1))) (cu_root cu) 2).
      destruct (spot_assign h2 g k cu2 L s l1 (perm_back W (lf_perm l1)) cu' I2 SP1 EC1 eq_refl H0 eq_refl eq_refl eq_refl eq_refl) as [Q2 IS].
      cbn [cu_n cu2 cu_ka] in Q2, IS.
      eexists. exists cu', false. split; [reflexivity|]. split; [reflexivity|]. split; [exact NH'|]. apply POST.
      assert (EN2 : hp_node h2 n = Some (NLeaf l1)) by apply hset_same.
      eexists g, L, s, _, _. split; [exact (quiet_inv h2 g L n l1 _ I2 J3 EN2 Q2)|]. split; [exact (quiet_holds h2 g L n l1 _ I2 J3 EN2 Q2)|].
      split; [exact (quiet_stale h2 g L n l1 _ EN2 Q2)|]. split; [split; [apply lnew_refl|exact (grown_hset k h2 g n l1 _ HM2 EN2)]|]. exact IS.
    + destruct (make_split_ok h2 g k cu2 L s l1 I2 SP1 HM2) as (h' & cu' & E1 & E2 & E3).
      { discriminate. }
      { intros HZ. apply andb_false_iff in EC. destruct EC as [EC|EC]; [apply Nat.ltb_ge in EC; lia|]. apply orb_false_iff in EC. destruct EC as [EC _].
        apply orb_false_iff in EC. destruct EC as [EC _]. apply negb_false_iff, Nat.eqb_eq in EC. auto. }
      rewrite E1. cbn [bind]. exists h', cu', false. split; auto.
Qed.
