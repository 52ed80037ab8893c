(* The boundaries chosen by the server. *)
From Coq Require Import Sorting.Sorted.
From Verif Require Import Lib Spec_String M_Key P_Key M_Permuter M_Search P_Search M_Tree P_Tree1 P_Tree2 P_Tree3 P_Tree8b P_Tree9 P_Tree9b M_Scan Spec_Scan P_Scan2 Spec_Map M_Bag M_Ckpt Spec_Ckpt P_Ckpt3.

Definition up (x : Z) : list Z := unparse_comparable 8 x.
Lemma strip_suffix l : exists n, l = repeat 0 n ++ strip_zeros_rev l.
Proof.
  induction l as [|b l [n IH]]; [exists 0%nat; reflexivity|]. cbn [strip_zeros_rev]. destruct (Z.eqb_spec b 0) as [->|].
  - exists (S n). cbn [repeat app]. now rewrite <- IH.
  - exists 0%nat. reflexivity.
Qed.
Lemma repeat_rev {A} (x : A) n : rev (repeat x n) = repeat x n.
Proof.
  induction n as [|n IH]; auto. cbn [repeat rev]. rewrite IH. clear. induction n as [|n IH]; auto. cbn [repeat app]. now rewrite IH.
Qed.
Lemma up_split x : 0 <= x < U64 -> exists n, be_bytes 8 x = up x ++ repeat 0 n.
Proof.
  intros H. rewrite U64_eq in H. unfold up, unparse_comparable, ikey_size. rewrite bswap_bytes by auto. destruct (strip_suffix (rev (be_bytes 8 x))) as (n & E).
  apply (f_equal (@rev Z)) in E. rewrite rev_involutive, rev_app_distr, repeat_rev in E. exists n. rewrite firstn_all2; auto.
  apply (f_equal (@length Z)) in E. rewrite be_bytes_length, app_length in E. change (Z.to_nat 8) with 8%nat. lia.
Qed.
Lemma up_ok x : 0 <= x < U64 -> bytes_ok (up x) /\ (length (up x) <= 8)%nat /\ slice_make_comparable (up x) = x.
Proof.
  intros H. destruct (up_split x H) as (n & E). pose proof (be_bytes_ok 8 x) as B. rewrite E in B. unfold bytes_ok in B. apply Forall_app in B. destruct B as [B _].
  pose proof (f_equal (@length Z) E) as L. rewrite be_bytes_length, app_length, repeat_length in L. split; [exact B|]. split; [lia|].
  rewrite slice_make_comparable_padn by exact B. rewrite U64_eq in H. rewrite <- (be_val_bytes 8 x) at 2 by exact H. f_equal. rewrite E.
  replace 8%nat with (length (up x) + n)%nat by lia. clear. induction (up x) as [|b l IH]; cbn [length Nat.add padn app].
  - induction n as [|n IH]; cbn [padn repeat]; auto. now rewrite IH.
  - now rewrite IH.
Qed.
Lemma up_mono x y : 0 <= x < U64 -> 0 <= y < U64 -> x <= y -> lex_le (up x) (up y).
Proof.
  intros X Y H. destruct (up_ok x X) as (A1 & _ & A2), (up_ok y Y) as (B1 & _ & B2). rewrite lex_le_lt_eq.
  destruct (Z.eq_dec x y) as [->|]; [now right|]. left. apply entry_lex; auto. rewrite A2, B2. left. cbn. lia.
Qed.

Section Pivot.
Context (h : heap) (g : ghost).
Hypothesis HI : Inv h g.
Lemma size_nonneg n : 0 <= match n with NLeaf l => Z.of_nat (perm_size (lf_perm l)) | NInter i => Z.of_nat (in_nkeys i) + 1 end.
Proof. destruct n; lia. Qed.
Lemma findpv_range : forall fuel a nb bid i npv p, g_lay g a = Some 0%nat -> findpv fuel h a nb bid i npv = Ok p -> p = [] \/ exists x, p = up x /\ g_lo g a <= x <= g_hi g a /\ 0 <= x < U64.
Proof.
  induction fuel as [|f IH]; intros a nb bid pvi npv p La E; [discriminate|]. cbn [findpv] in E.
  pose proof (iv_lay _ _ HI a 0%nat La) as HSL. destruct (sl_node _ _ _ _ HSL a La) as (nd & nr & Ea & _ & _ & Bd & Bh & _).
  rewrite (hget_some _ _ _ Ea) in E. cbn [bind] in E. destruct nd as [l|i].
  - destruct (Z.eqb_spec (Z.of_nat (perm_size (lf_perm l))) 0) as [|N]; [injection E as <-; auto|]. injection E as <-. right.
    pose proof (iv_leaf _ _ HI 0%nat a l La Ea) as LO. eexists. split; [reflexivity|].
    set (o := Z.to_nat (Z.min _ _)). assert (HO : (o < perm_size (lf_perm l))%nat) by (unfold o; lia). clearbody o.
    destruct (lo_slots _ _ _ _ _ LO (perm_get (lf_perm l) o)) as [_ B]; [|lia]. exists o. auto.
  - destruct (Z.eqb_spec (Z.of_nat (in_nkeys i) + 1) 0) as [|_]; [lia|].
    pose proof (sl_inter _ _ _ _ HSL a i La Ea (fun x => x)) as IO. pose proof (fun c Hc => sl_lt h g (noexc g) 0%nat HSL c Hc) as Hlt.
    destruct (nb * (Z.of_nat (in_nkeys i) + 1) <? npv).
    + set (o := Z.min _ _) in E. assert (HO : 0 <= o <= Z.of_nat (in_nkeys i)) by (unfold o; lia). clearbody o. destruct (in_child i (Z.to_nat o)) as [c|] eqn:Ec; cbn [deref bind] in E; [|discriminate].
      destruct IO as (I1 & I2 & I3). pose proof (I3 (Z.to_nat o) ltac:(lia)) as CO. unfold child_ok in CO. rewrite Ec in CO. destruct CO as (Lc & _ & Clo & Chi). cbn [noexc x_lo x_hi] in Clo, Chi.
      destruct (IH c _ _ _ _ _ Lc E) as [?|(x & -> & Bx & Bu)]; [auto|]. right. exists x. split; auto. split; auto.
      pose proof (bnd_mono h g (noexc g) 0%nat a i Hlt (conj I1 (conj I2 I3)) 0 (Z.to_nat o) ltac:(lia) ltac:(lia)) as M1.
      pose proof (bnd_mono h g (noexc g) 0%nat a i Hlt (conj I1 (conj I2 I3)) (S (Z.to_nat o)) (S (in_nkeys i)) ltac:(lia) ltac:(lia)) as M2.
      rewrite bnd_0 in M1. rewrite bnd_last in M2. lia.
    + set (o := Z.min _ _) in E. assert (HO : o <= Z.of_nat (in_nkeys i) - 1) by (unfold o; lia). clearbody o. destruct (Z.leb_spec 0 o); cbn [ensure bind] in E; [|discriminate]. injection E as <-.
      right. exists (in_keys i (Z.to_nat o)). split; [reflexivity|]. rewrite <- (bnd_key g a i (Z.to_nat o)) by lia.
      pose proof (bnd_mono h g (noexc g) 0%nat a i Hlt IO 0 (S (Z.to_nat o)) ltac:(lia) ltac:(lia)) as M1.
      destruct (child_some h g (noexc g) 0%nat a i Hlt IO (S (Z.to_nat o)) ltac:(lia) ltac:(lia)) as (c & Ec).
      pose proof (proj2 (bnd_step h g (noexc g) 0%nat a i Hlt IO (S (Z.to_nat o)) ltac:(lia)) c Ec) as M2.
      pose proof (bnd_mono h g (noexc g) 0%nat a i Hlt IO (S (S (Z.to_nat o))) (S (in_nkeys i)) ltac:(lia) ltac:(lia)) as M3.
      rewrite bnd_0 in M1. rewrite bnd_last in M3. lia.
Qed.
Lemma findpv_mono : forall fuel a nb bid i j npv p q, g_lay g a = Some 0%nat -> 0 <= nb -> 0 < npv -> i <= j ->
  findpv fuel h a nb bid i npv = Ok p -> findpv fuel h a nb bid j npv = Ok q -> p = [] \/ q = [] \/ lex_le p q.
Proof.
  induction fuel as [|f IH]; intros a nb bid i j npv p q La Hn Hp Hij E F; [discriminate|]. cbn [findpv] in E, F.
  pose proof (iv_lay _ _ HI a 0%nat La) as HSL. destruct (sl_node _ _ _ _ HSL a La) as (nd & nr & Ea & _ & _ & Bd & Bh & _).
  rewrite (hget_some _ _ _ Ea) in E, F. cbn [bind] in E, F. destruct nd as [l|nd].
  - set (sz := Z.of_nat (perm_size (lf_perm l))) in *. destruct (Z.eqb_spec sz 0) as [|N]; [injection E as <-; auto|].
    assert (M : i * (nb * sz) / npv <= j * (nb * sz) / npv) by (apply Z.div_le_mono; [lia|]; apply Z.mul_le_mono_nonneg_r; [|lia]; unfold sz; nia).
    set (o1 := Z.min (Z.max (i * (nb * sz) / npv - bid * sz) 0) (sz - 1)) in *. set (o2 := Z.min (Z.max (j * (nb * sz) / npv - bid * sz) 0) (sz - 1)) in *.
    assert (O : 0 <= o1 /\ o1 <= o2 /\ o2 < sz) by (unfold o1, o2, sz in *; lia). clearbody o1 o2. injection E as <-. injection F as <-. right. right.
    pose proof (iv_leaf _ _ HI 0%nat a l La Ea) as LO.
    assert (B : forall o, 0 <= o < sz -> 0 <= lf_ikey l (perm_get (lf_perm l) (Z.to_nat o)) < U64).
    { intros o Ho. destruct (lo_slots _ _ _ _ _ LO (perm_get (lf_perm l) (Z.to_nat o))) as [_ B]; [|lia]. exists (Z.to_nat o). split; [unfold sz in Ho; lia|reflexivity]. }
    apply up_mono; [apply B; lia|apply B; lia|]. destruct (Z.eq_dec o1 o2) as [->|]; [lia|].
    destruct (lo_sorted _ _ _ _ _ LO (Z.to_nat o1) (Z.to_nat o2) ltac:(unfold sz in O; lia)) as [Q|[Q _]]; cbn [fst] in Q; lia.
  - set (sz := Z.of_nat (in_nkeys nd) + 1) in *. destruct (Z.eqb_spec sz 0) as [|N]; [injection E as <-; auto|].
    assert (M : i * (nb * sz) / npv <= j * (nb * sz) / npv) by (apply Z.div_le_mono; [lia|]; apply Z.mul_le_mono_nonneg_r; [|lia]; unfold sz; nia).
    pose proof (sl_inter _ _ _ _ HSL a nd La Ea (fun x => x)) as IO. pose proof (fun c Hc => sl_lt h g (noexc g) 0%nat HSL c Hc) as Hlt.
    assert (CH : forall o c, 0 <= o <= Z.of_nat (in_nkeys nd) -> in_child nd (Z.to_nat o) = Some c -> g_lay g c = Some 0%nat /\ g_lo g c = bnd g a nd (Z.to_nat o) /\ g_hi g c = bnd g a nd (S (Z.to_nat o))).
    { intros o c Ho Ec. destruct IO as (I1 & I2 & I3). pose proof (I3 (Z.to_nat o) ltac:(lia)) as CO. unfold child_ok in CO. rewrite Ec in CO. destruct CO as (Lc & _ & Clo & Chi). auto. }
    destruct (nb * sz <? npv).
    + set (o1 := Z.min (Z.max (i * (nb * sz) / npv - bid * sz) 0) (sz - 1)) in *. set (o2 := Z.min (Z.max (j * (nb * sz) / npv - bid * sz) 0) (sz - 1)) in *.
      assert (O : 0 <= o1 /\ o1 <= o2 /\ o2 < sz) by (unfold o1, o2, sz in *; lia). clearbody o1 o2.
      destruct (in_child nd (Z.to_nat o1)) as [c1|] eqn:E1; cbn [deref bind] in E; [|discriminate]. destruct (in_child nd (Z.to_nat o2)) as [c2|] eqn:E2; cbn [deref bind] in F; [|discriminate].
      destruct (CH o1 c1 ltac:(lia) E1) as (A1 & A2 & A3). destruct (CH o2 c2 ltac:(lia) E2) as (B1 & B2 & B3).
      destruct (Z.eq_dec o1 o2) as [->|NE].
      * rewrite E1 in E2. injection E2 as <-. refine (IH c1 _ _ i j npv p q A1 _ Hp Hij E F). unfold sz. nia.
      * destruct (findpv_range _ _ _ _ _ _ _ A1 E) as [?|(x & -> & X1 & X2)]; [auto|]. destruct (findpv_range _ _ _ _ _ _ _ B1 F) as [?|(y & -> & Y1 & Y2)]; [auto|].
        right. right. apply up_mono; auto. pose proof (bnd_mono h g (noexc g) 0%nat a nd Hlt IO (S (Z.to_nat o1)) (Z.to_nat o2) ltac:(lia) ltac:(lia)). lia.
    + set (o1 := Z.min (Z.max (i * (nb * sz) / npv - bid * sz) 0) (sz - 2)) in *. set (o2 := Z.min (Z.max (j * (nb * sz) / npv - bid * sz) 0) (sz - 2)) in *.
      assert (O : o1 <= o2 /\ o2 < sz - 1) by (unfold o1, o2, sz in *; lia). clearbody o1 o2.
      destruct (Z.leb_spec 0 o1); cbn [ensure bind] in E; [|discriminate]. destruct (Z.leb_spec 0 o2); cbn [ensure bind] in F; [|discriminate]. injection E as <-. injection F as <-. right. right.
      assert (B : forall o, 0 <= o < sz - 1 -> 0 <= in_keys nd (Z.to_nat o) < U64).
      { intros o Ho. rewrite <- (bnd_key g a nd (Z.to_nat o)) by lia. destruct (child_some h g (noexc g) 0%nat a nd Hlt IO (S (Z.to_nat o)) ltac:(lia) ltac:(lia)) as (c & Ec).
        pose proof (proj2 (bnd_step h g (noexc g) 0%nat a nd Hlt IO (S (Z.to_nat o)) ltac:(lia)) c Ec) as M2.
        pose proof (bnd_mono h g (noexc g) 0%nat a nd Hlt IO (S (S (Z.to_nat o))) (S (in_nkeys nd)) ltac:(lia) ltac:(lia)) as M3.
        pose proof (bnd_mono h g (noexc g) 0%nat a nd Hlt IO 0 (S (Z.to_nat o)) ltac:(lia) ltac:(lia)) as M1. rewrite bnd_0 in M1. rewrite bnd_last in M3. lia. }
      apply up_mono; [apply B; lia|apply B; lia|]. rewrite <- (bnd_key g a nd (Z.to_nat o1)), <- (bnd_key g a nd (Z.to_nat o2)) by lia.
      apply (bnd_mono h g (noexc g) 0%nat a nd Hlt IO); lia.
Qed.

Lemma findpivots_ok root n ps : stale h g 0 root -> findpivots h root n = Ok ps -> (0 < n)%nat ->
  length ps = n /\ starts_ok ps /\ (~ In [] (tl ps) -> starts_apart ps).
Proof.
  intros St E Hn. unfold findpivots in E. destruct (climb_root h g root HI St) as [CR _]. rewrite CR in E. cbn [bind] in E.
  set (f := fun i => if (i =? 0)%nat then Ok [] else findpv (hfuel h) h (g_root g 0) 1 0 (Z.of_nat i) (Z.of_nat n)) in *.
  assert (R : Forall2 (fun i p => f i = Ok p) (seq 0 n) ps).
  { revert ps E. generalize (seq 0 n). induction l as [|i l IH]; intros ps E; [injection E as <-; constructor|].
    change (if (i =? 0)%nat then Ok [] else findpv (hfuel h) h (g_root g 0) 1 0 (Z.of_nat i) (Z.of_nat n)) with (f i) in E.
    destruct (f i) as [p|] eqn:Ef; cbn [bind] in E; [|discriminate].
    match type of E with (bind ?x _) = _ => destruct x as [ps'|] eqn:Eg end; cbn [bind] in E; [|discriminate]. injection E as <-. constructor; auto. }
  clear E. pose proof (proj1 (iv_l0 _ _ HI)) as L0. destruct (sl_root _ _ _ _ (iv_lay _ _ HI 0%nat 0%nat L0)) as (LR & _).
  assert (LEN : forall l ps, Forall2 (fun i p => f i = Ok p) l ps -> length ps = length l). { induction 1; cbn [length]; auto. }
  pose proof (LEN _ _ R) as LN. rewrite seq_length in LN. split; [exact LN|].
  destruct n as [|n]; [lia|]. cbn [seq] in R. inversion R as [|? p0 ? ps' R0 R1]; subst. unfold f in R0. cbn [Nat.eqb] in R0. injection R0 as <-. cbn [tl].
  assert (RG : forall l qs, Forall (fun i => (0 < i)%nat) l -> Forall2 (fun i p => f i = Ok p) l qs -> Forall (fun p => p = [] \/ exists x, p = up x /\ 0 <= x < U64) qs).
  { clear - HI LR. intros l qs Fl. induction 1 as [|i p l qs E _ IH]; constructor.
    - inversion Fl; subst. unfold f in E. replace (i =? 0)%nat with false in E by (symmetry; apply Nat.eqb_neq; lia). destruct (findpv_range _ _ _ _ _ _ _ LR E) as [?|(x & ? & _ & ?)]; eauto.
    - apply IH. inversion Fl; auto. }
  assert (POS : Forall (fun i => (0 < i)%nat) (seq 1 n)). { rewrite Forall_forall. intros i Hi. apply in_seq in Hi. lia. }
  split.
  - split; [reflexivity|]. constructor; [split; [constructor|cbn; lia]|]. pose proof (RG _ _ POS R1) as Q. rewrite Forall_forall in *. intros p Hp.
    destruct (Q p Hp) as [->|(x & -> & Hx)]; [split; [constructor|cbn; lia]|]. destruct (up_ok x Hx) as (A & B & _). split; [exact A|lia].
  - intros NE. split; [|exact NE]. constructor; [|rewrite Forall_forall; intros p _; apply lex_nil_le].
    clear - R1 NE HI LR POS. revert ps' R1 NE. assert (SS : StronglySorted lt (seq 1 n)).
    { clear. generalize 1%nat. induction n as [|n IH]; intros a; cbn [seq]; constructor; auto. rewrite Forall_forall. intros i Hi. apply in_seq in Hi. lia. }
    set (nn := S n) in *. assert (0 < Z.of_nat nn) by lia. clearbody nn. induction (seq 1 n) as [|i l IH]; intros qs R NE; inversion R as [|? p ? ps' R0 R1]; subst; constructor.
    + apply StronglySorted_inv in SS. apply IH; auto; [inversion POS; auto|tauto|]. intros X. apply NE. now right.
    + apply StronglySorted_inv in SS. destruct SS as [_ SS]. rewrite Forall_forall in *. intros q Hq.
      assert (X : exists j, In j l /\ f j = Ok q). { clear - R1 Hq. induction R1 as [|j p' l ps' E _ IH]; [destruct Hq|]. destruct Hq as [->|Hq]; [exists j; split; [now left|auto]|]. destruct (IH Hq) as (j' & A & B). exists j'. split; [now right|auto]. }
      destruct X as (j & Hj & Ej). pose proof (SS j Hj). pose proof (POS i (or_introl eq_refl)). pose proof (POS j (or_intror Hj)). unfold f in R0, Ej.
      replace (i =? 0)%nat with false in R0 by (symmetry; apply Nat.eqb_neq; lia). replace (j =? 0)%nat with false in Ej by (symmetry; apply Nat.eqb_neq; lia).
      destruct (findpv_mono _ _ 1 0 (Z.of_nat i) (Z.of_nat j) (Z.of_nat nn) p q LR ltac:(lia) ltac:(lia) ltac:(lia) R0 Ej) as [->|[->|Q]]; auto.
      * destruct NE. now left.
      * destruct NE. now right.
Qed.

(* The only failure is a null leftmost child. *)
Definition full_nodes (h : heap) : Prop := forall a i, hp_node h a = Some (NInter i) -> in_child i 0%nat <> None.
Lemma findpv_total : forall fuel a na nb bid i npv, g_lay g a = Some 0%nat -> hp_node h a = Some na -> (ht na < fuel)%nat -> 0 < nb < npv ->
  (exists p, findpv fuel h a nb bid i npv = Ok p) \/ (findpv fuel h a nb bid i npv = Err BadPtr /\ ~ full_nodes h).
Proof.
  induction fuel as [|f IH]; intros a na nb bid i npv La Ea Hf Hn; [lia|]. cbn [findpv].
  pose proof (iv_lay _ _ HI a 0%nat La) as HSL. rewrite (hget_some _ _ _ Ea). cbn [bind]. destruct na as [l|nd].
  - destruct (Z.of_nat (perm_size (lf_perm l)) =? 0); eauto.
  - destruct (Z.eqb_spec (Z.of_nat (in_nkeys nd) + 1) 0) as [|_]; [lia|].
    pose proof (sl_inter _ _ _ _ HSL a nd La Ea (fun x => x)) as (I1 & I2 & I3).
    destruct (Z.ltb_spec (nb * (Z.of_nat (in_nkeys nd) + 1)) npv).
    + set (o := Z.min _ _). assert (HO : 0 <= o <= Z.of_nat (in_nkeys nd)) by (unfold o; lia). clearbody o.
      pose proof (I3 (Z.to_nat o) ltac:(lia)) as CO. unfold child_ok in CO. destruct (in_child nd (Z.to_nat o)) as [c|] eqn:Ec; cbn [deref bind].
      * destruct CO as (Lc & (nc & Enc & _ & Hh) & _). cbn [ht] in Hf. apply (IH c nc); auto; [lia|nia].
      * right. split; [reflexivity|]. intros FN. destruct CO as (O0 & _). rewrite O0 in Ec. exact (FN a nd Ea Ec).
    + set (o := Z.min _ _). assert (HO : 0 <= o) by (unfold o; nia). clearbody o. destruct (Z.leb_spec 0 o); [|lia]. cbn [ensure bind]. eauto.
Qed.
Lemma findpivots_total root n : stale h g 0 root ->
  (exists ps, findpivots h root n = Ok ps) \/ (findpivots h root n = Err BadPtr /\ ~ full_nodes h).
Proof.
  intros St. unfold findpivots. destruct (climb_root h g root HI St) as [CR _]. rewrite CR. cbn [bind].
  pose proof (proj1 (iv_l0 _ _ HI)) as L0. destruct (sl_root _ _ _ _ (iv_lay _ _ HI 0%nat 0%nat L0)) as (LR & _ & _ & nr & Enr & _).
  destruct (iv_heap _ _ HI _ _ Enr) as [_ HH].
  assert (Q : Forall (fun i => (i < n)%nat) (seq 0 n)) by (rewrite Forall_forall; intros i Hi; apply in_seq in Hi; lia).
  induction (seq 0 n) as [|i l IH]; [eauto|]. inversion Q as [|? ? Q1 Q2]; subst. specialize (IH Q2).
  assert (X : (exists p, (if (i =? 0)%nat then Ok [] else findpv (hfuel h) h (g_root g 0) 1 0 (Z.of_nat i) (Z.of_nat n)) = Ok p) \/
    ((if (i =? 0)%nat then Ok [] else findpv (hfuel h) h (g_root g 0) 1 0 (Z.of_nat i) (Z.of_nat n)) = Err BadPtr /\ ~ full_nodes h)).
  { destruct (Nat.eqb_spec i 0); [eauto|]. apply (findpv_total _ _ nr); auto; [unfold hfuel; lia|lia]. }
  destruct X as [(p & ->)|(-> & FN)]; cbn [bind]; [|auto]. destruct IH as [(ps & ->)|(-> & FN)]; cbn [bind]; eauto.
Qed.
End Pivot.

Lemma server_starts ops n : Forall op_ok ops -> (0 < n)%nat ->
  exists t rs, truns table_init ops = Ok (t, rs) /\
    ((exists starts, findpivots (t_heap t) (t_root t) n = Ok starts /\ length starts = n /\ starts_ok starts /\ (~ In [] (tl starts) -> starts_apart starts)) \/
     (findpivots (t_heap t) (t_root t) n = Err BadPtr /\ ~ full_nodes (t_heap t))).
Proof.
  intros F Hn. destruct (table_run ops F) as (t & g & A & [R1 R2 R3 R4]). exists t, (snd (map_run map_empty ops)). split; [exact A|].
  destruct (findpivots_total _ g R1 (t_root t) n R2) as [(ps & E)|E]; [left|right; exact E]. exists ps. split; [exact E|]. exact (findpivots_ok _ g R1 _ _ _ R2 E Hn).
Qed.
Lemma server_restores ops rows n gen e : Forall op_ok ops -> Forall (op_short maxkeylen) ops ->
  (forall k v, present ops k = Some v -> row_good (rows v)) -> small_table rows (present ops) -> (0 < n)%nat -> 0 <= gen < 2 ^ 64 -> scratch_ok e ->
  exists t rs, truns table_init ops = Ok (t, rs) /\ forall starts, findpivots (t_heap t) (t_root t) n = Ok starts ->
  exists N files turns, (forall fuel, (N <= fuel)%nat -> ck_files fuel e 0 gen t rows starts = Some files) /\
  forall sched, exists st l, ck_load gen n files sched = Some (st, l) /\
    (finished l -> forall k, bytes_ok k -> exists o, tstep (ld_table st) (OGet k) = Ok (ld_table st, o) /\ seen (ld_rows st) o = seen rows (present ops k)) /\
    (~ In [] (tl starts) -> ld_again st = []) /\
    ((forall i, (i < n)%nat -> (turns <= count_occ Nat.eq_dec sched i)%nat) -> finished l).
Proof.
  intros F FS G SM Hn HG HE. destruct (server_starts ops n F Hn) as (t & rs & A & [(st0 & E & L & SO & SA)|(E & _)]); exists t, rs; (split; [exact A|]); intros starts E'; rewrite E in E'; [|discriminate].
  injection E' as <-. destruct (restores ops rows st0 gen e F FS G SM SO HG HE) as (t' & rs' & N & files & turns & A' & W & R). rewrite A in A'. injection A' as <- <-.
  exists N, files, turns. split; [exact W|]. intros sched. destruct (R sched) as (st & l & R1 & R2 & R3 & R4). rewrite L in *. exists st, l. auto 10.
Qed.
Lemma more_threads gen sched : gen <> 0 -> forall n files, (length files < n)%nat -> ck_load gen n files sched = None.
Proof.
  intros G n files H. unfold ck_load. assert (Q : ck_opens gen n files = None); [|now rewrite Q].
  revert files H. induction n as [|n IH]; intros files H; [lia|]. cbn [ck_opens]. destruct files as [|f files].
  - cbn [tl]. destruct (ck_opens gen n []); [|reflexivity]. destruct (Z.eqb_spec 0 gen); [congruence|reflexivity].
  - cbn [tl length] in *. rewrite IH by lia. destruct (ck_open f) as [[[g0 n0] s0]|]; reflexivity.
Qed.
