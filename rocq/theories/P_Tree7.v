(* Removal, part 1: what taking a node out of a layer does to the layer's structural invariant. *)
From Verif Require Import Lib M_Key M_Permuter M_Search P_Search M_Tree P_Tree1 P_Tree2 P_Tree4 P_Tree5.

(* The invariant without the clause about deleted internodes. *)
Definition nodead (g : ghost) : ghost := MkG (g_lay g) (g_lo g) (g_hi g) (g_root g) (g_pre g) (fun _ => None).
Definition deadok (h : heap) (g : ghost) (L : nat) : Prop := forall m, g_dead g m = Some L ->
  g_lay g m = None /\ exists i p ip, hp_node h m = Some (NInter i) /\
    in_root i = false /\ in_parent i = Some p /\ hp_node h p = Some (NInter ip) /\
    (in_height i < in_height ip)%nat /\ (g_lay g p = Some L \/ g_dead g p = Some L).
Lemma SL_nodead h g L : SL h g (noexc g) L -> SL h (nodead g) (noexc (nodead g)) L.
Proof. intros [A B C D E F G]. constructor; auto. intros m [=]. Qed.
Lemma SL_undead h g L : SL h (nodead g) (noexc (nodead g)) L -> deadok h g L -> SL h g (noexc g) L.
Proof. intros [A B C D E F _] G. constructor; auto. Qed.

(* Taking node m off the live nodes. *)
Definition g_drop (g : ghost) (m : nat) (lo hi : nat -> Z) : ghost := MkG (upd (g_lay g) m None) lo hi (g_root g) (g_pre g) (fun _ => None).

(* n (contents nn) is child kp of internode p (contents ip). *)
Record childof (h : heap) (g : ghost) (L n : nat) (nn : node) (p : nat) (ip : inode) (kp : nat) : Prop := {
  co_n : g_lay g n = Some L; co_en : hp_node h n = Some nn; co_p : g_lay g p = Some L; co_ep : hp_node h p = Some (NInter ip);
  co_k : (kp <= in_nkeys ip)%nat; co_c : in_child ip kp = Some n }.

Section Node.
Context {h : heap} {g : ghost} {L n p : nat} {nn : node} {ip : inode} {kp : nat}.
Hypothesis HS : SL h g (noexc g) L.

Lemma nd_lt c : g_lay g c = Some L -> g_lo g c < g_hi g c. Proof. apply (sl_lt h g _ L HS). Qed.
Lemma nd_bounds : g_lay g n = Some L -> 0 <= g_lo g n < g_hi g n /\ g_hi g n <= U64.
Proof. intros Hn. destruct (sl_node _ _ _ _ HS n Hn) as (? & ? & _ & _ & _ & B1 & B2 & _). auto. Qed.
Hypothesis HC : childof h g L n nn p ip kp.
Lemma nd_ok : inter_ok h g (noexc g) L p ip. Proof. apply (sl_inter _ _ _ _ HS); auto; apply HC. Qed.
Lemma nd_child : n_parent nn = Some p /\ (ht nn < in_height ip)%nat /\ g_lo g n = bnd g p ip kp /\ g_hi g n = bnd g p ip (S kp).
Proof.
  pose proof nd_ok as (_ & _ & H). specialize (H kp (co_k _ _ _ _ _ _ _ _ HC)). unfold child_ok in H. rewrite (co_c _ _ _ _ _ _ _ _ HC) in H. destruct H as (_ & (nc & A & B & C) & D & E).
  pose proof (co_en _ _ _ _ _ _ _ _ HC). assert (nc = nn) by congruence. subst nc. auto.
Qed.
Lemma nd_np : n <> p.
Proof.
  intros E. destruct nd_child as (_ & A & _). destruct HC as [_ En _ Ep _ _]. rewrite E, Ep in En. inversion En; subst. cbn in A. lia.
Qed.
(* n is a child of p only, and only once. *)
Lemma nd_only q i k : g_lay g q = Some L -> hp_node h q = Some (NInter i) -> (k <= in_nkeys i)%nat -> in_child i k = Some n -> q = p /\ k = kp.
Proof.
  intros A B C D. destruct nd_child as (PN & _). pose proof nd_ok as OK. destruct HC as [Hn En Hp Ep Hk Ec].
  pose proof (sl_inter _ _ _ _ HS q i A B (fun f => f)) as Hi. pose proof Hi as (_ & _ & Hc). specialize (Hc k C). unfold child_ok in Hc. rewrite D in Hc.
  destruct Hc as (_ & (nc & X & Y & _) & _). assert (nc = nn) by congruence. subst nc. assert (q = p) by congruence. subst q. split; auto.
  assert (i = ip) by congruence. subst i. eapply child_inj; eauto. intros c Hc. apply nd_lt; auto.
Qed.
Lemma nd_bnd_mono a b : (a <= b)%nat -> (b <= S (in_nkeys ip))%nat -> bnd g p ip a <= bnd g p ip b.
Proof. apply (bnd_mono h g (noexc g) L p ip nd_lt nd_ok). Qed.
Lemma nd_in : g_lo g p <= g_lo g n /\ g_hi g n <= g_hi g p.
Proof.
  destruct nd_child as (_ & _ & -> & ->). pose proof (co_k _ _ _ _ _ _ _ _ HC). rewrite <- (bnd_0 g p ip), <- (bnd_last g p ip). split; apply nd_bnd_mono; lia.
Qed.
Lemma nd_not_root : n <> g_root g L.
Proof.
  destruct nd_child as (A & _). intros E. destruct (sl_root _ _ _ _ HS) as (_ & _ & _ & nr & B & C). rewrite <- E in B. rewrite (co_en _ _ _ _ _ _ _ _ HC) in B. congruence.
Qed.
Lemma nd_dstep y : g_lo g n <= y < g_hi g n -> dstep h y p n.
Proof.
  intros Hy. destruct nd_child as (_ & _ & A & B). destruct HC as [Hn En Hp Ep Hk Ec]. exists ip, kp. split; auto. split; auto.
  apply (inter_upper_at h g (noexc g) L p ip nd_lt nd_ok); auto. lia.
Qed.
End Node.

Lemma linked_child h g L m nd : SL h g (noexc g) L -> g_lay g m = Some L -> hp_node h m = Some nd -> m <> g_root g L ->
  exists p i k, n_parent nd = Some p /\ g_lay g p = Some L /\ hp_node h p = Some (NInter i) /\ (k <= in_nkeys i)%nat /\ in_child i k = Some m.
Proof.
  intros HS Hm E N. destruct (sl_up _ _ _ _ HS m nd Hm E N (fun f => f)) as (p & i & k & A & B & C & _ & D & F). eauto 10.
Qed.

(* Two live nodes containing y: one is above the other. *)
Lemma two_paths h g L y m1 m2 : SL h g (noexc g) L -> g_lay g m1 = Some L -> g_lo g m1 <= y < g_hi g m1 ->
  g_lay g m2 = Some L -> g_lo g m2 <= y < g_hi g m2 -> path h y m1 m2 \/ path h y m2 m1.
Proof.
  intros HS A B C D. pose proof (clear_noexc g L y) as CL.
  exact (path_linear h y _ _ _ (on_path h g _ L HS y CL m1 A B) (on_path h g _ L HS y CL m2 C D)).
Qed.

(* ---- 1. the only child goes: the parent takes its place ---- *)
Section OnlyChild.
Context (h : heap) (g : ghost) (L n p : nat) (ln : leafn) (ip : inode) (kp : nat) (lp : leafn).
Hypothesis HS : SL h g (noexc g) L.
Hypothesis HC : childof h g L n (NLeaf ln) p ip kp.
Hypothesis Honly : forall k, (k <= in_nkeys ip)%nat -> k <> kp -> in_child ip k = None.
Hypothesis Hpos : 0 < g_lo g n.
Hypothesis Elp : lf_parent lp = in_parent ip.
Let h' := hset h p (NLeaf lp).
Let g' := g_drop g n (g_lo g) (g_hi g).

Lemma oc_bounds : g_lo g p = g_lo g n /\ g_hi g p = g_hi g n.
Proof.
  destruct HC as [Hn En Hp Ep Hk Ec].
  pose proof (nd_ok HS HC) as OK. destruct (nd_child HS HC) as (_ & _ & A & B).
  assert (K : kp = in_nkeys ip).
  { destruct (Nat.eq_dec kp (in_nkeys ip)); auto. pose proof (Honly (in_nkeys ip) ltac:(lia) ltac:(lia)) as X.
    pose proof OK as (_ & _ & C). specialize (C (in_nkeys ip) ltac:(lia)). unfold child_ok in C. rewrite X in C. lia. }
  subst kp. rewrite A, B. rewrite bnd_last. split; auto.
  destruct (in_nkeys ip) as [|k'] eqn:EK; [reflexivity|].
  pose proof (Honly 0%nat ltac:(lia) ltac:(lia)) as X. pose proof OK as (_ & _ & C). specialize (C 0%nat ltac:(lia)). unfold child_ok in C. rewrite X in C.
  destruct C as (_ & C1 & C2 & _). rewrite <- EK. 
  destruct k' as [|k2]; [rewrite EK; rewrite (bnd_key g p ip 0) by lia; lia|].
  pose proof (Honly 1%nat ltac:(lia) ltac:(lia)) as X1. pose proof OK as (_ & _ & C). specialize (C 1%nat ltac:(lia)). unfold child_ok in C. rewrite X1 in C. lia.
Qed.
Lemma oc_p_not_root : p <> g_root g L.
Proof. intros E. destruct (root_bounds h g L HS) as [A _]. rewrite <- E in A. destruct oc_bounds. lia. Qed.
Lemma oc_live m : g_lay g' m = Some L <-> g_lay g m = Some L /\ m <> n.
Proof.
  unfold g', g_drop; cbn [g_lay]. destruct (Nat.eq_dec m n) as [->|N]; [rewrite upd_same; split; [discriminate|tauto]|]. rewrite upd_other by auto. tauto.
Qed.
Lemma only_child_SL : SL h' g' (noexc g') L.
Proof.
  pose proof HC as [Hn En Hp Ep Hk Ec].
  destruct oc_bounds as [BL BH]. pose proof (nd_np HS HC) as NP.
  destruct (sl_first _ _ _ _ HS) as (F1 & (fl & F2) & F3).
  assert (LP : L <> p) by congruence. assert (LN : L <> n) by (intros <-; lia).
  pose proof (nd_not_root HS HC) as NR. pose proof oc_p_not_root as PR.
  assert (RT : hp_node h' (g_root g L) = hp_node h (g_root g L)) by (unfold h'; now rewrite hset_other by auto).
  constructor.
  - split; [apply oc_live; auto|]. split; auto. exists fl. unfold h'. now rewrite hset_other.
  - destruct (sl_root _ _ _ _ HS) as (A & B & C & nr & D & E). cbn [g' g_drop g_root]. split; [apply oc_live; auto|]. split; auto. split; auto. exists nr.
    split; auto. fold h'. now rewrite RT.
  - intros m Hm. apply oc_live in Hm. destruct Hm as [Hm Nm]. destruct (sl_node _ _ _ _ HS m Hm) as (nd & nr & A & B & C & D & E & F).
    cbn [g' g_drop g_root]. destruct (Nat.eq_dec m p) as [->|N].
    + exists (NLeaf lp), nr. unfold h' at 1. rewrite hset_same, RT. cbn [ht]. repeat split; auto; try apply D; try lia.
    + exists nd, nr. unfold h' at 1. rewrite hset_other, RT by auto. repeat split; auto; apply D.
  - intros q i Hq Eq _. apply oc_live in Hq. destruct Hq as [Hq Nq]. destruct (Nat.eq_dec q p) as [->|N]; [unfold h' in Eq; rewrite hset_same in Eq; discriminate|].
    unfold h' in Eq. rewrite hset_other in Eq by auto. pose proof (sl_inter _ _ _ _ HS q i Hq Eq (fun f => f)) as (A & B & C). split; auto. split; auto.
    intros k Kk. specialize (C k Kk). unfold child_ok in C |- *. destruct (in_child i k) as [c|] eqn:Eck; [|exact C].
    destruct C as (C1 & (nc & C2 & C3 & C4) & C5 & C6). assert (Nc : c <> n).
    { intros ->. destruct (nd_only HS HC q i k Hq Eq Kk Eck). congruence. }
    split; [apply oc_live; auto|]. split; [|auto]. destruct (Nat.eq_dec c p) as [->|N2].
    + exists (NLeaf lp). unfold h'. rewrite hset_same. cbn [n_parent ht]. assert (nc = NInter ip) by congruence. subst nc. cbn in C3, C4. rewrite Elp. repeat split; auto. lia.
    + exists nc. unfold h'. rewrite hset_other by auto. auto.
  - intros m nd Hm Em Nm _. apply oc_live in Hm. destruct Hm as [Hm Nn]. cbn [g' g_drop g_root] in Nm.
    assert (X : exists nd0, hp_node h m = Some nd0 /\ n_parent nd0 = n_parent nd).
    { unfold h' in Em. destruct (Nat.eq_dec m p) as [->|N]; [rewrite hset_same in Em; inversion Em; subst; exists (NInter ip); cbn; auto|].
      rewrite hset_other in Em by auto. eauto. }
    destruct X as (nd0 & E0 & P0). destruct (linked_child h g L m nd0 HS Hm E0 Nm) as (q & i & k & A & B & C & D & E).
    assert (Nq : q <> p).
    { intros ->. assert (i = ip) by congruence. subst i. destruct (Nat.eq_dec k kp) as [->|Nk]; [congruence|]. rewrite Honly in E by auto. discriminate. }
    assert (Nqn : q <> n).
    { intros ->. congruence. }
    exists q, i, k. rewrite <- P0. split; auto. split; [apply oc_live; auto|]. split; [unfold h'; now rewrite hset_other|]. split; [intros []|auto].
  - intros m i Hm Em _. apply oc_live in Hm. destruct Hm as [Hm Nm]. unfold h' in Em. destruct (Nat.eq_dec m p) as [->|N]; [rewrite hset_same in Em; discriminate|].
    rewrite hset_other in Em by auto. apply (sl_flag _ _ _ _ HS m i Hm Em (fun f => f)).
  - intros m [=].
Qed.
End OnlyChild.

(* ---- 2. a child goes, others remain: keys equal to its lower bound become its upper bound ---- *)
Definition sig (a b y : Z) : Z := if y =? a then b else y.
Lemma sig_eq a b : sig a b a = b. Proof. unfold sig. now rewrite Z.eqb_refl. Qed.
Lemma sig_ne a b y : y <> a -> sig a b y = y. Proof. unfold sig. destruct (Z.eqb_spec y a); tauto. Qed.
(* Internode contents with the keys mapped. *)
Record ksame (f : Z -> Z) (i i' : inode) : Prop := {
  ks_n : in_nkeys i' = in_nkeys i; ks_p : in_parent i' = in_parent i; ks_h : in_height i' = in_height i; ks_d : in_deleted i' = in_deleted i;
  ks_r : in_root i' = in_root i; ks_c : forall k, (k <= in_nkeys i)%nat -> in_child i' k = in_child i k;
  ks_k : forall j, (j < in_nkeys i)%nat -> in_keys i' j = f (in_keys i j) }.
Definition nsame (f : Z -> Z) (nd nd' : node) : Prop :=
  match nd, nd' with NLeaf l, NLeaf l' => lf_parent l' = lf_parent l | NInter i, NInter i' => ksame f i i' | _, _ => False end.
Lemma nsame_ht f nd nd' : nsame f nd nd' -> ht nd' = ht nd /\ n_parent nd' = n_parent nd.
Proof. destruct nd, nd'; cbn; try tauto. intros [A B C D E F G]. auto. Qed.
(* p's contents with child kp taken out. *)
Record outchild (f : Z -> Z) (kp : nat) (i i' : inode) : Prop := {
  ot_p : in_parent i' = in_parent i; ot_h : in_height i' = in_height i; ot_d : in_deleted i' = in_deleted i; ot_r : in_root i' = in_root i;
  ot_0 : kp = 0%nat -> in_nkeys i' = in_nkeys i /\ in_child i' 0%nat = None /\ (forall k, (0 < k <= in_nkeys i)%nat -> in_child i' k = in_child i k) /\
         (forall j, (j < in_nkeys i)%nat -> in_keys i' j = f (in_keys i j));
  ot_s : (0 < kp)%nat -> in_nkeys i' = (in_nkeys i - 1)%nat /\ (forall k, (k < kp)%nat -> in_child i' k = in_child i k) /\
         (forall k, (kp <= k < in_nkeys i)%nat -> in_child i' k = in_child i (S k)) /\
         (forall j, (j + 1 < kp)%nat -> in_keys i' j = f (in_keys i j)) /\ (forall j, (kp <= j + 1 < in_nkeys i)%nat -> in_keys i' j = f (in_keys i (S j))) }.

Section RemoveChild.
Context (h h' : heap) (g : ghost) (L n p : nat) (ln : leafn) (ip ip' : inode) (kp k0 c0 : nat).
Hypothesis HS : SL h g (noexc g) L.
Hypothesis HC : childof h g L n (NLeaf ln) p ip kp.
Hypothesis Hk0 : (k0 <= in_nkeys ip)%nat.
Hypothesis Nk0 : k0 <> kp.
Hypothesis Ec0 : in_child ip k0 = Some c0.
Hypothesis Hpos : 0 < g_lo g n.
Let a := g_lo g n.
Let b := g_hi g n.
Let f := sig a b.
Let g' := g_drop g n (fun m => f (g_lo g m)) (fun m => f (g_hi g m)).
Hypothesis Hrest : forall m nd, g_lay g m = Some L -> m <> n -> m <> p -> hp_node h m = Some nd -> exists nd', hp_node h' m = Some nd' /\ nsame f nd nd'.
Hypothesis Ep' : hp_node h' p = Some (NInter ip').
Hypothesis Hout : outchild f kp ip ip'.

Lemma rc_ab : 0 < a < b /\ b <= U64.
Proof. destruct (nd_bounds (n := n) HS (co_n _ _ _ _ _ _ _ _ HC)). unfold a, b. lia. Qed.
Lemma rc_p_wide : g_lo g p < a \/ b < g_hi g p.
Proof.
  destruct (nd_child HS HC) as (_ & _ & A & B). pose proof (nd_ok HS HC) as OK. pose proof (nd_bnd_mono HS HC) as M. pose proof (co_k _ _ _ _ _ _ _ _ HC) as Hk.
  fold a in A. fold b in B. pose proof OK as (_ & _ & C). specialize (C k0 Hk0). unfold child_ok in C. rewrite Ec0 in C. destruct C as (C1 & _ & C2 & C3).
  cbn [noexc x_lo x_hi] in C2, C3. pose proof (nd_lt HS c0 C1) as LT.
  rewrite <- (bnd_0 g p ip), <- (bnd_last g p ip). destruct (lt_dec k0 kp).
  - left. pose proof (M 0%nat k0 ltac:(lia) ltac:(lia)). pose proof (M (S k0) kp ltac:(lia) ltac:(lia)). lia.
  - right. pose proof (M (S kp) k0 ltac:(lia) ltac:(lia)). pose proof (M (S k0) (S (in_nkeys ip)) ltac:(lia) ltac:(lia)). lia.
Qed.
Lemma rc_above m : g_lay g m = Some L -> m <> n -> g_lo g m <= a < g_hi g m -> g_lo g m <= g_lo g p /\ g_hi g p <= g_hi g m.
Proof.
  intros Hm Nm Hy. pose proof rc_ab as AB. destruct (nd_child HS HC) as (PN & _). pose proof (nd_in HS HC) as IN. fold a b in IN. pose proof HC as [Hn En Hp Ep Hk Ec].
  destruct (two_paths h g L a m p HS Hm Hy Hp ltac:(lia)) as [P|P].
  - destruct (path_down h g L HS a m p Hm Hy P) as (_ & _ & A & B & _). auto.
  - pose proof (nd_dstep HS HC a ltac:(fold a b; lia)) as DS. inversion P as [|? c ? S1 P1]; subst; [lia|].
    assert (c = n) by exact (dstep_det _ _ _ _ _ S1 DS). subst c. exfalso. apply Nm. symmetry. exact (path_leaf _ _ _ _ _ En P1).
Qed.
Lemma rc_lt m : g_lay g m = Some L -> m <> n -> f (g_lo g m) < f (g_hi g m) /\ 0 <= f (g_lo g m) /\ f (g_hi g m) <= U64.
Proof.
  intros Hm Nm. destruct (nd_bounds (n := m) HS Hm) as [B1 B2]. pose proof rc_ab. pose proof rc_p_wide. pose proof (nd_in HS HC) as IN. fold a b in IN.
  unfold f, sig. destruct (Z.eqb_spec (g_lo g m) a) as [E|E], (Z.eqb_spec (g_hi g m) a) as [E2|E2]; try lia.
  destruct (rc_above m Hm Nm ltac:(lia)). lia.
Qed.
Lemma rc_live m : g_lay g' m = Some L <-> g_lay g m = Some L /\ m <> n.
Proof.
  unfold g', g_drop; cbn [g_lay]. destruct (Nat.eq_dec m n) as [->|N]; [rewrite upd_same; split; [discriminate|tauto]|]. rewrite upd_other by auto. tauto.
Qed.
(* Every survivor's node. *)
Lemma rc_node m nd : g_lay g m = Some L -> m <> n -> hp_node h m = Some nd -> exists nd', hp_node h' m = Some nd' /\ ht nd' = ht nd /\ n_parent nd' = n_parent nd.
Proof.
  intros Hm Nm E. destruct (Nat.eq_dec m p) as [->|Np].
  - rewrite (co_ep _ _ _ _ _ _ _ _ HC) in E. inversion E; subst nd. exists (NInter ip'). cbn. split; auto. destruct Hout. auto.
  - destruct (Hrest m nd Hm Nm Np E) as (nd' & A & B). exists nd'. split; auto. eapply nsame_ht; eauto.
Qed.
Lemma rc_bnd q i i' k : ksame f i i' -> bnd g' q i' k = f (bnd g q i k).
Proof.
  intros K. unfold bnd. rewrite (ks_n _ _ _ K). destruct (Nat.eqb_spec k 0); [reflexivity|]. destruct (Nat.leb_spec k (in_nkeys i)); [|reflexivity].
  apply (ks_k _ _ _ K). lia.
Qed.
Lemma rc_bnd0 k : kp = 0%nat -> bnd g' p ip' k = f (bnd g p ip k).
Proof.
  intros K. destruct (ot_0 _ _ _ _ Hout K) as (A & B & C & D). unfold bnd. rewrite A. destruct (Nat.eqb_spec k 0); [reflexivity|].
  destruct (Nat.leb_spec k (in_nkeys ip)); [|reflexivity]. apply D. lia.
Qed.
Lemma rc_bnd_lo k : (0 < kp)%nat -> (k < kp)%nat -> bnd g' p ip' k = f (bnd g p ip k).
Proof.
  intros K Hk. pose proof (co_k _ _ _ _ _ _ _ _ HC). destruct (ot_s _ _ _ _ Hout K) as (A & B & C & D & E). unfold bnd. rewrite A. destruct (Nat.eqb_spec k 0); [reflexivity|].
  destruct (Nat.leb_spec k (in_nkeys ip - 1)), (Nat.leb_spec k (in_nkeys ip)); try lia. apply D. lia.
Qed.
Lemma rc_bnd_hi k : (0 < kp)%nat -> (kp <= k <= in_nkeys ip)%nat -> bnd g' p ip' k = f (bnd g p ip (S k)).
Proof.
  intros K Hk. destruct (ot_s _ _ _ _ Hout K) as (A & B & C & D & E). unfold bnd. rewrite A. destruct (Nat.eqb_spec k 0); [lia|]. cbn [Nat.eqb].
  destruct (Nat.leb_spec k (in_nkeys ip - 1)), (Nat.leb_spec (S k) (in_nkeys ip)); try lia; [|reflexivity].
  replace (S k - 1)%nat with (S (k - 1)) by lia. apply E. lia.
Qed.
Lemma rc_bnd_kp : (0 < kp)%nat -> bnd g' p ip' kp = f (bnd g p ip kp).
Proof.
  intros K. pose proof (co_k _ _ _ _ _ _ _ _ HC). rewrite rc_bnd_hi by lia. destruct (nd_child HS HC) as (_ & _ & A & B). fold a in A. fold b in B. rewrite <- A, <- B.
  unfold f. rewrite sig_eq. apply sig_ne. pose proof rc_ab. lia.
Qed.
Lemma rc_child q i k c B0 B1 : g_lay g q = Some L -> hp_node h q = Some (NInter i) -> (k <= in_nkeys i)%nat -> in_child i k = Some c -> c <> n ->
  forall i', in_height i' = in_height i -> B0 = f (bnd g q i k) -> B1 = f (bnd g q i (S k)) ->
  g_lay g' c = Some L /\ (exists nc, hp_node h' c = Some nc /\ n_parent nc = Some q /\ (ht nc < in_height i')%nat) /\ g_lo g' c = B0 /\ g_hi g' c = B1.
Proof.
  intros Hq Eq Hk Ec Nc i' EH E0 E1. pose proof (sl_inter _ _ _ _ HS q i Hq Eq (fun f => f)) as (_ & _ & C). specialize (C k Hk). unfold child_ok in C. rewrite Ec in C.
  destruct C as (C1 & (nc & C2 & C3 & C4) & C5 & C6). split; [apply rc_live; auto|]. split.
  - destruct (rc_node c nc C1 Nc C2) as (nc' & D1 & D2 & D3). exists nc'. split; auto. split; [congruence|]. rewrite EH, D2. auto.
  - cbn in C5, C6. cbn [g' g_drop g_lo g_hi]. rewrite C5, C6. auto.
Qed.
Lemma remove_SL : SL h' g' (noexc g') L.
Proof.
  pose proof HC as [Hn En Hp Ep Hk Ec]. pose proof rc_ab as AB. pose proof (nd_np HS HC) as NP. pose proof (nd_not_root HS HC) as NR.
  destruct (sl_first _ _ _ _ HS) as (F1 & (fl & F2) & F3).
  assert (LP : L <> p) by congruence. assert (LN : L <> n) by (intros E; fold a in Hpos; unfold a in *; rewrite <- E in *; lia).
  constructor.
  - split; [apply rc_live; auto|]. split.
    + destruct (Hrest L _ F1 LN LP F2) as (nd' & A & B). destruct nd' as [l'|]; [|contradiction]. eauto.
    + cbn [g' g_drop g_lo]. rewrite F3. apply sig_ne. lia.
  - destruct (sl_root _ _ _ _ HS) as (A & B & C & nr & D & E). cbn [noexc x_lo x_hi g' g_drop g_root g_lo g_hi] in *. split; [apply rc_live; auto|].
    rewrite B, C. split; [apply sig_ne; lia|]. split; [apply sig_ne; lia|].
    destruct (rc_node _ nr A ltac:(congruence) D) as (nd' & X & _ & Y). exists nd'. split; auto. congruence.
  - intros m Hm. apply rc_live in Hm. destruct Hm as [Hm Nm]. destruct (sl_node _ _ _ _ HS m Hm) as (nd & nr & A & B & C & D & E & F).
    destruct (rc_node m nd Hm Nm A) as (nd' & X & Y & _). destruct (sl_root _ _ _ _ HS) as (RA & _).
    destruct (rc_node _ nr RA ltac:(congruence) B) as (nr' & X' & Y' & _). exists nd', nr'. cbn [noexc x_lo x_hi g' g_drop g_root g_lo g_hi].
    destruct (rc_lt m Hm Nm) as (U & V & W0). repeat split; auto; lia.
  - intros q i Hq Eq _. apply rc_live in Hq. destruct Hq as [Hq Nq]. destruct (Nat.eq_dec q p) as [->|Np].
    + assert (i = ip') by congruence. subst i. pose proof (nd_ok HS HC) as (A & B & C).
      assert (NC : forall k, (k <= in_nkeys ip)%nat -> k <> kp -> in_child ip k <> Some n).
      { intros k Kk Nk E. destruct (nd_only HS HC p ip k Hp Ep Kk E). congruence. }
      destruct (Nat.eq_dec kp 0) as [K0|K0].
      * destruct (ot_0 _ _ _ _ Hout K0) as (T1 & T2 & T3 & T4). split; [lia|]. split; [rewrite (ot_d _ _ _ _ Hout); auto|]. rewrite T1. intros k Kk. unfold child_ok.
        destruct (Nat.eq_dec k 0) as [->|Nk].
        -- rewrite T2. split; auto. split; [lia|]. destruct (nd_child HS HC) as (_ & _ & X & Y). rewrite K0 in X, Y. rewrite bnd_0 in X. rewrite bnd_key in Y by lia.
           cbn [g' g_drop g_lo]. rewrite T4 by lia. rewrite <- X, <- Y. fold a b. unfold f. rewrite sig_eq, sig_ne by lia. lia.
        -- rewrite T3 by lia. specialize (C k Kk). destruct (in_child ip k) as [c|] eqn:Eck; [|unfold child_ok in C; rewrite Eck in C; lia].
           apply (rc_child p ip k c); auto; [intros ->; exact (NC k Kk ltac:(lia) Eck)|apply (ot_h _ _ _ _ Hout)|apply rc_bnd0; auto|apply rc_bnd0; auto].
      * assert (K1 : (0 < kp)%nat) by lia. destruct (ot_s _ _ _ _ Hout K1) as (T1 & T2 & T3 & T4 & T5). split; [lia|]. split; [rewrite (ot_d _ _ _ _ Hout); auto|]. rewrite T1. intros k Kk.
        unfold child_ok. destruct (lt_dec k kp) as [Lk|Lk].
        -- rewrite T2 by auto. pose proof (C k ltac:(lia)) as Ck. unfold child_ok in Ck. destruct (in_child ip k) as [c|] eqn:Eck.
           ++ apply (rc_child p ip k c); auto; [lia|intros ->; exact (NC k ltac:(lia) ltac:(lia) Eck)|apply (ot_h _ _ _ _ Hout)|apply rc_bnd_lo; auto|].
              destruct (Nat.eq_dec (S k) kp) as [E|E]; [rewrite E; apply rc_bnd_kp; auto|apply rc_bnd_lo; lia].
           ++ destruct Ck as (-> & C1 & C2 & C3). assert (2 <= in_nkeys ip)%nat.
              { destruct (Nat.eq_dec k0 0) as [->|]; [congruence|]. lia. }
              split; auto. split; [lia|]. assert (BK : bnd g' p ip' 1 = in_keys ip' 0%nat) by (apply bnd_key; lia).
              assert (X : bnd g' p ip' 1 = f (bnd g p ip 1)) by (destruct (Nat.eq_dec 1 kp) as [E|E]; [rewrite E; apply rc_bnd_kp; auto|apply rc_bnd_lo; lia]).
              rewrite (bnd_key g p ip 0) in X by lia. cbn [g' g_drop g_lo]. rewrite <- BK, X, C2. split; auto. unfold f, sig. destruct (_ =? _); lia.
        -- rewrite T3 by lia. pose proof (C (S k) ltac:(lia)) as Ck. unfold child_ok in Ck. destruct (in_child ip (S k)) as [c|] eqn:Eck; [|lia].
           apply (rc_child p ip (S k) c); auto; [lia|intros ->; exact (NC (S k) ltac:(lia) ltac:(lia) Eck)|apply (ot_h _ _ _ _ Hout)|apply rc_bnd_hi; lia|apply rc_bnd_hi; lia].
    + destruct (sl_node _ _ _ _ HS q Hq) as (nd & _ & A & _). destruct (Hrest q nd Hq Nq Np A) as (nd' & B & C). rewrite Eq in B. inversion B; subst nd'.
      destruct nd as [|i0]; [contradiction|]. cbn in C. pose proof (sl_inter _ _ _ _ HS q i0 Hq A (fun f => f)) as (D1 & D2 & D3).
      split; [rewrite (ks_n _ _ _ C); auto|]. split; [rewrite (ks_d _ _ _ C); auto|]. rewrite (ks_n _ _ _ C). intros k Kk. unfold child_ok. rewrite (ks_c _ _ _ C) by auto.
      specialize (D3 k Kk). unfold child_ok in D3. destruct (in_child i0 k) as [c|] eqn:Eck.
      * apply (rc_child q i0 k c); auto; [|apply (ks_h _ _ _ C)|apply rc_bnd; auto|apply rc_bnd; auto].
        intros ->. destruct (nd_only HS HC q i0 k Hq A Kk Eck). congruence.
      * destruct D3 as (-> & X & Y & Z0). rewrite (ks_n _ _ _ C). split; auto. split; auto. rewrite (ks_k _ _ _ C) by lia. cbn [g' g_drop g_lo]. rewrite Y. split; auto.
        unfold f, sig. destruct (_ =? _); lia.
  - intros m nd' Hm Em Nm _. apply rc_live in Hm. destruct Hm as [Hm Nn]. cbn [g' g_drop g_root] in Nm.
    destruct (sl_node _ _ _ _ HS m Hm) as (nd & _ & A & _). destruct (linked_child h g L m nd HS Hm A Nm) as (q & i & k & B & C & D & E & F).
    destruct (rc_node m nd Hm Nn A) as (nd2 & X & _ & Y). assert (nd2 = nd') by congruence. subst nd2.
    assert (Nq : q <> n) by (intros ->; congruence). destruct (Nat.eq_dec q p) as [->|Np].
    + assert (i = ip) by congruence. subst i. assert (Nk : k <> kp) by (intros ->; congruence).
      assert (Z0 : exists k', (k' <= in_nkeys ip')%nat /\ in_child ip' k' = Some m).
      { destruct (Nat.eq_dec kp 0) as [K0|K0].
        - destruct (ot_0 _ _ _ _ Hout K0) as (T1 & T2 & T3 & T4). exists k. rewrite T1. split; auto. rewrite T3; auto. lia.
        - destruct (ot_s _ _ _ _ Hout ltac:(lia)) as (T1 & T2 & T3 & T4 & T5). rewrite T1. destruct (lt_dec k kp).
          + exists k. split; [lia|]. rewrite T2; auto.
          + exists (k - 1)%nat. split; [lia|]. rewrite T3 by lia. replace (S (k - 1)) with k by lia. auto. }
      destruct Z0 as (k' & Z1 & Z2). exists p, ip', k'. split; [congruence|]. split; [apply rc_live; auto|]. auto.
    + destruct (Hrest q _ C Nq Np D) as (ndq & X2 & Y2). destruct ndq as [|iq]; [contradiction|]. cbn in Y2. exists q, iq, k.
      split; [congruence|]. split; [apply rc_live; auto|]. split; auto. split; [auto|]. rewrite (ks_n _ _ _ Y2). split; auto. rewrite (ks_c _ _ _ Y2); auto.
  - intros m i' Hm Em _. apply rc_live in Hm. destruct Hm as [Hm Nm]. cbn [g' g_drop g_root]. destruct (Nat.eq_dec m p) as [->|Np].
    + assert (i' = ip') by congruence. subst i'. rewrite (ot_r _ _ _ _ Hout). apply (sl_flag _ _ _ _ HS p ip Hp Ep (fun f => f)).
    + destruct (sl_node _ _ _ _ HS m Hm) as (nd & _ & A & _). destruct (Hrest m nd Hm Nm Np A) as (nd2 & B & C). assert (nd2 = NInter i') by congruence. subst nd2.
      destruct nd as [|i0]; [contradiction|]. cbn in C. rewrite (ks_r _ _ _ C). apply (sl_flag _ _ _ _ HS m i0 Hm A (fun f => f)).
  - intros m [=].
Qed.
End RemoveChild.

(* ---- 3. an internode with a single child is replaced by it ---- *)
Definition id_z (y : Z) : Z := y.
Section Splice.
Context (h h' : heap) (g : ghost) (L c p pp : nat) (nc nc' : node) (ip ipp ipp' : inode) (kp : nat).
Hypothesis HS : SL h g (noexc g) L.
Hypothesis HC : childof h g L p (NInter ip) pp ipp kp.
Hypothesis Hc : g_lay g c = Some L.
Hypothesis Ec : hp_node h c = Some nc.
Hypothesis Hone : in_nkeys ip = 0%nat.
Hypothesis Ech : in_child ip 0%nat = Some c.
Let g' := g_drop g p (g_lo g) (g_hi g).
Hypothesis Hrest : forall m nd, g_lay g m = Some L -> m <> c -> m <> p -> m <> pp -> hp_node h m = Some nd -> exists nd', hp_node h' m = Some nd' /\ nsame id_z nd nd'.
Hypothesis Ec' : hp_node h' c = Some nc'.
Hypothesis Hc' : nsame id_z (n_set_parent (Some pp) nc) nc'.
Hypothesis Epp' : hp_node h' pp = Some (NInter ipp').
Hypothesis Hpp' : ksame id_z (in_set_child kp (Some c) ipp) ipp'.

Lemma sp_c : childof h g L c nc p ip 0.
Proof. destruct HC. constructor; auto. lia. Qed.
Lemma sp_bounds : g_lo g c = g_lo g p /\ g_hi g c = g_hi g p.
Proof. destruct (nd_child HS sp_c) as (_ & _ & A & B). rewrite A, B. split; [reflexivity|]. pose proof (bnd_last g p ip) as X. rewrite Hone in X. auto. Qed.
Lemma sp_ne : c <> p /\ p <> pp /\ c <> pp.
Proof.
  split; [exact (nd_np HS sp_c)|]. split; [exact (nd_np HS HC)|]. intros E. destruct (nd_child HS sp_c) as (_ & A & _). destruct (nd_child HS HC) as (_ & B & _).
  rewrite E, (co_ep _ _ _ _ _ _ _ _ HC) in Ec. inversion Ec; subst nc. cbn in *. lia.
Qed.
Lemma sp_live m : g_lay g' m = Some L <-> g_lay g m = Some L /\ m <> p.
Proof.
  unfold g', g_drop; cbn [g_lay]. destruct (Nat.eq_dec m p) as [->|N]; [rewrite upd_same; split; [discriminate|tauto]|]. rewrite upd_other by auto. tauto.
Qed.
Lemma ht_set_parent q nd : ht (n_set_parent q nd) = ht nd. Proof. destruct nd; reflexivity. Qed.
Lemma par_set_parent q nd : n_parent (n_set_parent q nd) = q. Proof. destruct nd; reflexivity. Qed.
Lemma sp_node m nd : g_lay g m = Some L -> m <> p -> hp_node h m = Some nd -> exists nd', hp_node h' m = Some nd' /\ ht nd' = ht nd /\ (m <> c -> n_parent nd' = n_parent nd).
Proof.
  intros Hm Nm E. destruct sp_ne as (N1 & N2 & N3). destruct (Nat.eq_dec m pp) as [->|Npp].
  - rewrite (co_ep _ _ _ _ _ _ _ _ HC) in E. inversion E; subst nd. exists (NInter ipp'). split; auto. cbn. destruct Hpp' as [A B C]. cbn in *. auto.
  - destruct (Nat.eq_dec m c) as [->|Nc].
    + assert (nd = nc) by congruence. subst nd. exists nc'. split; auto. destruct (nsame_ht _ _ _ Hc') as [A B]. rewrite ht_set_parent in A. split; auto. congruence.
    + destruct (Hrest m nd Hm Nc Nm Npp E) as (nd' & A & B). destruct (nsame_ht _ _ _ B). eauto.
Qed.
(* Internodes other than pp and p keep their contents. *)
Lemma sp_inter q i' : g_lay g q = Some L -> q <> p -> q <> pp -> hp_node h' q = Some (NInter i') ->
  exists i, hp_node h q = Some (NInter i) /\ in_nkeys i' = in_nkeys i /\ in_height i' = in_height i /\ in_deleted i' = in_deleted i /\ in_root i' = in_root i /\
    (forall k, (k <= in_nkeys i)%nat -> in_child i' k = in_child i k) /\ (forall j, (j < in_nkeys i)%nat -> in_keys i' j = in_keys i j).
Proof.
  intros Hq N1 N2 E. destruct (Nat.eq_dec q c) as [->|Nc].
  - assert (nc' = NInter i') by congruence. subst nc'. destruct nc as [|i]; cbn in Hc'; [contradiction|]. destruct Hc' as [A B C D F G K]. cbn in *. exists i. auto 10.
  - destruct (sl_node _ _ _ _ HS q Hq) as (nd & _ & A & _). destruct (Hrest q nd Hq Nc N1 N2 A) as (nd' & B & C). assert (nd' = NInter i') by congruence. subst nd'.
    destruct nd as [|i]; [contradiction|]. destruct C as [C1 C2 C3 C4 C5 C6 C7]. exists i. auto 10.
Qed.
Lemma splice_SL : SL h' g' (noexc g') L.
Proof.
  pose proof HC as [Hp Ep Hpp Epp Hk Ekp]. destruct sp_ne as (N1 & N2 & N3). destruct sp_bounds as [BL BH]. destruct (nd_child HS HC) as (PP & HP & PL & PH). destruct (nd_child HS sp_c) as (CP & CH & _).
  pose proof (nd_not_root HS HC) as NR. pose proof (nd_not_root HS sp_c) as NRc.
  destruct (sl_first _ _ _ _ HS) as (F1 & (fl & F2) & F3). destruct (sl_root _ _ _ _ HS) as (RA & RB & RC & nr & RD & RE).
  assert (LP : L <> p) by congruence. assert (LPP : L <> pp) by congruence.
  assert (GB : forall q i i' k, in_nkeys i' = in_nkeys i -> (forall j, (j < in_nkeys i)%nat -> in_keys i' j = in_keys i j) -> bnd g' q i' k = bnd g q i k).
  { intros q i i' k A B. unfold bnd. rewrite A. destruct (Nat.eqb_spec k 0); [reflexivity|]. destruct (Nat.leb_spec k (in_nkeys i)); [|reflexivity]. apply B. lia. }
  constructor.
  - split; [apply sp_live; auto|]. split; auto. destruct (Nat.eq_dec L c) as [E|E].
    + rewrite E in *. assert (nc = NLeaf fl) by congruence. subst nc. destruct nc' as [l'|]; [|contradiction]. eauto.
    + destruct (Hrest L _ F1 E LP LPP F2) as (nd' & A & B). destruct nd' as [l'|]; [|contradiction]. eauto.
  - split; [apply sp_live; auto|]. split; auto. split; auto. destruct (sp_node _ nr RA ltac:(congruence) RD) as (nd' & A & B & C). exists nd'. split; auto. rewrite C; auto.
  - intros m Hm. apply sp_live in Hm. destruct Hm as [Hm Nm]. destruct (sl_node _ _ _ _ HS m Hm) as (nd & nr2 & A & B & C & D & E & F).
    destruct (sp_node m nd Hm Nm A) as (nd' & X & Y & _). destruct (sp_node _ nr2 RA ltac:(congruence) B) as (nr' & X' & Y' & _). exists nd', nr'.
    cbn [noexc x_lo x_hi g' g_drop g_root g_lo g_hi] in *. repeat split; auto; lia.
  - intros q i' Hq Eq _. apply sp_live in Hq. destruct Hq as [Hq Nq].
    assert (CHILD : forall i q k c1 H, g_lay g q = Some L -> hp_node h q = Some (NInter i) -> (k <= in_nkeys i)%nat -> in_child i k = Some c1 -> c1 <> p -> q <> p -> H = in_height i ->
      g_lay g' c1 = Some L /\ (exists n1, hp_node h' c1 = Some n1 /\ n_parent n1 = Some q /\ (ht n1 < H)%nat) /\ g_lo g c1 = bnd g q i k /\ g_hi g c1 = bnd g q i (S k)).
    { clear q i' Hq Eq Nq. intros i q k c1 H0 Hq Eq Kk E1 E2 E3 ->. pose proof (sl_inter _ _ _ _ HS q i Hq Eq (fun f => f)) as (_ & _ & C). specialize (C k Kk). unfold child_ok in C. rewrite E1 in C.
      destruct C as (C1 & (n1 & C2 & C3 & C4) & C5 & C6). split; [apply sp_live; auto|]. split; [|auto].
      destruct (sp_node c1 n1 C1 E2 C2) as (n1' & D1 & D2 & D3). exists n1'. split; auto.
      assert (Nc1 : c1 <> c). { intros ->. destruct (nd_only HS sp_c q i k Hq Eq Kk E1). congruence. }
      rewrite D3 by auto. split; auto. lia. }
    destruct (Nat.eq_dec q pp) as [->|Npp].
    + assert (i' = ipp') by congruence. subst i'. destruct Hpp' as [A1 A2 A3 A4 A5 A6 A7]. cbn in A1, A2, A3, A4, A5, A6, A7. pose proof (nd_ok HS HC) as (B1 & B2 & B3).
      split; [lia|]. split; [congruence|]. rewrite A1. intros k Kk. unfold child_ok. rewrite A6 by auto.
      destruct (Nat.eq_dec k kp) as [->|Nk].
      * rewrite upd_same. split; [apply sp_live; auto|]. split.
        -- destruct (nsame_ht _ _ _ Hc') as [X Y]. rewrite ht_set_parent in X. rewrite par_set_parent in Y. exists nc'. split; auto. split; auto. cbn in HP. lia.
        -- rewrite !(GB pp ipp) by auto. cbn [noexc x_lo x_hi g' g_drop g_lo g_hi]. lia.
      * rewrite upd_other by auto. specialize (B3 k Kk). unfold child_ok in B3. destruct (in_child ipp k) as [c1|] eqn:E1.
        -- rewrite !(GB pp ipp) by auto. apply CHILD; auto. intros ->. destruct (nd_only HS HC pp ipp k Hpp Epp Kk E1). congruence.
        -- destruct B3 as (-> & C1 & C2 & C3). rewrite A1, A7 by lia. auto.
    + destruct (sp_inter q i' Hq Nq Npp Eq) as (i & S1 & S2 & S3 & S4 & S5 & S6 & S7). pose proof (sl_inter _ _ _ _ HS q i Hq S1 (fun f => f)) as (B1 & B2 & B3).
      split; [lia|]. split; [congruence|]. rewrite S2. intros k Kk. unfold child_ok. rewrite S6 by auto. specialize (B3 k Kk). unfold child_ok in B3. destruct (in_child i k) as [c1|] eqn:E1.
      -- rewrite !(GB q i) by auto. apply CHILD; auto. intros ->. destruct (nd_only HS HC q i k Hq S1 Kk E1). congruence.
      -- destruct B3 as (-> & C1 & C2 & C3). rewrite S2, S7 by lia. auto.
  - intros m nd' Hm Em Nm _. apply sp_live in Hm. destruct Hm as [Hm Np]. cbn [g' g_drop g_root] in Nm.
    destruct (Nat.eq_dec m c) as [->|Nc].
    + assert (nd' = nc') by congruence. subst nd'. destruct (nsame_ht _ _ _ Hc') as [X Y]. rewrite par_set_parent in Y. destruct Hpp' as [A1 A2 A3 A4 A5 A6 A7]. cbn in A1, A6.
      exists pp, ipp', kp. split; auto. split; [apply sp_live; auto|]. split; auto. split; [intros []|]. split; [lia|]. rewrite A6 by auto. apply upd_same.
    + destruct (sl_node _ _ _ _ HS m Hm) as (nd & _ & A & _). destruct (linked_child h g L m nd HS Hm A Nm) as (q & i & k & B & C & D & E & F).
      destruct (sp_node m nd Hm Np A) as (nd2 & X & _ & Y). specialize (Y Nc). assert (nd2 = nd') by congruence. subst nd2.
      assert (Nq : q <> p). { intros ->. assert (i = ip) by congruence. subst i. assert (k = 0%nat) by lia. congruence. }
      destruct (Nat.eq_dec q pp) as [->|Npp].
      * assert (i = ipp) by congruence. subst i. destruct Hpp' as [A1 A2 A3 A4 A5 A6 A7]. cbn in A1, A6. exists pp, ipp', k. split; [congruence|]. split; [apply sp_live; auto|]. split; auto.
        split; [intros []|]. split; [lia|]. rewrite A6 by auto. rewrite upd_other; auto. intros ->. congruence.
      * destruct (sp_node q _ C Nq D) as (ndq & X2 & Y2 & _).
        assert (Z0 : exists iq, hp_node h' q = Some (NInter iq) /\ in_nkeys iq = in_nkeys i /\ in_child iq k = in_child i k).
        { destruct (Nat.eq_dec q c) as [->|Nqc].
          - assert (nc = NInter i) by congruence. subst nc. destruct nc' as [|iq]; [contradiction|]. destruct Hc' as [A1 A2 A3 A4 A5 A6 A7]. cbn in A1, A6. exists iq. auto.
          - destruct (Hrest q _ C Nqc Nq Npp D) as (ndq' & X3 & Y3). destruct ndq' as [|iq]; [contradiction|]. destruct Y3 as [A1 A2 A3 A4 A5 A6 A7]. exists iq. auto. }
        destruct Z0 as (iq & Z1 & Z2 & Z3). exists q, iq, k. split; [congruence|]. split; [apply sp_live; auto|]. split; auto. split; [intros []|]. rewrite Z2, Z3. auto.
  - intros m i' Hm Em _. apply sp_live in Hm. destruct Hm as [Hm Nm]. cbn [g' g_drop g_root]. destruct (Nat.eq_dec m pp) as [->|Npp].
    + assert (i' = ipp') by congruence. subst i'. destruct Hpp' as [A1 A2 A3 A4 A5 A6 A7]. cbn in A5. rewrite A5. apply (sl_flag _ _ _ _ HS pp ipp Hpp Epp (fun f => f)).
    + destruct (sp_inter m i' Hm Nm Npp Em) as (i & S1 & S2 & S3 & S4 & S5 & _). rewrite S5. apply (sl_flag _ _ _ _ HS m i Hm S1 (fun f => f)).
  - intros m [=].
Qed.
End Splice.
