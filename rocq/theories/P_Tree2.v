(* The structural invariant of one layer's B+-tree, and what the descent from its root reaches. *)
From Verif Require Import Lib M_Key M_Permuter M_Search P_Search M_Tree P_Tree1.

Definition U64 : Z := 2 ^ 64.
Lemma U64_eq : U64 = 2 ^ 64. Proof. reflexivity. Qed.
Lemma U64_pos : 0 < U64. Proof. reflexivity. Qed.
Global Opaque U64.

(* Ghost state: for a live node its layer, named by the layer's first leaf, and its key interval [lo,hi);
   for a layer its root node and the key prefix leading to it; for a deleted internode that stale pointers may
   still name, its layer. *)
Record ghost := MkG { g_lay : nat -> option nat; g_lo : nat -> Z; g_hi : nat -> Z; g_root : nat -> nat; g_pre : nat -> list Z;
  g_dead : nat -> option nat }.

Definition ht (n : node) : nat := match n with NLeaf _ => 0%nat | NInter i => in_height i end.

(* Exceptions while an operation is half done: the bounds under which a node's parent files it (x_lo, x_hi), nodes
   exempt from the internode conditions (x_in), not yet linked to a parent (x_up), with a stale root bit (x_fl). *)
Record exc := MkX { x_lo : nat -> Z; x_hi : nat -> Z; x_in : nat -> Prop; x_up : nat -> Prop; x_fl : nat -> Prop }.
Definition noexc (g : ghost) : exc := MkX (g_lo g) (g_hi g) (fun _ => False) (fun _ => False) (fun _ => False).

(* Lower bound of child k of internode p with contents i (k = nkeys+1: the upper bound of the last child). *)
Definition bnd (g : ghost) (p : nat) (i : inode) (k : nat) : Z :=
  if (k =? 0)%nat then g_lo g p else if (k <=? in_nkeys i)%nat then in_keys i (k - 1)%nat else g_hi g p.

Definition child_ok (h : heap) (g : ghost) (x : exc) (L p : nat) (i : inode) (k : nat) : Prop :=
  match in_child i k with
  | Some c => g_lay g c = Some L /\
      (exists nc, hp_node h c = Some nc /\ n_parent nc = Some p /\ (ht nc < in_height i)%nat) /\
      x_lo x c = bnd g p i k /\ x_hi x c = bnd g p i (S k)
  | None => k = 0%nat /\ (0 < in_nkeys i)%nat /\ in_keys i 0%nat = g_lo g p /\ 0 < g_lo g p
  end.
Definition inter_ok h g x L p i : Prop :=
  (in_nkeys i <= W)%nat /\ in_deleted i = false /\ forall k, (k <= in_nkeys i)%nat -> child_ok h g x L p i k.

Definition linked (h : heap) (g : ghost) (x : exc) (L m : nat) (nd : node) : Prop :=
  exists p i k, n_parent nd = Some p /\ g_lay g p = Some L /\ hp_node h p = Some (NInter i) /\ ~ x_in x p /\
    (k <= in_nkeys i)%nat /\ in_child i k = Some m.

Record SL (h : heap) (g : ghost) (x : exc) (L : nat) : Prop := {
  sl_first : g_lay g L = Some L /\ (exists l, hp_node h L = Some (NLeaf l)) /\ g_lo g L = 0;
  sl_root : g_lay g (g_root g L) = Some L /\ x_lo x (g_root g L) = 0 /\ x_hi x (g_root g L) = U64 /\
            exists nr, hp_node h (g_root g L) = Some nr /\ n_parent nr = None;
  sl_node : forall m, g_lay g m = Some L -> exists nd nr, hp_node h m = Some nd /\ hp_node h (g_root g L) = Some nr /\
            (ht nd <= ht nr)%nat /\ 0 <= g_lo g m < g_hi g m /\ g_hi g m <= U64 /\ x_lo x m < x_hi x m;
  sl_inter : forall p i, g_lay g p = Some L -> hp_node h p = Some (NInter i) -> ~ x_in x p -> inter_ok h g x L p i;
  sl_up : forall m nd, g_lay g m = Some L -> hp_node h m = Some nd -> m <> g_root g L -> ~ x_up x m -> linked h g x L m nd;
  sl_flag : forall m i, g_lay g m = Some L -> hp_node h m = Some (NInter i) -> ~ x_fl x m ->
            in_root i = true <-> m = g_root g L;
  sl_dead : forall m, g_dead g m = Some L -> g_lay g m = None /\ exists i p ip, hp_node h m = Some (NInter i) /\
            in_root i = false /\ in_parent i = Some p /\ hp_node h p = Some (NInter ip) /\
            (in_height i < in_height ip)%nat /\ (g_lay g p = Some L \/ g_dead g p = Some L)
}.

(* All allocated nodes are below the allocation counter, and so are heights. *)
Definition heap_ok (h : heap) : Prop := forall a n, hp_node h a = Some n -> (a < hp_next h)%nat /\ (ht n < hp_next h)%nat.

(* ---- consequences for one internode ---- *)
Lemma bnd_key g p i k : (k < in_nkeys i)%nat -> bnd g p i (S k) = in_keys i k.
Proof. intros. unfold bnd. cbn [Nat.eqb]. destruct (Nat.leb_spec (S k) (in_nkeys i)); [|lia]. f_equal. lia. Qed.
Lemma bnd_0 g p i : bnd g p i 0 = g_lo g p. Proof. reflexivity. Qed.
Lemma bnd_last g p i : bnd g p i (S (in_nkeys i)) = g_hi g p.
Proof. unfold bnd. cbn [Nat.eqb]. destruct (Nat.leb_spec (S (in_nkeys i)) (in_nkeys i)); [lia|reflexivity]. Qed.
Section Inter.
Context (h : heap) (g : ghost) (x : exc) (L p : nat) (i : inode).
Hypothesis Hlt : forall c, g_lay g c = Some L -> x_lo x c < x_hi x c.
Hypothesis Hok : inter_ok h g x L p i.

Lemma bnd_step k : (k <= in_nkeys i)%nat -> bnd g p i k <= bnd g p i (S k) /\
  (forall c, in_child i k = Some c -> bnd g p i k < bnd g p i (S k)).
Proof.
  intros Hk. destruct Hok as (_ & _ & Hc). specialize (Hc k Hk). unfold child_ok in Hc.
  destruct (in_child i k) as [c|] eqn:E.
  - destruct Hc as (Hl & _ & Hlo & Hhi). specialize (Hlt c Hl). split; intros; lia.
  - destruct Hc as (-> & Hn & Hk0 & _). split; [|discriminate]. unfold bnd. cbn [Nat.eqb].
    destruct (Nat.leb_spec 1 (in_nkeys i)); [|lia]. cbn. lia.
Qed.
Lemma bnd_mono a b : (a <= b)%nat -> (b <= S (in_nkeys i))%nat -> bnd g p i a <= bnd g p i b.
Proof.
  intros H. induction H as [|b H IH]; intros Hb; [lia|].
  destruct (bnd_step b ltac:(lia)) as [S1 _]. specialize (IH ltac:(lia)). lia.
Qed.
Lemma child_some k : (k <= in_nkeys i)%nat -> (0 < k)%nat -> exists c, in_child i k = Some c.
Proof.
  intros Hk H0. destruct Hok as (_ & _ & Hc). specialize (Hc k Hk). unfold child_ok in Hc.
  destruct (in_child i k); [eauto|]. lia.
Qed.
Lemma inter_keys_inc : keys_inc i.
Proof.
  intros a b Hab.
  assert (M : in_keys i a < bnd g p i (S (S a))).
  { rewrite <- (bnd_key g p i a) by lia. destruct (child_some (S a) ltac:(lia) ltac:(lia)) as (c & E).
    apply (bnd_step (S a) ltac:(lia)) with (c := c); auto. }
  rewrite <- (bnd_key g p i b) by lia. pose proof (bnd_mono (S (S a)) (S b) ltac:(lia) ltac:(lia)). lia.
Qed.
Lemma inter_upper_at k y : (k <= in_nkeys i)%nat -> bnd g p i k <= y < bnd g p i (S k) -> in_upper i y = Ok k.
Proof.
  intros Hk Hy. apply in_upper_unique; auto using inter_keys_inc.
  - intros j Hj. rewrite <- (bnd_key g p i j) by lia. pose proof (bnd_mono (S j) k ltac:(lia) ltac:(lia)). lia.
  - intros j Hj. rewrite <- (bnd_key g p i j) by lia. pose proof (bnd_mono (S k) (S j) ltac:(lia) ltac:(lia)). lia.
Qed.
Lemma inter_upper_find y : g_lo g p <= y < g_hi g p ->
  exists k c, in_upper i y = Ok k /\ (k <= in_nkeys i)%nat /\ in_child i k = Some c /\ bnd g p i k <= y < bnd g p i (S k).
Proof.
  intros Hy. destruct (in_upper_spec i y inter_keys_inc) as (k & E & Hk & H1 & H2).
  exists k. assert (B : bnd g p i k <= y < bnd g p i (S k)).
  { split.
    - destruct k; [rewrite bnd_0; lia|]. rewrite bnd_key by lia. apply H1. lia.
    - destruct (Nat.eq_dec k (in_nkeys i)) as [->|]; [rewrite bnd_last; lia|]. rewrite bnd_key by lia. apply H2. lia. }
  destruct (in_child i k) as [c|] eqn:Ec; [eauto 10|].
  destruct Hok as (_ & _ & Hc). specialize (Hc k Hk). unfold child_ok in Hc. rewrite Ec in Hc.
  destruct Hc as (-> & Hn & Hk0 & _). rewrite bnd_0, (bnd_key g p i 0) in B by lia. lia.
Qed.
Lemma inter_bounds : g_lo g p < g_hi g p.
Proof.
  rewrite <- (bnd_0 g p i), <- (bnd_last g p i).
  destruct (in_child i (in_nkeys i)) as [c|] eqn:E.
  - pose proof (proj2 (bnd_step (in_nkeys i) ltac:(lia)) c E). pose proof (bnd_mono 0 (in_nkeys i) ltac:(lia) ltac:(lia)). lia.
  - destruct Hok as (_ & _ & Hc). specialize (Hc (in_nkeys i) ltac:(lia)). unfold child_ok in Hc. rewrite E in Hc. lia.
Qed.
End Inter.

(* ---- descent paths ---- *)
Definition dstep (h : heap) (y : Z) (p c : nat) : Prop :=
  exists i k, hp_node h p = Some (NInter i) /\ in_upper i y = Ok k /\ in_child i k = Some c.
Inductive path (h : heap) (y : Z) : nat -> nat -> Prop :=
| path_refl a : path h y a a
| path_step a b c : dstep h y a b -> path h y b c -> path h y a c.

Lemma dstep_det h y a b c : dstep h y a b -> dstep h y a c -> b = c.
Proof. intros (i & k & E1 & E2 & E3) (i' & k' & F1 & F2 & F3). congruence. Qed.
Lemma path_trans h y a b c : path h y a b -> path h y b c -> path h y a c.
Proof. induction 1; auto. intros. econstructor; eauto. Qed.
Lemma path_right h y a b c : path h y a b -> dstep h y b c -> path h y a c.
Proof. intros. eapply path_trans; eauto. econstructor; eauto. constructor. Qed.
Lemma path_linear h y a b c : path h y a b -> path h y a c -> path h y b c \/ path h y c b.
Proof.
  induction 1 as [a|a b d S P IH]; auto.
  intros Q. inversion Q as [|? b' ? S' P']; subst.
  - right. econstructor; eauto.
  - assert (b = b') by eauto using dstep_det. subst. auto.
Qed.
Lemma path_leaf h y a b l : hp_node h a = Some (NLeaf l) -> path h y a b -> a = b.
Proof. intros E P. inversion P as [|? ? ? (i & k & E1 & _) _]; subst; auto. congruence. Qed.

Section Layer.
Context (h : heap) (g : ghost) (x : exc) (L : nat).
Hypothesis HS : SL h g x L.

Lemma sl_lt c : g_lay g c = Some L -> x_lo x c < x_hi x c.
Proof. intros H. destruct (sl_node _ _ _ _ HS c H) as (? & ? & _ & _ & _ & _ & _ & ?). auto. Qed.

(* A linked node is reached through its parent for every key its parent files it under. *)
Lemma linked_step m nd y : hp_node h m = Some nd -> linked h g x L m nd -> x_lo x m <= y < x_hi x m ->
  exists p i, n_parent nd = Some p /\ g_lay g p = Some L /\ hp_node h p = Some (NInter i) /\ ~ x_in x p /\
    dstep h y p m /\ g_lo g p <= y < g_hi g p /\ (ht nd < in_height i)%nat.
Proof.
  intros En (p & i & k & E1 & E2 & E3 & E4 & Hk & Ec) Hy. exists p, i.
  pose proof (sl_inter _ _ _ _ HS p i E2 E3 E4) as Hi.
  pose proof Hi as (_ & _ & Hc). specialize (Hc k Hk). unfold child_ok in Hc. rewrite Ec in Hc.
  destruct Hc as (Hl & (nc & N1 & N2 & N3) & Hlo & Hhi). rewrite Hlo, Hhi in Hy.
  pose proof (inter_upper_at h g x L p i sl_lt Hi k y Hk Hy) as HU.
  pose proof (bnd_mono h g x L p i sl_lt Hi 0 k ltac:(lia) ltac:(lia)) as B0.
  pose proof (bnd_mono h g x L p i sl_lt Hi (S k) (S (in_nkeys i)) ltac:(lia) ltac:(lia)) as B1.
  rewrite bnd_0 in B0. rewrite bnd_last in B1.
  assert (nc = nd) by congruence. subst nc.
  repeat split; auto; try lia. exists i, k. auto.
Qed.

(* y is clear of the exceptions: no node containing y is misfiled or unlinked. *)
Definition clear (y : Z) : Prop :=
  forall m, g_lay g m = Some L -> g_lo g m <= y < g_hi g m -> x_lo x m <= y < x_hi x m /\ ~ x_up x m.

Lemma live_node m : g_lay g m = Some L -> exists nd nr, hp_node h m = Some nd /\ hp_node h (g_root g L) = Some nr /\
  (ht nd <= ht nr)%nat.
Proof. intros H. destruct (sl_node _ _ _ _ HS m H) as (nd & nr & ? & ? & ? & _). eauto. Qed.

Lemma on_path y : clear y -> forall m, g_lay g m = Some L -> g_lo g m <= y < g_hi g m -> path h y (g_root g L) m.
Proof.
  intros Hc.
  assert (IND : forall d m nd nr, hp_node h m = Some nd -> hp_node h (g_root g L) = Some nr -> (ht nr - ht nd <= d)%nat ->
    g_lay g m = Some L -> g_lo g m <= y < g_hi g m -> path h y (g_root g L) m).
  { induction d as [|d IH]; intros m nd nr En Er Hd Hm Hy.
    - destruct (Nat.eq_dec m (g_root g L)) as [->|Hne]; [constructor|]. exfalso.
      destruct (Hc m Hm Hy) as [Hx Hu]. pose proof (sl_up _ _ _ _ HS m nd Hm En Hne Hu) as Hl.
      destruct (linked_step m nd y En Hl Hx) as (p & i & E1 & E2 & E3 & E4 & E5 & E6 & E7).
      destruct (live_node p E2) as (np & nr' & N1 & N2 & N3). rewrite E3 in N1. inversion N1; subst np. cbn [ht] in N3.
      assert (nr' = nr) by congruence. subst. lia.
    - destruct (Nat.eq_dec m (g_root g L)) as [->|Hne]; [constructor|].
      destruct (Hc m Hm Hy) as [Hx Hu]. pose proof (sl_up _ _ _ _ HS m nd Hm En Hne Hu) as Hl.
      destruct (linked_step m nd y En Hl Hx) as (p & i & E1 & E2 & E3 & E4 & E5 & E6 & E7).
      destruct (live_node p E2) as (np & nr' & N1 & N2 & N3). rewrite E3 in N1. inversion N1; subst np. cbn [ht] in N3.
      assert (nr' = nr) by congruence. subst.
      eapply path_right; [|exact E5]. eapply (IH p (NInter i) nr); eauto. cbn [ht]. lia. }
  intros m Hm Hy. destruct (live_node m Hm) as (nd & nr & N1 & N2 & N3). eapply IND; eauto.
Qed.

Lemma leaf_unique y n1 n2 l1 l2 : clear y -> g_lay g n1 = Some L -> g_lay g n2 = Some L ->
  hp_node h n1 = Some (NLeaf l1) -> hp_node h n2 = Some (NLeaf l2) ->
  g_lo g n1 <= y < g_hi g n1 -> g_lo g n2 <= y < g_hi g n2 -> n1 = n2.
Proof.
  intros Hc H1 H2 E1 E2 B1 B2.
  destruct (path_linear h y _ _ _ (on_path y Hc n1 H1 B1) (on_path y Hc n2 H2 B2)) as [P|P].
  - eauto using path_leaf.
  - symmetry. eauto using path_leaf.
Qed.

(* Live descents go down in height and into smaller intervals. *)
Lemma dstep_live y p c : g_lay g p = Some L -> ~ x_in x p -> g_lo g p <= y < g_hi g p -> dstep h y p c ->
  exists i nc, hp_node h p = Some (NInter i) /\ hp_node h c = Some nc /\ (ht nc < in_height i)%nat /\ g_lay g c = Some L /\
    n_parent nc = Some p /\ x_lo x c <= y < x_hi x c /\ g_lo g p <= x_lo x c /\ x_hi x c <= g_hi g p.
Proof.
  intros Hp Hx Hy (i & k & E1 & E2 & E3).
  pose proof (sl_inter _ _ _ _ HS p i Hp E1 Hx) as Hi.
  destruct (inter_upper_find h g x L p i sl_lt Hi y Hy) as (k' & c' & F1 & F2 & F3 & F4).
  assert (k' = k) by congruence. subst k'. assert (c' = c) by congruence. subst c'.
  pose proof Hi as (_ & _ & Hc). specialize (Hc k F2). unfold child_ok in Hc. rewrite E3 in Hc.
  destruct Hc as (Hl & (nc & N1 & N2 & N3) & Hlo & Hhi).
  pose proof (bnd_mono h g x L p i sl_lt Hi 0 k ltac:(lia) ltac:(lia)) as B0.
  pose proof (bnd_mono h g x L p i sl_lt Hi (S k) (S (in_nkeys i)) ltac:(lia) ltac:(lia)) as B1.
  rewrite bnd_0 in B0. rewrite bnd_last in B1. rewrite Hlo, Hhi. exists i, nc. repeat split; auto; lia.
Qed.
End Layer.

(* ---- without exceptions ---- *)
Section Whole.
Context (h : heap) (g : ghost) (L : nat).
Hypothesis HS : SL h g (noexc g) L.

Lemma clear_noexc y : clear g (noexc g) L y.
Proof. intros m Hm Hy. cbn. tauto. Qed.

Lemma root_bounds : g_lo g (g_root g L) = 0 /\ g_hi g (g_root g L) = U64.
Proof. destruct (sl_root _ _ _ _ HS) as (_ & A & B & _). auto. Qed.

Lemma path_down y a b : g_lay g a = Some L -> g_lo g a <= y < g_hi g a -> path h y a b ->
  g_lay g b = Some L /\ g_lo g b <= y < g_hi g b /\ g_lo g a <= g_lo g b /\ g_hi g b <= g_hi g a /\
  exists na nb, hp_node h a = Some na /\ hp_node h b = Some nb /\ (ht nb <= ht na)%nat /\ (a <> b -> (ht nb < ht na)%nat).
Proof.
  intros Ha Hy P. induction P as [a|a c b S P IH].
  - destruct (live_node h g _ L HS a Ha) as (na & _ & E & _). repeat split; auto; try lia. exists na, na. repeat split; auto. congruence.
  - destruct (dstep_live h g _ L HS y a c Ha (fun f => f) Hy S) as (i & nc & E1 & E2 & E3 & E4 & E5 & E6 & E7 & E8).
    cbn in E6, E7, E8. destruct (IH E4 E6) as (F1 & F2 & F3 & F4 & nc' & nb & F5 & F6 & F7 & F8).
    assert (nc' = nc) by congruence. subst. repeat split; auto; try lia.
    exists (NInter i), nb. cbn [ht]. repeat split; auto; lia.
Qed.

Lemma descend_ok y : forall fuel a na, g_lay g a = Some L -> g_lo g a <= y < g_hi g a -> hp_node h a = Some na ->
  (ht na < fuel)%nat ->
  exists n l, descend fuel h a y = Ok n /\ g_lay g n = Some L /\ hp_node h n = Some (NLeaf l) /\ g_lo g n <= y < g_hi g n.
Proof.
  induction fuel as [|f IH]; intros a na Ha Hy En Hf; [lia|].
  cbn [descend]. rewrite (hget_some _ _ _ En). cbn [bind]. destruct na as [l|i].
  - exists a, l. auto.
  - pose proof (sl_inter _ _ _ _ HS a i Ha En (fun f => f)) as Hi.
    destruct (inter_upper_find h g _ L a i (sl_lt h g _ L HS) Hi y Hy) as (k & c & F1 & F2 & F3 & F4).
    rewrite F1. cbn [bind]. rewrite F3.
    destruct (dstep_live h g _ L HS y a c Ha (fun f => f) Hy) as (i' & nc & E1 & E2 & E3 & E4 & E5 & E6 & E7 & E8).
    { exists i, k. auto. }
    assert (i' = i) by congruence. subst. cbn [ht] in Hf. cbn in E6. apply (IH c nc); auto. lia.
Qed.

(* Pointers from which climbing parents leads to the root. *)
Definition stale (m : nat) : Prop :=
  m = L \/ exists i, hp_node h m = Some (NInter i) /\ (g_lay g m = Some L \/ g_dead g m = Some L).

Hypothesis HO : heap_ok h.
Hypothesis HF : forall l, hp_node h L = Some (NLeaf l) -> lf_root l = true <-> g_root g L = L.

Lemma climb_ok : forall fuel m nm, stale m -> hp_node h m = Some nm -> (hp_next h - ht nm < fuel)%nat ->
  climb fuel h m = Ok (g_root g L).
Proof.
  induction fuel as [|f IH]; intros m nm Hs En Hf; [lia|].
  cbn [climb]. rewrite (hget_some _ _ _ En). cbn [bind].
  destruct (HO m nm En) as [_ Hh].
  assert (P : n_is_root nm = true /\ m = g_root g L \/
              n_is_root nm = false /\ exists p ip, n_parent nm = Some p /\ hp_node h p = Some (NInter ip) /\ (ht nm < in_height ip)%nat /\
                (g_lay g p = Some L \/ g_dead g p = Some L)).
  { assert (LV : g_lay g m = Some L -> m <> g_root g L -> exists p ip, n_parent nm = Some p /\ hp_node h p = Some (NInter ip) /\ (ht nm < in_height ip)%nat /\
                (g_lay g p = Some L \/ g_dead g p = Some L)).
    { intros Hm Hne. pose proof (sl_up _ _ _ _ HS m nm Hm En Hne (fun f => f)) as Hl.
      destruct (sl_node _ _ _ _ HS m Hm) as (? & ? & _ & _ & _ & B1 & B2 & _).
      destruct (linked_step h g _ L HS m nm (g_lo g m) En Hl) as (p & i & E1 & E2 & E3 & E4 & E5 & E6 & E7); [cbn; lia|].
      exists p, i. auto. }
    destruct Hs as [->|(i & Ei & [Hl|Hd])].
    - destruct (sl_first _ _ _ _ HS) as (F1 & (l & F2) & _). assert (nm = NLeaf l) by congruence. subst nm. cbn [n_is_root].
      specialize (HF l F2). destruct (Nat.eq_dec L (g_root g L)) as [E|E].
      + left. split; auto. apply HF. auto.
      + right. split; [|apply LV; auto]. destruct (lf_root l); auto. exfalso. apply E. symmetry. apply HF. auto.
    - assert (nm = NInter i) by congruence. subst nm. cbn [n_is_root].
      pose proof (sl_flag _ _ _ _ HS m i Hl Ei (fun f => f)) as Fl.
      destruct (Nat.eq_dec m (g_root g L)) as [E|E].
      + left. split; auto. apply Fl. auto.
      + right. split; [|apply LV; auto]. destruct (in_root i); auto. exfalso. apply E. apply Fl. auto.
    - destruct (sl_dead _ _ _ _ HS m Hd) as (_ & i' & p & ip & D1 & D2 & D3 & D4 & D5 & D6).
      assert (nm = NInter i') by congruence. subst nm. right. cbn [n_is_root n_parent ht]. split; auto. exists p, ip. auto. }
  destruct P as [[R E]|[R (p & ip & P1 & P2 & P3 & P4)]]; rewrite R; [subst m; reflexivity|].
  unfold maybe_parent. rewrite (hget_some _ _ _ En). cbn [bind]. rewrite P1. cbn [bind].
  apply (IH p (NInter ip)); auto; [|cbn [ht]; lia]. right. eauto.
Qed.

Lemma stale_node m : stale m -> exists nm, hp_node h m = Some nm.
Proof. intros [->|(i & E & _)]; eauto. destruct (sl_first _ _ _ _ HS) as (_ & (l & F2) & _). eauto. Qed.

Lemma climb_root m : stale m -> climb (hfuel h) h m = Ok (g_root g L).
Proof.
  intros Hs. destruct (stale_node m Hs) as (nm & En). apply (climb_ok _ m nm); auto. unfold hfuel. lia.
Qed.

Lemma reach_leaf_ok m y : stale m -> 0 <= y < U64 ->
  exists n l, reach_leaf h m y = Ok n /\ g_lay g n = Some L /\ hp_node h n = Some (NLeaf l) /\ g_lo g n <= y < g_hi g n.
Proof.
  intros Hs Hy. unfold reach_leaf. rewrite climb_root by auto. cbn [bind].
  destruct (sl_root _ _ _ _ HS) as (R1 & R2 & R3 & nr & R4 & R5). cbn in R2, R3.
  apply (descend_ok y (hfuel h) (g_root g L) nr); auto; [rewrite R2, R3; lia|]. destruct (HO _ _ R4). unfold hfuel. lia.
Qed.
End Whole.
