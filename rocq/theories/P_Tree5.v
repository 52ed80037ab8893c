(* Insertion of a new right sibling into the internodes: the loop of make_split. *)
From Verif Require Import Lib Spec_String M_Key P_Key M_Permuter P_Permuter2 M_Search P_Search M_Tree P_Tree1 P_Tree2 P_Tree3 P_Tree4.

(* ---- the key and child arrays after inserting (x, c) at position kp ---- *)
Definition vk (kp : nat) (x : Z) (keys : nat -> Z) (j : nat) : Z :=
  if (j <? kp)%nat then keys j else if (j =? kp)%nat then x else keys (j - 1)%nat.
Definition vc (kp : nat) (c : nat) (ch : nat -> option nat) (j : nat) : option nat :=
  if (j <=? kp)%nat then ch j else if (j =? S kp)%nat then Some c else ch (j - 1)%nat.

Ltac ncase := repeat match goal with
  | |- context [Nat.ltb ?a ?b] => destruct (Nat.ltb_spec a b); try lia
  | |- context [Nat.leb ?a ?b] => destruct (Nat.leb_spec a b); try lia
  | |- context [Nat.eqb ?a ?b] => destruct (Nat.eqb_spec a b); try lia
  end; cbn [andb].

Lemma insert_arrays i kp x c N : (kp <= N)%nat ->
  let i2 := in_assign kp x c (in_shift_up (kp + 1) kp (N - kp) i) in
  (forall j, (j < S N)%nat -> in_keys i2 j = vk kp x (in_keys i) j) /\
  (forall j, (j <= S N)%nat -> in_child i2 j = vc kp c (in_child i) j).
Proof.
  intros Hk i2. unfold i2, in_assign, in_shift_up. cbn [in_set_child in_set_key in_set_arrays in_keys in_child]. split.
  - intros j Hj. unfold upd, vk, amove. ncase; auto; f_equal; lia.
  - intros j Hj. unfold upd, vc. rewrite shift_up_children_spec by lia. ncase; subst; auto; f_equal; lia.
Qed.

Definition split_mid (stype : Z) : nat := if stype =? 2 then W else Nat.div2 (W + 1).
Lemma split_mid_range st : (1 <= split_mid st <= W)%nat.
Proof. unfold split_mid, W. destruct (st =? 2); cbn; lia. Qed.

Lemma W_eq : W = 15%nat. Proof. reflexivity. Qed.
Global Opaque W.
Lemma inter_split_spec i nr kp x c st il ir sk o : (kp <= W)%nat ->
  inter_split_into i nr kp x c st = (il, ir, sk, o) ->
  let mid := split_mid st in
  sk = vk kp x (in_keys i) mid /\
  in_nkeys ir = (W - mid)%nat /\ in_height ir = in_height nr /\ in_parent ir = in_parent nr /\ in_root ir = in_root nr /\ in_deleted ir = in_deleted nr /\
  (forall j, (j < W - mid)%nat -> in_keys ir j = vk kp x (in_keys i) (mid + 1 + j)%nat) /\
  (forall j, (j <= W - mid)%nat -> in_child ir j = vc kp c (in_child i) (mid + 1 + j)%nat) /\
  o = (if (kp <? mid)%nat then Some kp else None) /\
  il = in_set_root false (in_set_nkeys (if (kp <? mid)%nat then mid - 1 else mid)%nat i).
Proof.
  intros Hk E mid. pose proof (split_mid_range st) as Hm. fold mid in Hm.
  unfold inter_split_into in E. fold (split_mid st) in E. fold mid in E.
  destruct (Nat.ltb_spec kp mid) as [H1|H1].
  - inversion E; subst; clear E. cbn [in_nkeys in_height in_parent in_root in_deleted in_keys in_child in_shift_from in_set_arrays in_set_child in_set_nkeys].
    repeat split; try lia.
    + unfold vk. ncase; try reflexivity.
    + intros j Hj. rewrite amove_in by lia. unfold vk. ncase; try reflexivity; try (f_equal; lia).
    + intros j Hj. destruct j as [|j].
      * rewrite amove_out by lia. rewrite upd_same. unfold vc. ncase; try reflexivity; try (f_equal; lia).
      * rewrite amove_in by lia. unfold vc. ncase; try reflexivity; try (f_equal; lia).
  - destruct (Nat.eqb_spec kp mid) as [H2|H2].
    + inversion E; subst; clear E. cbn [in_nkeys in_height in_parent in_root in_deleted in_keys in_child in_shift_from in_set_arrays in_set_child in_set_nkeys].
      repeat split; try lia.
      * unfold vk. ncase; try reflexivity.
      * intros j Hj. rewrite amove_in by lia. unfold vk. ncase; try reflexivity; try (f_equal; lia).
      * intros j Hj. destruct j as [|j].
        -- rewrite amove_out by lia. rewrite upd_same. unfold vc. ncase; try reflexivity.
        -- rewrite amove_in by lia. unfold vc. ncase; try reflexivity; try (f_equal; lia).
    + inversion E; subst; clear E. unfold in_assign.
      cbn [in_nkeys in_height in_parent in_root in_deleted in_keys in_child in_shift_from in_set_arrays in_set_child in_set_nkeys in_set_key].
      repeat split; try lia.
      * unfold vk. ncase; try reflexivity.
      * intros j Hj. unfold amove, upd, vk. ncase; auto; f_equal; lia.
      * intros j Hj. unfold amove, upd, vc. ncase; auto; f_equal; lia.
Qed.

(* ---- the parent-setting loop ---- *)
Lemma set_parents_spec p ch : forall k i h,
  (forall j, (i <= j < i + k)%nat -> exists m nd, ch j = Some m /\ hp_node h m = Some nd) ->
  exists h', set_parents k i ch p h = Ok h' /\ hp_next h' = hp_next h /\
    (forall m, (exists j, (i <= j < i + k)%nat /\ ch j = Some m) -> hp_node h' m = option_map (n_set_parent (Some p)) (hp_node h m)) /\
    (forall m, ~ (exists j, (i <= j < i + k)%nat /\ ch j = Some m) -> hp_node h' m = hp_node h m).
Proof.
  induction k as [|k IH]; intros i h Hc.
  - exists h. cbn. repeat split; auto. intros m (j & Hj & _). lia.
  - destruct (Hc i ltac:(lia)) as (m0 & nd0 & C0 & N0). cbn [set_parents]. rewrite C0. cbn [deref bind].
    unfold set_parent at 1. rewrite (hget_some _ _ _ N0). cbn [bind].
    set (h1 := hset h m0 (n_set_parent (Some p) nd0)).
    destruct (IH (S i) h1) as (h' & E & Nx & I1 & I2).
    { intros j Hj. destruct (Hc j ltac:(lia)) as (m & nd & C & N). destruct (Nat.eq_dec m m0) as [->|Ne].
      - exists m0. rewrite C. eexists. split; auto. apply hset_same.
      - exists m, nd. split; auto. unfold h1. now rewrite hset_other. }
    exists h'. split; auto. split; auto. split.
    + intros m (j & Hj & Cj). destruct (Nat.eq_dec m m0) as [->|Ne].
      * rewrite N0. cbn [option_map].
        destruct (in_dec Nat.eq_dec m0 (flat_map (fun j => match ch j with Some m => [m] | None => [] end) (seq (S i) k))) as [IN|NI].
        -- apply in_flat_map in IN. destruct IN as (j' & Hj' & Hm). apply in_seq in Hj'. destruct (ch j') eqn:Cj'; [|destruct Hm].
           destruct Hm as [->|[]]. rewrite I1 by (exists j'; split; auto; lia). unfold h1. rewrite hset_same. cbn. destruct nd0; reflexivity.
        -- rewrite I2; [unfold h1; now rewrite hset_same|]. intros (j' & Hj' & Cj'). apply NI. apply in_flat_map. exists j'.
           rewrite Cj'. split; [apply in_seq; lia|left; auto].
      * rewrite I1; [unfold h1; now rewrite hset_other|]. exists j. split; auto. destruct (Nat.eq_dec j i) as [->|]; [congruence|lia].
    + intros m Hm. rewrite I2.
      * unfold h1. rewrite hset_other; auto. intros ->. apply Hm. exists i. split; auto. lia.
      * intros (j & Hj & Cj). apply Hm. exists j. split; auto. lia.
Qed.

Lemma nsp_ht p n : ht (n_set_parent p n) = ht n. Proof. destruct n; reflexivity. Qed.
Lemma nsp_parent p n : n_parent (n_set_parent p n) = p. Proof. destruct n; reflexivity. Qed.

(* ---- a sibling waiting to be linked ---- *)
Definition pexc (g : ghost) (n child : nat) : exc :=
  MkX (g_lo g) (upd (g_hi g) n (g_hi g child)) (fun _ => False) (eq child) (eq n).

Record pend (h : heap) (g : ghost) (L n child : nat) (x : Z) (height : nat) : Prop := {
  pd_sl : SL h g (pexc g n child) L;
  pd_n : g_lay g n = Some L;
  pd_c : g_lay g child = Some L;
  pd_ne : n <> child;
  pd_x : g_hi g n = x /\ g_lo g child = x;
  pd_hn : exists nn, hp_node h n = Some nn /\ ht nn = height /\ (forall i, nn = NInter i -> in_root i = false);
  pd_hc : exists nc, hp_node h child = Some nc /\ ht nc = height /\ n_parent nc = None /\ (forall i, nc = NInter i -> in_root i = false);
  pd_cr : child <> g_root g L
}.

(* What the loop may change. *)
Record sframe (h : heap) (g : ghost) (h' : heap) (g' : ghost) (L : nat) : Prop := {
  sf_next : (hp_next h <= hp_next h')%nat;
  sf_leaf : forall m l, hp_node h m = Some (NLeaf l) -> exists p, hp_node h' m = Some (NLeaf (lf_set_parent p l));
  sf_inter : forall m i, hp_node h m = Some (NInter i) -> exists i', hp_node h' m = Some (NInter i') /\ in_height i' = in_height i;
  sf_other : forall m, g_lay g m <> Some L -> (m < hp_next h)%nat -> hp_node h' m = hp_node h m;
  sf_new : forall m, (hp_next h <= m < hp_next h')%nat -> (exists i, hp_node h' m = Some (NInter i)) /\ g_lay g' m = Some L;
  sf_lay : forall m, (m < hp_next h)%nat -> g_lay g' m = g_lay g m;
  sf_fresh : forall m, (hp_next h' <= m)%nat -> g_lay g' m = None;
  sf_lo : forall m, (m < hp_next h)%nat -> g_lo g' m = g_lo g m;
  sf_hi : forall m l, (m < hp_next h)%nat -> hp_node h m = Some (NLeaf l) -> g_hi g' m = g_hi g m;
  sf_hi2 : forall m, (m < hp_next h)%nat -> g_lay g m <> Some L -> g_hi g' m = g_hi g m;
  sf_pre : g_pre g' = g_pre g;
  sf_dead : g_dead g' = g_dead g;
  sf_root : forall M, M <> L -> g_root g' M = g_root g M;
  sf_rootL : g_root g' L = g_root g L \/ exists nr, hp_node h' (g_root g L) = Some nr /\ n_parent nr = Some (g_root g' L)
}.

Lemma child_inj h g x L p i j k c : (forall c, g_lay g c = Some L -> x_lo x c < x_hi x c) -> inter_ok h g x L p i ->
  (j <= in_nkeys i)%nat -> (k <= in_nkeys i)%nat -> in_child i j = Some c -> in_child i k = Some c -> j = k.
Proof.
  intros Hlt Hi Hj Hk Ej Ek. pose proof Hi as (_ & _ & C). pose proof (C j Hj) as Cj. pose proof (C k Hk) as Ck.
  unfold child_ok in Cj, Ck. rewrite Ej in Cj. rewrite Ek in Ck. destruct Cj as (Cl & _ & J1 & J2), Ck as (_ & _ & K1 & K2).
  pose proof (Hlt c Cl).
  destruct (lt_eq_lt_dec j k) as [[H1| ->]|H1]; auto; exfalso.
  - pose proof (bnd_mono h g x L p i Hlt Hi (S j) k ltac:(lia) ltac:(lia)). lia.
  - pose proof (bnd_mono h g x L p i Hlt Hi (S k) j ltac:(lia) ltac:(lia)). lia.
Qed.

Section Step.
Context (h : heap) (g : ghost) (L n child : nat) (x : Z) (height : nat).
Hypothesis HP : pend h g L n child x height.
Hypothesis HO : heap_ok h.
Let X := pexc g n child.
Let HS : SL h g X L := pd_sl _ _ _ _ _ _ _ HP.

Lemma ps_lt c : g_lay g c = Some L -> x_lo X c < x_hi X c.
Proof. apply (sl_lt h g X L HS). Qed.
Lemma ps_bounds c : g_lay g c = Some L -> 0 <= g_lo g c < g_hi g c /\ g_hi g c <= U64.
Proof. intros H. destruct (sl_node _ _ _ _ HS c H) as (? & ? & _ & _ & _ & A & B & _). auto. Qed.
Lemma ps_alloc c M nd : g_lay g c = Some M -> hp_node h c = Some nd -> (c < hp_next h)%nat.
Proof. intros _ E. apply (HO c nd E). Qed.

Lemma pend_root nn : hp_node h n = Some nn -> n_parent nn = None -> n = g_root g L.
Proof.
  intros E P. destruct (Nat.eq_dec n (g_root g L)) as [|N]; auto. exfalso.
  destruct (sl_up _ _ _ _ HS n nn (pd_n _ _ _ _ _ _ _ HP) E N) as (p & i & k & A & _); [|congruence].
  cbn. intros H. exact (pd_ne _ _ _ _ _ _ _ HP (eq_sym H)).
Qed.

Lemma pend_parent nn p : hp_node h n = Some nn -> n_parent nn = Some p ->
  n <> g_root g L /\ g_lay g p = Some L /\ exists ip kp, hp_node h p = Some (NInter ip) /\ inter_ok h g X L p ip /\
    (kp <= in_nkeys ip)%nat /\ in_child ip kp = Some n /\ in_upper ip x = Ok kp /\ (height < in_height ip)%nat /\
    bnd g p ip kp = g_lo g n /\ bnd g p ip (S kp) = g_hi g child.
Proof.
  intros E P. pose proof HP as [_ Pn Pc Pne [Px1 Px2] (nn' & Hn1 & Hn2 & _) _ Pcr]. assert (nn' = nn) by congruence. subst nn'.
  assert (N : n <> g_root g L).
  { intros EN. destruct (sl_root _ _ _ _ HS) as (_ & _ & _ & nr & A & B). rewrite <- EN in A. congruence. }
  destruct (sl_up _ _ _ _ HS n nn Pn E N) as (p' & ip & kp & A1 & A2 & A3 & _ & A4 & A5).
  { cbn. intros H. exact (Pne (eq_sym H)). }
  assert (p' = p) by congruence. subst p'. split; auto. split; auto. exists ip, kp.
  pose proof (sl_inter _ _ _ _ HS p ip A2 A3 (fun f => f)) as Hi. pose proof Hi as (_ & _ & C). specialize (C kp A4). unfold child_ok in C. rewrite A5 in C.
  destruct C as (_ & (nc & C1 & C2 & C3) & C4 & C5). cbn [X pexc x_lo x_hi] in C4, C5. rewrite upd_same in C5.
  assert (nc = nn) by congruence. subst nc. rewrite Hn2 in C3.
  pose proof (ps_bounds n Pn). pose proof (ps_bounds child Pc).
  pose proof (inter_upper_at h g X L p ip ps_lt Hi kp x A4 ltac:(lia)).
  split; [auto|split; [auto|split; [auto|split; [auto|split; [auto|split; [auto|split; auto]]]]]].
Qed.

Section Par.
Context (nn : node) (p : nat) (ip : inode) (kp : nat).
Hypothesis En : hp_node h n = Some nn.
Hypothesis Hnp : n_parent nn = Some p.
Hypothesis Hnr : n <> g_root g L.
Hypothesis Lp : g_lay g p = Some L.
Hypothesis Ep : hp_node h p = Some (NInter ip).
Hypothesis Hi : inter_ok h g X L p ip.
Hypothesis Hkp : (kp <= in_nkeys ip)%nat.
Hypothesis Ekp : in_child ip kp = Some n.
Hypothesis Hht : (height < in_height ip)%nat.
Hypothesis B1 : bnd g p ip kp = g_lo g n.
Hypothesis B2 : bnd g p ip (S kp) = g_hi g child.

Definition VK := vk kp x (in_keys ip).
Definition VC := vc kp child (in_child ip).
Definition vb (j : nat) : Z :=
  if (j =? 0)%nat then g_lo g p else if (j <=? S (in_nkeys ip))%nat then VK (j - 1) else g_hi g p.

Lemma vb_low j : (j <= kp)%nat -> vb j = bnd g p ip j.
Proof.
  intros H. unfold vb, bnd, VK, vk. ncase; auto.
Qed.
Lemma vb_high j : (S kp < j)%nat -> (j <= S (S (in_nkeys ip)))%nat -> vb j = bnd g p ip (j - 1).
Proof. intros H1 H2. unfold vb, bnd, VK, vk. ncase; auto; f_equal; lia. Qed.
Lemma vb_mid : vb (S kp) = x.
Proof. unfold vb, VK, vk. ncase; auto. Qed.

Lemma child_not_linked q i k : g_lay g q = Some L -> hp_node h q = Some (NInter i) -> (k <= in_nkeys i)%nat -> in_child i k <> Some child.
Proof.
  intros Lq Eq Hk E. destruct (sl_inter _ _ _ _ HS q i Lq Eq (fun f => f)) as (_ & _ & C). specialize (C k Hk). unfold child_ok in C. rewrite E in C.
  destruct C as (_ & (nc & C1 & C2 & _) & _). destruct (pd_hc _ _ _ _ _ _ _ HP) as (nc' & D1 & _ & D2 & _). congruence.
Qed.

Lemma vstate j : (j <= S (in_nkeys ip))%nat ->
  match VC j with
  | Some c => g_lay g c = Some L /\ (exists nc, hp_node h c = Some nc /\ (c = child \/ n_parent nc = Some p) /\ (ht nc < in_height ip)%nat) /\
      g_lo g c = vb j /\ g_hi g c = vb (S j) /\ c <> p /\ (c = child <-> j = S kp)
  | None => j = 0%nat /\ (0 < in_nkeys ip)%nat /\ (0 < kp)%nat /\ VK 0 = g_lo g p /\ 0 < g_lo g p
  end.
Proof.
  intros Hj. pose proof Hi as (_ & _ & C). pose proof HP as [_ Pn Pc Pne [Px1 Px2] _ (nc0 & Hc1 & Hc2 & Hc3 & _) Pcr].
  assert (OLD : forall k, (k <= in_nkeys ip)%nat -> k <> kp ->
    match in_child ip k with
    | Some c => g_lay g c = Some L /\ (exists nc, hp_node h c = Some nc /\ (c = child \/ n_parent nc = Some p) /\ (ht nc < in_height ip)%nat) /\
        g_lo g c = bnd g p ip k /\ g_hi g c = bnd g p ip (S k) /\ c <> p /\ c <> child
    | None => k = 0%nat /\ (0 < in_nkeys ip)%nat /\ in_keys ip 0%nat = g_lo g p /\ 0 < g_lo g p
    end).
  { intros k Hk Nk. specialize (C k Hk). unfold child_ok in C. destruct (in_child ip k) as [c|] eqn:E; auto.
    destruct C as (C1 & (nc & C2 & C3 & C4) & C5 & C6). split; auto. split; [eauto|].
    assert (c <> n). { intros ->. apply Nk. exact (child_inj h g X L p ip k kp n ps_lt Hi Hk Hkp E Ekp). }
    cbn [X pexc x_lo x_hi] in C5, C6. rewrite upd_other in C6 by auto. split; auto. split; auto. split.
    - intros ->. assert (nc = NInter ip) by congruence. subst. cbn [ht] in C4. lia.
    - intros ->. exact (child_not_linked p ip k Lp Ep Hk E). }
  assert (Nn : n <> p). { intros EN. destruct (pd_hn _ _ _ _ _ _ _ HP) as (nn2 & Q1 & Q2 & _). rewrite EN in Q1.
    assert (nn2 = NInter ip) by congruence. subst nn2. cbn [ht] in Q2. lia. }
  unfold VC, vc. destruct (Nat.leb_spec j kp) as [H1|H1].
  - destruct (Nat.eq_dec j kp) as [->|Nj].
    + rewrite Ekp. split; auto. split.
      { destruct (pd_hn _ _ _ _ _ _ _ HP) as (nn2 & Q1 & Q2 & _). exists nn. split; auto. split; auto. assert (nn2 = nn) by congruence. subst. lia. }
      rewrite (vb_low kp) by lia. rewrite vb_mid. split; auto. split; auto. split; auto. split; [congruence|lia].
    + pose proof (OLD j ltac:(lia) Nj) as O. destruct (in_child ip j) as [c|].
      * destruct O as (O1 & O2 & O3 & O4 & O5 & O6). rewrite (vb_low j), (vb_low (S j)) by lia.
        split; auto. split; auto. split; auto. split; auto. split; auto. split; [tauto|lia].
      * destruct O as (-> & O2 & O3 & O4). unfold VK, vk. ncase; auto.
  - destruct (Nat.eqb_spec j (S kp)) as [->|Nj].
    + split; auto. split; [exists nc0; split; auto; split; auto; lia|]. rewrite vb_mid, (vb_high (S (S kp))) by lia.
      replace (S (S kp) - 1)%nat with (S kp) by lia. split; auto. split; auto. split; [|tauto].
      intros E. rewrite E in Hc1. assert (nc0 = NInter ip) by congruence. subst nc0. cbn [ht] in Hc2. lia.
    + pose proof (OLD (j - 1)%nat ltac:(lia) ltac:(lia)) as O. destruct (in_child ip (j - 1)%nat) as [c|].
      * destruct O as (O1 & O2 & O3 & O4 & O5 & O6). rewrite (vb_high j), (vb_high (S j)) by lia.
        replace (S j - 1)%nat with (S (j - 1)) by lia. split; auto. split; auto. split; auto. split; auto. split; auto. split; [tauto|lia].
      * lia.
Qed.

Lemma VC_some j : (0 < j)%nat -> (j <= S (in_nkeys ip))%nat -> exists c, VC j = Some c.
Proof. intros H1 H2. pose proof (vstate j H2) as V. destruct (VC j); [eauto|lia]. Qed.
Lemma vb_step j : (j <= S (in_nkeys ip))%nat -> vb j <= vb (S j) /\ (VC j <> None -> vb j < vb (S j)).
Proof.
  intros H. pose proof (vstate j H) as V. destruct (VC j) as [c|].
  - destruct V as (V1 & _ & V2 & V3 & _). pose proof (ps_bounds c V1). split; intros; lia.
  - destruct V as (-> & V2 & V3 & V4 & _). split; [|congruence]. unfold vb. ncase. change (1 - 1)%nat with 0%nat. lia.
Qed.
Lemma vb_mono a b : (a <= b)%nat -> (b <= S (S (in_nkeys ip)))%nat -> vb a <= vb b.
Proof. intros H. induction H; intros; [lia|]. pose proof (vb_step m ltac:(lia)). lia. Qed.
(* In the old internode, children sit in the new sequence. *)
Lemma old_in_VC k c : (k <= in_nkeys ip)%nat -> in_child ip k = Some c -> exists j, (j <= S (in_nkeys ip))%nat /\ VC j = Some c /\ j <> S kp.
Proof.
  intros Hk E. destruct (le_lt_dec k kp).
  - exists k. split; [lia|]. split; [|lia]. unfold VC, vc. ncase. auto.
  - exists (S k). split; [lia|]. split; [|lia]. unfold VC, vc. ncase. replace (S k - 1)%nat with k by lia. auto.
Qed.

(* A node holding positions o .. o+N of the new sequence is a correct internode. *)
Lemma range_ok h' g' x' q i' o N :
  in_nkeys i' = N -> (N <= W)%nat -> (o + N <= S (in_nkeys ip))%nat -> in_deleted i' = false -> in_height i' = in_height ip ->
  (forall j, (j < N)%nat -> in_keys i' j = VK (o + j)) -> (forall j, (j <= N)%nat -> in_child i' j = VC (o + j)) ->
  (o = 0%nat -> 0 < N)%nat ->
  g_lo g' q = vb o -> g_hi g' q = vb (S (o + N)) ->
  (forall c, g_lay g c = Some L -> c <> p -> g_lay g' c = Some L /\ x_lo x' c = g_lo g c /\ x_hi x' c = g_hi g c) ->
  (forall j c nc, (o <= j <= o + N)%nat -> VC j = Some c -> hp_node h c = Some nc -> hp_node h' c = Some (n_set_parent (Some q) nc)) ->
  inter_ok h' g' x' L q i'.
Proof.
  intros HN HW Ho Hdel Hhh Hk Hc Ho0 Glo Ghi Gc Hset. split; [lia|]. split; auto. intros k Hk'. rewrite HN in Hk'.
  assert (BB : forall k, (k <= S N)%nat -> bnd g' q i' k = vb (o + k)).
  { intros k0 H0. unfold bnd. rewrite HN. destruct (Nat.eqb_spec k0 0) as [->|]; [rewrite Nat.add_0_r; auto|].
    destruct (Nat.leb_spec k0 N).
    - rewrite Hk by lia. unfold vb. ncase. f_equal. lia.
    - replace k0 with (S N) by lia. rewrite Ghi. f_equal. lia. }
  unfold child_ok. rewrite Hc by auto. pose proof (vstate (o + k) ltac:(lia)) as V. destruct (VC (o + k)) as [c|] eqn:E.
  - destruct V as (V1 & (nc & V2 & V3 & V4) & V5 & V6 & V7 & V8). destruct (Gc c V1 V7) as (G1 & G2 & G3).
    split; auto. split.
    + exists (n_set_parent (Some q) nc). rewrite nsp_parent, nsp_ht, Hhh. split; auto. apply (Hset (o + k)%nat); auto; lia.
    + rewrite !BB by lia. rewrite G2, G3. split; auto. rewrite V6. f_equal. lia.
  - destruct V as (V1 & V2 & V3 & V4 & V5). assert (o = 0%nat) by lia. assert (k = 0%nat) by lia. subst o k.
    split; auto. split; [rewrite HN; auto|]. rewrite Hk by auto. rewrite Glo. unfold vb. cbn [Nat.eqb]. auto.
Qed.

(* The common part of the cases that keep the root: p's contents, the parents of its new children and possibly a new
   internode a change. *)
Section Common.
Context (h' : heap) (g' : ghost) (x' : exc) (a : nat) (ip' : inode).
Hypothesis Ha : forall M, g_lay g a <> Some M.
Hypothesis Hap : hp_node h a = None.
Hypothesis E1 : hp_node h' p = Some (NInter ip').
Hypothesis E1h : in_height ip' = in_height ip.
Hypothesis E1p : in_parent ip' = in_parent ip.
Hypothesis E1r : ~ x_fl x' p -> in_root ip' = in_root ip.
Hypothesis E2 : forall m nd, g_lay g m = Some L -> m <> p -> hp_node h m = Some nd ->
  exists q, hp_node h' m = Some (n_set_parent q nd) /\ ((forall j, (j <= S (in_nkeys ip))%nat -> VC j <> Some m) -> q = n_parent nd).
Hypothesis E3 : forall m, g_lay g m <> Some L -> m <> a -> hp_node h' m = hp_node h m.
Hypothesis G1 : forall m, m <> a -> g_lay g' m = g_lay g m.
Hypothesis G2 : forall m, m <> a -> g_lo g' m = g_lo g m.
Hypothesis G3 : forall m, m <> a -> m <> p -> g_hi g' m = g_hi g m.
Hypothesis G4 : g_root g' L = g_root g L.
Hypothesis G5 : g_dead g' = g_dead g.
Hypothesis G6 : g_lo g p < g_hi g' p <= g_hi g p.
Hypothesis X1 : forall m, m <> a -> x_lo x' m = g_lo g m /\ x_hi x' m = g_hi g m.
Hypothesis X2 : forall m, ~ x_in x' m.
Hypothesis X3 : forall m, m <> a -> ~ x_up x' m.
Hypothesis X4 : forall m, x_fl x' m -> m = p.
Hypothesis HPok : inter_ok h' g' x' L p ip'.
Hypothesis HV : forall j c nc, (j <= S (in_nkeys ip))%nat -> VC j = Some c -> hp_node h' c = Some nc -> linked h' g' x' L c nc.
Hypothesis HA : g_lay g' a = Some L -> exists ia, hp_node h' a = Some (NInter ia) /\ inter_ok h' g' x' L a ia /\ in_root ia = false /\
  (in_height ia <= in_height ip)%nat /\ 0 <= g_lo g' a < g_hi g' a /\ g_hi g' a <= U64 /\ x_lo x' a < x_hi x' a /\
  (~ x_up x' a -> linked h' g' x' L a (NInter ia)).

Lemma cm_live m : g_lay g' m = Some L -> m <> a -> g_lay g m = Some L.
Proof. intros A N. rewrite G1 in A; auto. Qed.
Lemma cm_notchild m nd : g_lay g m = Some L -> m <> p -> hp_node h m = Some nd -> n_parent nd <> Some p -> m <> child ->
  (forall j, (j <= S (in_nkeys ip))%nat -> VC j <> Some m).
Proof.
  intros Lm Nm Em Np Nc j Hj E. pose proof (vstate j Hj) as V. rewrite E in V.
  destruct V as (_ & (nc & V1 & [V2|V2] & _) & _); [congruence|]. congruence.
Qed.
Lemma cm_node m nd : g_lay g m = Some L -> hp_node h m = Some nd -> exists nd', hp_node h' m = Some nd' /\ ht nd' = ht nd /\
  (n_parent nd <> Some p -> m <> child -> n_parent nd' = n_parent nd).
Proof.
  intros Lm Em. destruct (Nat.eq_dec m p) as [->|Nm].
  - exists (NInter ip'). assert (nd = NInter ip) by congruence. subst nd. cbn [ht n_parent]. auto.
  - destruct (E2 m nd Lm Nm Em) as (q & A & B). eexists. split; [exact A|]. rewrite nsp_ht, nsp_parent. split; auto.
    intros P Nc. apply B. exact (cm_notchild m nd Lm Nm Em P Nc).
Qed.
Lemma cm_inter m i : g_lay g m = Some L -> m <> p -> hp_node h' m = Some (NInter i) ->
  exists i0, hp_node h m = Some (NInter i0) /\ in_nkeys i0 = in_nkeys i /\ in_child i0 = in_child i /\ in_keys i0 = in_keys i /\ in_height i0 = in_height i /\ in_root i0 = in_root i /\ in_deleted i0 = in_deleted i.
Proof.
  intros Lm Nm Em. destruct (sl_node _ _ _ _ HS m Lm) as (nd & nr & N1 & _). destruct (E2 m nd Lm Nm N1) as (q & A & _).
  rewrite A in Em. destruct nd as [l|i0]; [discriminate|]. inversion Em. exists i0. subst i. cbn. repeat split; auto.
Qed.
Lemma cm_fresh m M : g_lay g m = Some M -> m <> a.
Proof. intros E ->. exact (Ha M E). Qed.

Lemma step_SL : SL h' g' x' L.
Proof.
  pose proof (sl_root _ _ _ _ HS) as (R1 & R2 & R3 & nr & R4 & R5).
  assert (Ra : g_root g L <> a) by (exact (cm_fresh _ _ R1)).
  assert (Rc : g_root g L <> child) by (intros E; exact (pd_cr _ _ _ _ _ _ _ HP (eq_sym E))).
  destruct (cm_node _ _ R1 R4) as (nr' & R4' & Rht & Rp).
  assert (Pnn : p <> n). { intros EN. destruct (pd_hn _ _ _ _ _ _ _ HP) as (nn2 & Q1 & Q2 & _). rewrite <- EN in Q1.
    assert (nn2 = NInter ip) by congruence. subst nn2. cbn [ht] in Q2. lia. }
  constructor.
  - destruct (sl_first _ _ _ _ HS) as (F1 & (l & F2) & F3). pose proof (cm_fresh _ _ F1) as Fa.
    rewrite G1, G2 by auto. split; auto. split; auto.
    assert (L <> p) by (intros ->; congruence). destruct (E2 L _ F1 H F2) as (q & A & _). cbn in A. eauto.
  - rewrite G4. rewrite G1 by auto. destruct (X1 _ Ra) as [Y1 Y2]. rewrite Y1, Y2.
    split; auto. split; auto. split.
    + cbn [X pexc x_hi] in R3. rewrite upd_other in R3; auto.
    + exists nr'. split; auto. rewrite Rp; auto. rewrite R5. discriminate.
  - intros m Lm. rewrite G4. destruct (Nat.eq_dec m a) as [->|Nm].
    + destruct (HA Lm) as (ia & A1 & _ & _ & A2 & A3 & A4 & A5 & _). exists (NInter ia), nr'. split; auto. split; auto. split; auto.
      cbn [ht]. destruct (sl_node _ _ _ _ HS p Lp) as (np & nr2 & P1 & P2 & P3 & _). assert (np = NInter ip) by congruence. assert (nr2 = nr) by congruence. subst. cbn [ht] in P3. lia.
    + pose proof (cm_live m Lm Nm) as Lm'. destruct (sl_node _ _ _ _ HS m Lm') as (nd & nr2 & P1 & P2 & P3 & P4 & P5 & P6).
      assert (nr2 = nr) by congruence. subst nr2. destruct (cm_node _ _ Lm' P1) as (nd' & Q1 & Q2 & _).
      exists nd', nr'. split; auto. split; auto. split; [lia|]. destruct (X1 _ Nm) as [Y1 Y2]. rewrite Y1, Y2, G2 by auto.
      destruct (Nat.eq_dec m p) as [->|]; [|rewrite G3 by auto]; lia.
  - intros q i Lq Eq Nq. destruct (Nat.eq_dec q a) as [->|Nqa].
    { destruct (HA Lq) as (ia & A1 & A2 & _). assert (ia = i) by congruence. subst. auto. }
    destruct (Nat.eq_dec q p) as [->|Nqp]. { assert (i = ip') by congruence. subst. auto. }
    pose proof (cm_live q Lq Nqa) as Lq'. destruct (cm_inter q i Lq' Nqp Eq) as (i0 & I1 & I2 & I3 & I4 & I5 & I6 & I7).
    destruct (sl_inter _ _ _ _ HS q i0 Lq' I1 (fun f => f)) as (C1 & C2 & C3).
    split; [lia|]. split; [congruence|]. intros k Hk. rewrite <- I2 in Hk. specialize (C3 k Hk). unfold child_ok in *.
    rewrite I3 in C3. assert (BB : forall k, bnd g' q i k = bnd g q i0 k).
    { intros k0. unfold bnd. rewrite <- I2, <- I4, G2, G3 by auto. auto. }
    rewrite !BB. destruct (in_child i k) as [c|] eqn:Ec.
    + destruct C3 as (D1 & (nc & D2 & D3 & D4) & D5 & D6).
      assert (Nca : c <> a) by (exact (cm_fresh _ _ D1)). rewrite G1 by auto. split; auto. destruct (X1 _ Nca) as [Y1 Y2]. rewrite Y1, Y2.
      assert (Ncc : c <> child). { intros ->. apply (child_not_linked q i0 k Lq' I1 Hk). rewrite I3. auto. }
      destruct (cm_node _ _ D1 D2) as (nc' & N1 & N2 & N3).
      split; [exists nc'; split; auto; split; [rewrite N3; [auto|rewrite D3; congruence|auto]|lia]|].
      cbn [X pexc x_lo x_hi] in D5, D6. rewrite upd_other in D6; auto. intros ->. congruence.
    + rewrite <- I2, <- I4, G2 by auto. auto.
  - intros m nd Lm Em Nr Nu. rewrite G4 in Nr. destruct (Nat.eq_dec m a) as [->|Nm].
    { destruct (HA Lm) as (ia & A1 & _ & _ & _ & _ & _ & _ & A2). assert (nd = NInter ia) by congruence. subst. auto. }
    pose proof (cm_live m Lm Nm) as Lm'.
    destruct (Nat.eq_dec m child) as [->|Nc].
    { apply (HV (S kp) child nd); auto; [lia|]. unfold VC, vc. ncase; try reflexivity. }
    destruct (sl_node _ _ _ _ HS m Lm') as (nd0 & _ & P1 & _).
    destruct (sl_up _ _ _ _ HS m nd0 Lm' P1 Nr) as (q & i & k & U1 & U2 & U3 & _ & U4 & U5). { cbn. intros H; exact (Nc (eq_sym H)). }
    destruct (Nat.eq_dec q p) as [->|Nq].
    + assert (i = ip) by congruence. subst i. destruct (old_in_VC k m U4 U5) as (j & J1 & J2 & _).
      apply (HV j m nd); auto.
    + destruct (cm_node _ _ Lm' P1) as (nd' & N1 & N2 & N3). assert (nd' = nd) by congruence. subst nd'.
      destruct (E2 q (NInter i) U2 Nq U3) as (pr & Q1 & _). cbn [n_set_parent] in Q1.
      exists q, (in_set_parent pr i), k. rewrite N3; [|congruence|auto]. split; auto. rewrite G1 by (exact (cm_fresh _ _ U2)).
      cbn. auto 10.
  - intros m i Lm Em Nf. rewrite G4. destruct (Nat.eq_dec m a) as [->|Nm].
    { destruct (HA Lm) as (ia & A1 & _ & A2 & _). assert (i = ia) by congruence. subst. rewrite A2. split; [discriminate|intros E; rewrite E in Ra; tauto]. }
    pose proof (cm_live m Lm Nm) as Lm'. destruct (Nat.eq_dec m p) as [->|Np].
    + assert (i = ip') by congruence. subst i. rewrite (E1r Nf). apply (sl_flag _ _ _ _ HS p ip); auto; cbn; auto.
    + destruct (cm_inter m i Lm' Np Em) as (i0 & I1 & _ & _ & _ & _ & I6 & _). rewrite <- I6.
      destruct (Nat.eq_dec m n) as [->|Nn].
      * destruct (pd_hn _ _ _ _ _ _ _ HP) as (nn2 & Q1 & Q2 & Q3). rewrite (Q3 i0) by congruence. split; [discriminate|tauto].
      * apply (sl_flag _ _ _ _ HS m i0); auto.
  - rewrite G5. intros m Dm. destruct (sl_dead _ _ _ _ HS m Dm) as (D0 & i & q & iq & D1 & D2 & D3 & D4 & D5 & D6).
    assert (Nma : m <> a) by (intros ->; congruence). rewrite G1 by auto. split; auto.
    rewrite E3 by (auto; congruence). exists i, q.
    assert (Nqa : q <> a) by (intros ->; congruence).
    destruct (Nat.eq_dec q p) as [->|Nq].
    + exists ip'. assert (iq = ip) by congruence. subst. rewrite G1 by auto. repeat split; auto. lia.
    + destruct (g_lay g q) as [M|] eqn:Lq.
      * destruct D6 as [D6|D6]; [|destruct (sl_dead _ _ _ _ HS q D6); congruence]. assert (M = L) by congruence. subst M.
        destruct (E2 q _ Lq Nq D4) as (pr & Q1 & _). cbn [n_set_parent] in Q1. exists (in_set_parent pr iq). rewrite G1 by auto. cbn. auto 10.
      * exists iq. rewrite G1, (E3 q) by (auto; congruence). rewrite Lq. auto 10.
Qed.
End Common.

Lemma VC_inj j k c : (j <= S (in_nkeys ip))%nat -> (k <= S (in_nkeys ip))%nat -> VC j = Some c -> VC k = Some c -> j = k.
Proof.
  intros Hj Hk Ej Ek. pose proof (vstate j Hj) as Vj. pose proof (vstate k Hk) as Vk. rewrite Ej in Vj. rewrite Ek in Vk.
  destruct Vj as (Lc & _ & J1 & J2 & _), Vk as (_ & _ & K1 & K2 & _). pose proof (ps_bounds c Lc).
  destruct (lt_eq_lt_dec j k) as [[H1| ->]|H1]; auto; exfalso.
  - pose proof (vb_mono (S j) k ltac:(lia) ltac:(lia)). lia.
  - pose proof (vb_mono (S k) j ltac:(lia) ltac:(lia)). lia.
Qed.
Lemma nsp_id q nd : n_parent nd = q -> n_set_parent q nd = nd.
Proof. destruct nd as [[]|[]]; cbn; intros <-; reflexivity. Qed.
Lemma par_ne : n <> p /\ child <> p.
Proof.
  split; intros E.
  - destruct (pd_hn _ _ _ _ _ _ _ HP) as (nn2 & Q1 & Q2 & _). rewrite E in Q1. assert (nn2 = NInter ip) by congruence. subst nn2. cbn [ht] in Q2. lia.
  - destruct (pd_hc _ _ _ _ _ _ _ HP) as (nn2 & Q1 & Q2 & _). rewrite E in Q1. assert (nn2 = NInter ip) by congruence. subst nn2. cbn [ht] in Q2. lia.
Qed.
Lemma VC_child : VC (S kp) = Some child.
Proof. unfold VC, vc. ncase; try reflexivity. Qed.

Hypothesis HF : forall m M, g_lay g m = Some M -> (m < hp_next h)%nat.
Let a := hp_next h.
Lemma a_dead M : g_lay g a <> Some M. Proof. intros E. apply HF in E. unfold a in E. lia. Qed.
Lemma a_none : hp_node h a = None.
Proof. destruct (hp_node h a) eqn:E; auto. apply HO in E. unfold a in E. lia. Qed.
Lemma a_lay : g_lay g a = None.
Proof. destruct (g_lay g a) eqn:E; auto. destruct (a_dead _ E). Qed.

(* Insertion into a parent with room. *)
Lemma step_I ncd : hp_node h child = Some ncd -> (in_nkeys ip < W)%nat ->
  let i2 := in_set_nkeys (S (in_nkeys ip)) (in_assign kp x child (in_shift_up (kp + 1) kp (in_nkeys ip - kp) ip)) in
  let h' := hset (hset h child (n_set_parent (Some p) ncd)) p (NInter i2) in
  SL h' g (noexc g) L /\ sframe h g h' g L /\ heap_ok h'.
Proof.
  intros Ec Hn i2 h'. destruct par_ne as [Nnp Ncp]. pose proof a_none as An.
  assert (Np : hp_node h' p = Some (NInter i2)) by apply hset_same.
  assert (Nc : hp_node h' child = Some (n_set_parent (Some p) ncd)). { unfold h'. rewrite hset_other by auto. apply hset_same. }
  assert (No : forall m, m <> p -> m <> child -> hp_node h' m = hp_node h m).
  { intros m A B. unfold h'. rewrite !hset_other; auto. }
  assert (Hset : forall j c nc, (j <= S (in_nkeys ip))%nat -> VC j = Some c -> hp_node h c = Some nc -> hp_node h' c = Some (n_set_parent (Some p) nc)).
  { intros j c nc Hj E Enc. pose proof (vstate j Hj) as V. rewrite E in V. destruct V as (_ & (nc' & V1 & V2 & _) & _ & _ & V3 & _).
    assert (nc' = nc) by congruence. subst nc'. destruct (Nat.eq_dec c child) as [->|Ne].
    - rewrite Nc. congruence.
    - rewrite No by auto. rewrite nsp_id; auto. destruct V2; [tauto|auto]. }
  destruct (insert_arrays ip kp x child (in_nkeys ip) Hkp) as [K1 K2].
  assert (OK : inter_ok h' g (noexc g) L p i2).
  { apply (range_ok h' g (noexc g) p i2 0 (S (in_nkeys ip))); auto; try lia.
    - apply Hi.
    - unfold vb. ncase; auto.
    - intros j c nc Hj. apply Hset. lia. }
  assert (S' : SL h' g (noexc g) L).
  { apply (step_SL h' g (noexc g) a i2); auto; try (cbn; tauto).
    - apply a_dead.
    - intros m nd Lm Nm Em. destruct (Nat.eq_dec m child) as [->|Ne].
      + assert (nd = ncd) by congruence. subst nd. exists (Some p). split; auto. intros Q. destruct (Q (S kp) ltac:(lia) VC_child).
      + exists (n_parent nd). rewrite (nsp_id _ nd eq_refl), No by auto. auto.
    - intros m Lm Na. apply No; intros E; apply Lm; rewrite E; auto. apply HP.
    - pose proof (ps_bounds p Lp). lia.
    - intros j c nc Hj E Enc. pose proof (vstate j Hj) as V. rewrite E in V. destruct V as (V0 & (nc' & V1 & _) & _).
      rewrite (Hset j c nc' Hj E V1) in Enc. inversion Enc. subst nc. exists p, i2, j. rewrite nsp_parent. cbn.
      split; auto. split; auto. split; auto. split; auto. split; auto. etransitivity; [apply K2; auto|exact E].
    - intros E. destruct (a_dead _ E). }
  split; auto. split.
  - constructor; auto.
    + intros m l Em. destruct (Nat.eq_dec m child) as [->|]; [|exists (lf_parent l); rewrite No; auto; [rewrite Em; destruct l; auto|congruence]].
      assert (ncd = NLeaf l) by congruence. subst. exists (Some p). auto.
    + intros m i Em. destruct (Nat.eq_dec m p) as [->|]; [exists i2; split; auto; cbn; congruence|]. destruct (Nat.eq_dec m child) as [->|]; [|exists i; rewrite No; auto].
      assert (ncd = NInter i) by congruence. subst. rewrite Nc. eexists; split; reflexivity.
    + intros m Lm _. apply No; intros E; apply Lm; rewrite E; auto. apply HP.
    + intros m. cbn. intros. lia.
    + intros m. cbn. intros Hm. destruct (g_lay g m) eqn:E; auto. apply HF in E. lia.
  - intros m nd Em. change (hp_next h') with (hp_next h). destruct (Nat.eq_dec m p) as [->|].
    + assert (nd = NInter i2) by congruence. subst. exact (HO p _ Ep).
    + destruct (Nat.eq_dec m child) as [->|].
      * assert (nd = n_set_parent (Some p) ncd) by congruence. subst. rewrite nsp_ht. exact (HO child _ Ec).
      * rewrite No in Em by auto. exact (HO m _ Em).
Qed.

(* A new internode between n and a parent more than one level up. *)
Lemma step_M ncd : hp_node h child = Some ncd -> (S height < in_height ip)%nat ->
  let i := in_set_parent (Some p) (in_set_nkeys 1 (in_assign 0 x child (in_set_child 0 (Some n) (inter_fresh (S height))))) in
  forall h', hp_next h' = S a ->
  (hp_node h' a = Some (NInter i)) -> (hp_node h' p = Some (NInter (in_set_child kp (Some a) ip))) ->
  (hp_node h' n = Some (n_set_parent (Some a) nn)) -> hp_node h' child = Some (n_set_parent (Some a) ncd) ->
  (forall m, m <> a -> m <> p -> m <> n -> m <> child -> hp_node h' m = hp_node h m) ->
  exists g', SL h' g' (noexc g') L /\ sframe h g h' g' L /\ heap_ok h'.
Proof.
  intros Ec Hh i h' Hnx Na Np Nn Nc No. destruct par_ne as [Nnp Ncp]. pose proof a_none as An. pose proof a_lay as Al.
  pose proof HP as [_ Pn Pc Pne [Px1 Px2] (nn' & Hn1 & Hn2 & _) (nc' & Hc1 & Hc2 & Hc3 & _) Pcr].
  assert (nn' = nn) by congruence. assert (nc' = ncd) by congruence. subst nn' nc'.
  assert (Apn : p <> a /\ n <> a /\ child <> a) by (repeat split; intros E; rewrite E in *; congruence). destruct Apn as (Apa & Ana & Aca).
  set (g' := MkG (upd (g_lay g) a (Some L)) (upd (g_lo g) a (g_lo g n)) (upd (g_hi g) a (g_hi g child)) (g_root g) (g_pre g) (g_dead g)).
  assert (GL : forall m, m <> a -> g_lay g' m = g_lay g m /\ g_lo g' m = g_lo g m /\ g_hi g' m = g_hi g m).
  { intros m Hm. cbn. rewrite !upd_other by auto. auto. }
  assert (GL1 : forall m, m <> a -> g_lay g m = Some L -> g_lay g' m = Some L) by (intros m Hm E; rewrite (proj1 (GL m Hm)); auto).
  pose proof (ps_bounds n Pn) as Bn. pose proof (ps_bounds child Pc) as Bc.
  assert (OA : inter_ok h' g' (noexc g') L a i).
  { split; [cbn; pose proof W_eq; lia|]. split; auto. intros k Hk. cbn in Hk.
    assert (KK : k = 0%nat \/ k = 1%nat) by lia. unfold child_ok. destruct KK as [-> | ->].
    - change (in_child i 0) with (Some n). split; [apply GL1; auto|]. split.
      + exists (n_set_parent (Some a) nn). rewrite nsp_parent, nsp_ht. cbn. split; auto. split; auto. lia.
      + cbn [noexc x_lo x_hi]. unfold bnd. cbn. rewrite upd_same, !upd_other by auto. auto.
    - change (in_child i 1) with (Some child). split; [apply GL1; auto|]. split.
      + exists (n_set_parent (Some a) ncd). rewrite nsp_parent, nsp_ht. cbn. split; auto. split; auto. lia.
      + cbn [noexc x_lo x_hi]. unfold bnd. cbn. rewrite upd_same, !upd_other by auto. auto. }
  assert (OP : inter_ok h' g' (noexc g') L p (in_set_child kp (Some a) ip)).
  { pose proof Hi as (I1 & I2 & I3). split; auto. split; auto. intros k Hk. cbn in Hk. unfold child_ok.
    assert (BB : forall k, bnd g' p (in_set_child kp (Some a) ip) k = bnd g p ip k).
    { intros k0. unfold bnd. cbn. rewrite !upd_other by auto. auto. }
    rewrite !BB. cbn [in_set_child in_child]. destruct (Nat.eq_dec k kp) as [->|Nk].
    - rewrite upd_same. cbn. rewrite !upd_same. split; auto. split; auto. eexists. split; [exact Na|]. cbn. split; auto.
    - rewrite upd_other by auto. specialize (I3 k Hk). unfold child_ok in I3. destruct (in_child ip k) as [c|] eqn:E.
      + destruct I3 as (J1 & (nc & J2 & J3 & J4) & J5 & J6).
        assert (c <> n). { intros ->. apply Nk. exact (child_inj h g X L p ip k kp n ps_lt Hi Hk Hkp E Ekp). }
        assert (c <> child) by (intros ->; exact (child_not_linked p ip k Lp Ep Hk E)).
        assert (c <> a) by (intros ->; congruence).
        assert (c <> p). { intros ->. assert (nc = NInter ip) by congruence. subst nc. cbn in J4. lia. }
        cbn [noexc x_lo x_hi]. destruct (GL c H1) as (Q1 & Q2 & Q3). rewrite Q1, Q2, Q3. split; auto. split.
        * exists nc. rewrite No by auto. auto.
        * cbn [X pexc x_lo x_hi] in J5, J6. rewrite upd_other in J6 by auto. auto.
      + cbn [in_set_child in_keys in_nkeys]. destruct (GL p Apa) as (_ & Q2 & _). rewrite Q2. auto. }
  assert (S' : SL h' g' (noexc g') L).
  { apply (step_SL h' g' (noexc g') a (in_set_child kp (Some a) ip)); auto; try (intros m Hm; apply GL; auto); try (cbn; tauto).
    - apply a_dead.
    - intros m nd Lm Nm Em. destruct (Nat.eq_dec m n) as [->|Ne].
      { assert (nd = nn) by congruence. subst nd. exists (Some a). split; auto. intros Q. destruct (Q kp ltac:(lia)). unfold VC, vc. ncase. auto. }
      destruct (Nat.eq_dec m child) as [->|Ne'].
      + assert (nd = ncd) by congruence. subst nd. exists (Some a). split; auto. intros Q. destruct (Q (S kp) ltac:(lia) VC_child).
      + exists (n_parent nd). rewrite (nsp_id _ nd eq_refl), No; auto. intros ->. congruence.
    - intros m Lm Nm. apply No; auto; intros E; apply Lm; rewrite E; auto.
    - intros m Hm _. apply GL; auto.
    - destruct (GL p Apa) as (_ & _ & Q3). rewrite Q3. pose proof (ps_bounds p Lp). lia.
    - intros j c nc Hj E Enc. pose proof (vstate j Hj) as V. rewrite E in V. destruct V as (V0 & (nc1 & V1 & V2 & _) & _ & _ & V3 & V4).
      destruct (Nat.eq_dec c child) as [->|Ncc].
      { exists a, i, 1%nat. assert (nc = n_set_parent (Some a) ncd) by congruence. subst nc. rewrite nsp_parent. cbn. rewrite upd_same. auto 10. }
      destruct (Nat.eq_dec c n) as [->|Ncn].
      { exists a, i, 0%nat. assert (nc = n_set_parent (Some a) nn) by congruence. subst nc. rewrite nsp_parent. cbn. rewrite upd_same. auto 10. }
      rewrite No in Enc by (auto; intros ->; congruence). assert (nc1 = nc) by congruence. subst nc1. destruct V2 as [V2|V2]; [tauto|].
      exists p, (in_set_child kp (Some a) ip). unfold VC, vc in E. assert (Njk : j <> kp). { intros ->. revert E. ncase. rewrite Ekp. congruence. }
      destruct (Nat.leb_spec j kp).
      + exists j. split; auto. split; [apply GL1; auto|]. split; auto. split; [cbn; tauto|]. cbn. rewrite upd_other by auto. split; [lia|auto].
      + destruct (Nat.eqb_spec j (S kp)); [congruence|]. exists (j - 1)%nat. split; auto. split; [apply GL1; auto|]. split; auto. split; [cbn; tauto|].
        cbn. rewrite upd_other by lia. split; [lia|auto].
    - intros _. exists i. split; auto. split; auto. split; auto. split; [cbn; lia|]. cbn. rewrite !upd_same. split; [lia|]. split; [lia|]. split; [lia|]. intros _.
      exists p, (in_set_child kp (Some a) ip), kp. cbn. split; auto. split; [rewrite upd_other; auto|]. split; auto. split; [tauto|]. split; auto. apply upd_same. }
  exists g'. split; auto. split.
  - constructor; auto.
    + rewrite Hnx. unfold a. lia.
    + intros m l Em. destruct (Nat.eq_dec m n) as [->|]; [assert (nn = NLeaf l) by congruence; subst; exists (Some a); rewrite Nn; auto|].
      destruct (Nat.eq_dec m child) as [->|]; [assert (ncd = NLeaf l) by congruence; subst; exists (Some a); rewrite Nc; auto|].
      exists (lf_parent l). rewrite No; auto; try congruence; try (intros ->; congruence). rewrite Em; destruct l; auto.
    + intros m j Em. destruct (Nat.eq_dec m p) as [->|]; [eexists; split; [eauto|cbn; congruence]|].
      destruct (Nat.eq_dec m n) as [->|]; [assert (nn = NInter j) by congruence; subst; rewrite Nn; eexists; split; reflexivity|].
      destruct (Nat.eq_dec m child) as [->|]; [assert (ncd = NInter j) by congruence; subst; rewrite Nc; eexists; split; reflexivity|].
      exists j. rewrite No; auto. intros ->; congruence.
    + intros m Lm Hm. apply No; auto; try (intros E; apply Lm; rewrite E; solve [auto]). intros ->. unfold a in Hm. lia.
    + intros m Hm. rewrite Hnx in Hm. assert (m = a) by (unfold a in *; lia). subst m. split; eauto. cbn. apply upd_same.
    + intros m Hm. apply GL. unfold a; lia.
    + intros m Hm. rewrite Hnx in Hm. destruct (GL m ltac:(lia)) as (Q & _). rewrite Q. destruct (g_lay g m) eqn:E; auto. apply HF in E. unfold a in Hm; lia.
    + intros m Hm. apply GL. unfold a; lia.
    + intros m l Hm _. apply GL. unfold a; lia.
    + intros m Hm _. apply GL. unfold a; lia.
  - intros m nd Em. rewrite Hnx. destruct (Nat.eq_dec m a) as [->|Nma].
    { assert (nd = NInter i) by congruence. subst. cbn. pose proof (HO _ _ Hc1). unfold a. lia. }
    destruct (Nat.eq_dec m p) as [->|].
    { assert (nd = NInter (in_set_child kp (Some a) ip)) by congruence. subst. pose proof (HO p _ Ep). cbn in *. unfold a. lia. }
    destruct (Nat.eq_dec m n) as [->|].
    { assert (nd = n_set_parent (Some a) nn) by congruence. subst. rewrite nsp_ht. pose proof (HO n _ En). unfold a. lia. }
    destruct (Nat.eq_dec m child) as [->|].
    { assert (nd = n_set_parent (Some a) ncd) by congruence. subst. rewrite nsp_ht. pose proof (HO child _ Ec). unfold a. lia. }
    rewrite No in Em by auto. pose proof (HO m _ Em). unfold a. lia.
Qed.

Lemma fn_dec (f : nat -> option nat) m : forall N, (exists j, (j <= N)%nat /\ f j = Some m) \/ (forall j, (j <= N)%nat -> f j <> Some m).
Proof.
  assert (D : forall k, f k = Some m \/ f k <> Some m).
  { intros k. destruct (f k) as [c|]; [destruct (Nat.eq_dec c m); [subst; auto|right; congruence]|right; discriminate]. }
  induction N as [|N [(j & H1 & H2)|IH]].
  - destruct (D 0%nat); [left; exists 0%nat; auto|]. right. intros j Hj. replace j with 0%nat by lia. auto.
  - left. exists j. auto.
  - destruct (D (S N)); [left; exists (S N); auto|]. right. intros j Hj. destruct (Nat.eq_dec j (S N)) as [->|]; auto. apply IH. lia.
Qed.

(* Splitting a full parent. *)
Lemma step_S mid sk ipl ipr h' : (1 <= mid <= W)%nat -> in_nkeys ip = W -> in_height ip = S height -> sk = VK mid ->
  hp_next h' = S a -> hp_node h' a = Some (NInter ipr) -> hp_node h' p = Some (NInter ipl) ->
  in_nkeys ipl = mid -> in_height ipl = S height -> in_parent ipl = in_parent ip -> in_root ipl = false -> in_deleted ipl = false ->
  (forall j, (j < mid)%nat -> in_keys ipl j = VK j) -> (forall j, (j <= mid)%nat -> in_child ipl j = VC j) ->
  in_nkeys ipr = (W - mid)%nat -> in_height ipr = S height -> in_parent ipr = None -> in_root ipr = false -> in_deleted ipr = false ->
  (forall j, (j < W - mid)%nat -> in_keys ipr j = VK (mid + 1 + j)) -> (forall j, (j <= W - mid)%nat -> in_child ipr j = VC (mid + 1 + j)) ->
  (forall j c nc, (j <= mid)%nat -> VC j = Some c -> hp_node h c = Some nc -> hp_node h' c = Some (n_set_parent (Some p) nc)) ->
  (forall j c nc, (mid + 1 <= j <= S W)%nat -> VC j = Some c -> hp_node h c = Some nc -> hp_node h' c = Some (n_set_parent (Some a) nc)) ->
  (forall m, m <> a -> m <> p -> (forall j, (j <= S W)%nat -> VC j <> Some m) -> hp_node h' m = hp_node h m) ->
  exists g', pend h' g' L p a sk (S height) /\ sframe h g h' g' L /\ heap_ok h' /\ g_root g' L = g_root g L.
Proof.
  intros Hmid HNK Hh Hsk Hnx Na Np L1 L2 L3 L4 L5 L6 L7 R1 R2 R3 R4 R5 R6 R7 S1 S2 No.
  pose proof a_none as An. pose proof a_lay as Al. destruct par_ne as [Nnp Ncp].
  assert (Apa : p <> a) by (intros E; rewrite E in *; congruence).
  assert (HA0 : forall c, g_lay g c = Some L -> c <> a) by (intros c Lc ->; congruence).
  assert (V1' : forall j, (0 < j)%nat -> (j <= S W)%nat -> VC j <> None).
  { intros j J1 J2. destruct (VC_some j J1 ltac:(lia)) as (c & E). congruence. }
  assert (SK : sk = vb (S mid)). { subst sk. unfold vb. ncase. rewrite Nat.sub_succ, Nat.sub_0_r. auto. }
  assert (SK1 : g_lo g p < sk).
  { rewrite SK. pose proof (vb_mono 0 mid ltac:(lia) ltac:(lia)) as M. pose proof (proj2 (vb_step mid ltac:(lia)) (V1' mid ltac:(lia) ltac:(lia))). unfold vb at 1 in M. cbn [Nat.eqb] in M. lia. }
  assert (SK2 : sk < g_hi g p).
  { rewrite SK. pose proof (proj2 (vb_step (S mid) ltac:(lia)) (V1' (S mid) ltac:(lia) ltac:(lia))).
    pose proof (vb_mono (S (S mid)) (S (S W)) ltac:(lia) ltac:(lia)) as M. unfold vb in M at 2. revert M. ncase; lia. }
  pose proof (ps_bounds p Lp) as Bp.
  set (g' := MkG (upd (g_lay g) a (Some L)) (upd (g_lo g) a sk) (upd (upd (g_hi g) a (g_hi g p)) p sk) (g_root g) (g_pre g) (g_dead g)).
  assert (GL : forall m, m <> a -> g_lay g' m = g_lay g m /\ g_lo g' m = g_lo g m /\ (m <> p -> g_hi g' m = g_hi g m)).
  { intros m Hm. cbn. rewrite !upd_other by auto. split; auto. split; auto. intros. rewrite !upd_other; auto. }
  assert (Ga : g_lay g' a = Some L /\ g_lo g' a = sk /\ g_hi g' a = g_hi g p).
  { cbn. rewrite !upd_same. split; auto. split; auto. rewrite upd_other by auto. apply upd_same. }
  destruct Ga as (Ga1 & Ga2 & Ga3).
  assert (Gp : g_hi g' p = sk) by (cbn; apply upd_same).
  set (x' := pexc g' p a).
  assert (GX : forall m, m <> a -> x_lo x' m = g_lo g m /\ x_hi x' m = g_hi g m).
  { intros m Hm. unfold x'. cbn [pexc x_lo x_hi]. destruct (GL m Hm) as (_ & Q2 & Q3). split; auto.
    destruct (Nat.eq_dec m p) as [->|Ne]; [rewrite upd_same; auto|rewrite upd_other by auto; auto]. }
  assert (GC : forall c, g_lay g c = Some L -> c <> p -> g_lay g' c = Some L /\ x_lo x' c = g_lo g c /\ x_hi x' c = g_hi g c).
  { intros c Lc _. split; [|apply GX; auto]. destruct (GL c (HA0 c Lc)) as (Q & _). rewrite Q. auto. }
  assert (OL : inter_ok h' g' x' L p ipl).
  { apply (range_ok h' g' x' p ipl 0 mid); auto; try lia.
    - destruct (GL p Apa) as (_ & Q & _). rewrite Q. reflexivity.
    - rewrite Gp. auto.
    - intros j c nc Hj. apply (S1 j). lia. }
  assert (OR : inter_ok h' g' x' L a ipr).
  { apply (range_ok h' g' x' a ipr (mid + 1) (W - mid)); auto; try lia.
    - rewrite Ga2, SK. f_equal. lia.
    - rewrite Ga3. unfold vb. ncase; auto.
    - intros j c nc Hj. apply (S2 j). lia. }
  assert (S' : SL h' g' x' L).
  { apply (step_SL h' g' x' a ipl); auto.
    - apply a_dead.
    - lia.
    - cbn. tauto.
    - intros m nd Lm Nm Em. destruct (fn_dec VC m (S W)) as [(j & J1 & J2)|D].
      + exists (if (j <=? mid)%nat then Some p else Some a). split.
        * destruct (Nat.leb_spec j mid); [apply (S1 j)|apply (S2 j)]; auto; lia.
        * intros Q. destruct (Q j); auto. lia.
      + exists (n_parent nd). rewrite (nsp_id _ nd eq_refl), No; auto.
    - intros m Lm Nm. apply No; auto; [intros ->; auto|]. intros j Hj E. pose proof (vstate j ltac:(lia)) as V. rewrite E in V. destruct V as (V & _). congruence.
    - intros m Hm. apply GL; auto.
    - intros m Hm. apply GL; auto.
    - intros m Hm Hm'. apply GL; auto.
    - rewrite Gp. lia.
    - intros j c nc Hj E Enc. pose proof (vstate j Hj) as V. rewrite E in V. destruct V as (V0 & (nc' & V1 & _) & _).
      destruct (le_lt_dec j mid) as [J|J].
      + rewrite (S1 j c nc' J E V1) in Enc. inversion Enc. subst nc. exists p, ipl, j. rewrite nsp_parent.
        split; auto. split; [destruct (GL p Apa) as (Q & _); rewrite Q; auto|]. split; auto. split; [cbn; tauto|]. split; [lia|]. rewrite L7 by lia. auto.
      + rewrite (S2 j c nc' ltac:(lia) E V1) in Enc. inversion Enc. subst nc. exists a, ipr, (j - (mid + 1))%nat. rewrite nsp_parent.
        split; auto. split; auto. split; auto. split; [cbn; tauto|]. split; [lia|]. rewrite R7 by lia. rewrite <- E. f_equal. lia.
    - intros _. exists ipr. rewrite Ga2, Ga3. split; auto. split; auto. split; auto. split; [lia|]. split; [lia|]. split; [lia|].
      split; [|intros Q; destruct Q; reflexivity]. unfold x'. cbn [pexc x_lo x_hi]. rewrite upd_other by auto. rewrite Ga2, Ga3. auto. }
  exists g'. split; [|split; [|split]].
  - constructor; auto.
    + destruct (GL p Apa) as (Q & _). rewrite Q. auto.
    + exists (NInter ipl). split; auto. split; auto. intros i E. inversion E. congruence.
    + exists (NInter ipr). split; auto. split; auto. split; auto. intros i E. inversion E. congruence.
    + destruct (sl_root _ _ _ _ HS) as (Q & _). intros E. exact (HA0 _ Q (eq_sym E)).
  - assert (OTH : forall m nd, m <> p -> hp_node h m = Some nd -> exists q, hp_node h' m = Some (n_set_parent q nd)).
    { intros m nd Nm Em. destruct (fn_dec VC m (S W)) as [(j & J1 & J2)|D].
      + exists (if (j <=? mid)%nat then Some p else Some a). destruct (Nat.leb_spec j mid); [apply (S1 j)|apply (S2 j)]; auto; lia.
      + exists (n_parent nd). rewrite (nsp_id _ nd eq_refl), No; auto. intros ->. congruence. }
    constructor; auto.
    + rewrite Hnx. unfold a. lia.
    + intros m l Em. destruct (OTH m _ ltac:(congruence) Em) as (q & E). cbn in E. eauto.
    + intros m i Em. destruct (Nat.eq_dec m p) as [->|Nm]; [exists ipl; split; [auto|congruence]|]. destruct (OTH m _ Nm Em) as (q & E). cbn in E. eexists; split; [exact E|reflexivity].
    + intros m Lm Hm. apply No; [unfold a; lia|intros ->; auto|]. intros j Hj E. pose proof (vstate j ltac:(lia)) as V. rewrite E in V. destruct V as (V & _). congruence.
    + intros m Hm. rewrite Hnx in Hm. assert (m = a) by (unfold a in *; lia). subst m. split; eauto.
    + intros m Hm. apply GL. unfold a; lia.
    + intros m Hm. rewrite Hnx in Hm. destruct (GL m ltac:(lia)) as (Q & _). rewrite Q. destruct (g_lay g m) eqn:E; auto. apply HF in E. unfold a in Hm; lia.
    + intros m Hm. apply GL. unfold a; lia.
    + intros m l Hm Q. apply GL; [unfold a; lia|]. intros ->. congruence.
    + intros m Hm Q. apply GL; [unfold a; lia|]. intros ->. auto.
  - intros m nd Em. rewrite Hnx. destruct (Nat.eq_dec m a) as [->|Nma].
    { assert (nd = NInter ipr) by congruence. subst nd. cbn. destruct (pd_hn _ _ _ _ _ _ _ HP) as (nn2 & Q1 & Q2 & _). pose proof (HO _ _ Q1). unfold a. lia. }
    destruct (Nat.eq_dec m p) as [->|Nmp].
    { assert (nd = NInter ipl) by congruence. subst nd. pose proof (HO p _ Ep). cbn in *. unfold a. lia. }
    destruct (fn_dec VC m (S W)) as [(j & J1 & J2)|D].
    + pose proof (vstate j ltac:(lia)) as V. rewrite J2 in V. destruct V as (_ & (nc & V1 & _) & _). pose proof (HO m _ V1).
      assert (E : exists q, nd = n_set_parent q nc).
      { destruct (le_lt_dec j mid); [rewrite (S1 j m nc) in Em by (auto; lia)|rewrite (S2 j m nc) in Em by (auto; lia)]; inversion Em; eauto. }
      destruct E as (q & ->). rewrite nsp_ht. unfold a. lia.
    + rewrite No in Em by auto. pose proof (HO m _ Em). unfold a. lia.
  - reflexivity.
Qed.
End Par.

Hypothesis HF : forall m M, g_lay g m = Some M -> (m < hp_next h)%nat.

(* A new root. *)
Lemma step_R nn ncd h' : let a := hp_next h in hp_node h n = Some nn -> n_parent nn = None -> hp_node h child = Some ncd ->
  let i := in_set_root true (in_set_nkeys 1 (in_assign 0 x child (in_set_child 0 (Some n) (inter_fresh (S height))))) in
  hp_next h' = S a -> hp_node h' a = Some (NInter i) ->
  hp_node h' n = Some (n_set_parent (Some a) nn) -> hp_node h' child = Some (n_set_parent (Some a) ncd) ->
  (forall m, m <> a -> m <> n -> m <> child -> hp_node h' m = hp_node h m) ->
  exists g', SL h' g' (noexc g') L /\ sframe h g h' g' L /\ heap_ok h'.
Proof.
  intros a En Hnp Ec i Hnx Na Nn Nc No. pose proof (pend_root nn En Hnp) as Hroot.
  pose proof HP as [_ Pn Pc Pne [Px1 Px2] (nn' & Hn1 & Hn2 & Hn3) (nc' & Hc1 & Hc2 & Hc3 & Hc4) Pcr].
  assert (nn' = nn) by congruence. assert (nc' = ncd) by congruence. subst nn' nc'.
  assert (HA0 : forall c M, g_lay g c = Some M -> c <> a) by (intros c M Lc ->; apply HF in Lc; unfold a in Lc; lia).
  assert (An : hp_node h a = None) by (destruct (hp_node h a) eqn:E; auto; apply HO in E; unfold a in E; lia).
  assert (Al : g_lay g a = None) by (destruct (g_lay g a) eqn:E; auto; destruct (HA0 _ _ E eq_refl)).
  pose proof (HA0 _ _ Pn) as Ana. pose proof (HA0 _ _ Pc) as Aca.
  destruct (sl_root _ _ _ _ HS) as (_ & R2 & R3 & _). cbn [X pexc x_lo x_hi] in R2, R3. rewrite <- Hroot in R2, R3. rewrite upd_same in R3.
  set (g' := MkG (upd (g_lay g) a (Some L)) (upd (g_lo g) a 0) (upd (g_hi g) a U64) (upd (g_root g) L a) (g_pre g) (g_dead g)).
  assert (GL : forall m, m <> a -> g_lay g' m = g_lay g m /\ g_lo g' m = g_lo g m /\ g_hi g' m = g_hi g m).
  { intros m Hm. cbn. rewrite !upd_other by auto. auto. }
  assert (GL1 : forall m, m <> a -> g_lay g m = Some L -> g_lay g' m = Some L) by (intros m Hm E; rewrite (proj1 (GL m Hm)); auto).
  assert (Ga : g_lay g' a = Some L /\ g_lo g' a = 0 /\ g_hi g' a = U64) by (cbn; rewrite !upd_same; auto). destruct Ga as (Ga1 & Ga2 & Ga3).
  assert (Gr : g_root g' L = a) by (cbn; apply upd_same).
  pose proof (ps_bounds n Pn) as Bn. pose proof (ps_bounds child Pc) as Bc. pose proof U64_pos as U0.
  assert (ND : forall m nd, m <> a -> hp_node h m = Some nd -> exists q, hp_node h' m = Some (n_set_parent q nd) /\ (m <> n -> m <> child -> q = n_parent nd)).
  { intros m nd Nm Em. destruct (Nat.eq_dec m n) as [->|N1]; [assert (nd = nn) by congruence; subst nd; eexists; split; [eauto|tauto]|].
    destruct (Nat.eq_dec m child) as [->|N2]; [assert (nd = ncd) by congruence; subst nd; eexists; split; [eauto|tauto]|].
    exists (n_parent nd). rewrite (nsp_id _ nd eq_refl), No; auto. }
  assert (OA : inter_ok h' g' (noexc g') L a i).
  { split; [cbn; pose proof W_eq; lia|]. split; auto. intros k Hk. cbn in Hk.
    assert (KK : k = 0%nat \/ k = 1%nat) by lia. unfold child_ok. destruct KK as [-> | ->].
    - change (in_child i 0) with (Some n). split; [apply GL1; auto|]. split.
      + exists (n_set_parent (Some a) nn). rewrite nsp_parent, nsp_ht. cbn. split; auto. split; auto. lia.
      + cbn [noexc x_lo x_hi]. unfold bnd. cbn. rewrite upd_same, !upd_other by auto. auto.
    - change (in_child i 1) with (Some child). split; [apply GL1; auto|]. split.
      + exists (n_set_parent (Some a) ncd). rewrite nsp_parent, nsp_ht. cbn. split; auto. split; auto. lia.
      + cbn [noexc x_lo x_hi]. unfold bnd. cbn. rewrite upd_same, !upd_other by auto. auto. }
  assert (S' : SL h' g' (noexc g') L).
  { constructor.
    - destruct (sl_first _ _ _ _ HS) as (F1 & (l & F2) & F3). pose proof (HA0 _ _ F1) as Fa.
      destruct (GL _ Fa) as (Q1 & Q2 & _). rewrite Q1, Q2. split; auto. split; auto. destruct (ND L _ Fa F2) as (q & E & _). cbn in E. eauto.
    - rewrite Gr. cbn [noexc x_lo x_hi]. rewrite Ga1, Ga2, Ga3. split; auto. split; auto. split; auto. exists (NInter i). auto.
    - intros m Lm. rewrite Gr. cbn [noexc x_lo x_hi]. destruct (Nat.eq_dec m a) as [->|Nm].
      + exists (NInter i), (NInter i). rewrite Ga2, Ga3. split; auto. split; auto. split; auto. split; [lia|]. split; lia.
      + destruct (GL _ Nm) as (Q1 & Q2 & Q3). rewrite Q1 in Lm. rewrite Q2, Q3.
        destruct (sl_node _ _ _ _ HS m Lm) as (nd & nr & E1 & E2 & E3 & E4 & E5 & _). rewrite <- Hroot in E2. assert (nr = nn) by congruence. subst nr.
        destruct (ND m nd Nm E1) as (q & E & _). exists (n_set_parent q nd), (NInter i). rewrite nsp_ht. split; auto. split; auto.
        split; [cbn; lia|]. split; [lia|]. split; lia.
    - intros q iq Lq Eq _. destruct (Nat.eq_dec q a) as [->|Nqa]. { assert (iq = i) by congruence. subst iq. auto. }
      destruct (GL _ Nqa) as (Q1 & Q2 & Q3). rewrite Q1 in Lq. destruct (sl_node _ _ _ _ HS q Lq) as (nq & _ & E1 & _).
      destruct (ND q nq Nqa E1) as (pr & E & _). rewrite E in Eq. destruct nq as [|i0]; [discriminate|]. cbn in Eq. inversion Eq. clear Eq. subst iq.
      destruct (sl_inter _ _ _ _ HS q i0 Lq E1 (fun f => f)) as (C1 & C2 & C3). split; auto. split; auto. intros k Hk. cbn [in_set_parent in_nkeys] in Hk.
      specialize (C3 k Hk). unfold child_ok in *. cbn [in_set_parent in_child in_nkeys in_height in_keys].
      assert (BB : forall k, bnd g' q (in_set_parent pr i0) k = bnd g q i0 k) by (intros k0; unfold bnd; rewrite Q2, Q3; auto).
      rewrite !BB. destruct (in_child i0 k) as [c|] eqn:Eck; [|rewrite Q2; auto].
      destruct C3 as (D1 & (nc & D2 & D3 & D4) & D5 & D6). pose proof (HA0 _ _ D1) as Nca. destruct (GL _ Nca) as (T1 & T2 & T3).
      assert (N1 : c <> n) by (intros ->; congruence). assert (N2 : c <> child) by (intros ->; congruence).
      cbn [noexc x_lo x_hi]. rewrite T1, T2, T3. split; auto. split; [exists nc; rewrite No by auto; auto|].
      cbn [X pexc x_lo x_hi] in D5, D6. rewrite upd_other in D6 by auto. auto.
    - intros m nd Lm Em Nr _. rewrite Gr in Nr. destruct (GL _ Nr) as (Q1 & _). rewrite Q1 in Lm.
      destruct (Nat.eq_dec m n) as [->|N1].
      { exists a, i, 0%nat. assert (nd = n_set_parent (Some a) nn) by congruence. subst nd. rewrite nsp_parent. do 4 (split; [solve [auto]|]); split; [cbn; lia|reflexivity]. }
      destruct (Nat.eq_dec m child) as [->|N2].
      { exists a, i, 1%nat. assert (nd = n_set_parent (Some a) ncd) by congruence. subst nd. rewrite nsp_parent. do 4 (split; [solve [auto]|]); split; [cbn; lia|reflexivity]. }
      rewrite No in Em by auto.
      destruct (sl_up _ _ _ _ HS m nd Lm Em) as (q & iq & k & U1 & U2 & U3 & _ & U4 & U5); [congruence|cbn; congruence|].
      pose proof (HA0 _ _ U2) as Nqa. destruct (ND q _ Nqa U3) as (pr & E & _). cbn in E. exists q, (in_set_parent pr iq), k.
      split; [auto|]. split; [apply GL1; auto|]. auto.
    - intros m im Lm Em _. rewrite Gr. destruct (Nat.eq_dec m a) as [->|Nm]. { assert (im = i) by congruence. subst im. split; auto. }
      destruct (GL _ Nm) as (Q1 & _). rewrite Q1 in Lm. destruct (sl_node _ _ _ _ HS m Lm) as (nd & _ & E1 & _).
      destruct (ND m nd Nm E1) as (q & E & _). rewrite E in Em. destruct nd as [|i0]; [discriminate|]. cbn in Em. inversion Em. subst im. cbn [in_set_parent in_root].
      split; [|tauto]. intros F. exfalso. destruct (Nat.eq_dec m n) as [->|N1].
      + rewrite (Hn3 i0) in F by congruence. discriminate.
      + apply (sl_flag _ _ _ _ HS m i0) in F; auto; congruence.
    - intros m Dm. destruct (sl_dead _ _ _ _ HS m Dm) as (D0 & i0 & q & iq & D1 & D2 & D3 & D4 & D5 & D6).
      assert (Nma : m <> a) by (intros ->; congruence). assert (Nqa : q <> a) by (intros ->; congruence).
      destruct (GL _ Nma) as (Q1 & _). destruct (GL _ Nqa) as (Q2 & _). rewrite Q1. split; auto.
      destruct (ND q _ Nqa D4) as (pr & E & _). cbn in E.
      exists i0, q, (in_set_parent pr iq). rewrite No by (auto; congruence). rewrite Q2. auto 10. }
  exists g'. split; auto. split.
  - constructor; auto.
    + rewrite Hnx. unfold a. lia.
    + intros m l Em. destruct (ND m _ ltac:(congruence) Em) as (q & E & _). cbn in E. eauto.
    + intros m j Em. destruct (ND m _ ltac:(congruence) Em) as (q & E & _). cbn in E. eexists; split; [exact E|reflexivity].
    + intros m Lm Hm. apply No; [unfold a; lia|intros ->; auto|intros ->; auto].
    + intros m Hm. rewrite Hnx in Hm. assert (m = a) by (unfold a in *; lia). subst m. split; eauto.
    + intros m Hm. apply GL. unfold a; lia.
    + intros m Hm. rewrite Hnx in Hm. destruct (GL m ltac:(lia)) as (Q & _). rewrite Q. destruct (g_lay g m) eqn:E; auto. apply HF in E. unfold a in Hm; lia.
    + intros m Hm. apply GL. unfold a; lia.
    + intros m l Hm _. apply GL. unfold a; lia.
    + intros m Hm _. apply GL. unfold a; lia.
    + intros M HM. cbn. apply upd_other; auto.
    + right. rewrite <- Hroot. exists (n_set_parent (Some a) nn). rewrite nsp_parent, Gr. auto.
  - intros m nd Em. rewrite Hnx. destruct (Nat.eq_dec m a) as [->|Nma].
    { assert (nd = NInter i) by congruence. subst nd. cbn. pose proof (HO _ _ Hc1). unfold a. lia. }
    destruct (Nat.eq_dec m n) as [->|].
    { assert (nd = n_set_parent (Some a) nn) by congruence. subst nd. rewrite nsp_ht. pose proof (HO n _ En). unfold a. lia. }
    destruct (Nat.eq_dec m child) as [->|].
    { assert (nd = n_set_parent (Some a) ncd) by congruence. subst nd. rewrite nsp_ht. pose proof (HO child _ Ec). unfold a. lia. }
    rewrite No in Em by auto. pose proof (HO m _ Em). unfold a. lia.
Qed.

End Step.

