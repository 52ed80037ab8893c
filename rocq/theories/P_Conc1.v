(* Concurrent layer: versions, lists, and the invariant. *)
From Verif Require Import Lib M_Tree M_Stampc P_Stampc1 M_Conc.
From Coq Require Import Sorting.Sorted.

(* ---- versions ---- *)
Definition stbl (v : cver) : Prop := v_ins v = false /\ v_spl v = false.
Definition vle (v w : cver) : Prop :=
  (v_ns v < v_ns w)%nat \/
  (v_ns v = v_ns w /\ v_rt v = v_rt w /\ (v_spl w = true \/ v_del v = v_del w) /\ (v_ni v <= v_ni w)%nat).
Definition nosplit (v w : cver) : Prop := v_ns v = v_ns w /\ v_spl w = false.
Definition vmono (w w' : cver) : Prop :=
  forall v, stbl v -> vle v w -> vle v w' /\ (v_same v w' = true -> v_same v w = true) /\ (nosplit v w' -> nosplit v w).

Lemma v_same_iff v w : v_same v w = true <->
  v_ins v = v_ins w /\ v_spl v = v_spl w /\ v_del v = v_del w /\ v_rt v = v_rt w /\ v_ni v = v_ni w /\ v_ns v = v_ns w.
Proof.
  unfold v_same. rewrite !andb_true_iff, !Bool.eqb_true_iff, !Nat.eqb_eq. tauto.
Qed.
Lemma v_dirty_false v : v_dirty v = false <-> stbl v.
Proof. unfold v_dirty, stbl. rewrite orb_false_iff. tauto. Qed.

Lemma vmono_refl w : vmono w w. Proof. intros v _ H. tauto. Qed.
Lemma vmono_trans a b c : vmono a b -> vmono b c -> vmono a c.
Proof. intros H1 H2 v Hv Hl. destruct (H1 v Hv Hl) as (A & B & C). destruct (H2 v Hv A) as (A' & B' & C'). auto. Qed.
Ltac vm := intros v (Hi & Hs) Hl; unfold vle, nosplit in *; rewrite !v_same_iff; simpl;
  repeat split; try (intros; simpl in *; intuition (try congruence; try lia)).
Lemma vmono_lock w : vmono w (v_lock w). Proof. vm. Qed.
Lemma vmono_mins w : vmono w (v_mins w). Proof. vm. Qed.
Lemma vmono_mspl w : vmono w (v_mspl w). Proof. vm. Qed.
Lemma vmono_mdel w : vmono w (v_mdel w). Proof. vm. Qed.
Lemma vmono_unlock w : vmono w (v_unlock w).
Proof.
  unfold v_unlock. destruct (v_spl w) eqn:E.
  - vm.
  - destruct (v_ins w) eqn:E2; vm.
Qed.

Lemma vle_refl v : vle v v. Proof. right. repeat split; auto. Qed.
Lemma nosplit_refl v : stbl v -> nosplit v v. Proof. intros (? & ?). split; auto. Qed.
Lemma same_nosplit v w : stbl v -> v_same v w = true -> nosplit v w.
Proof. intros (A & B) H. apply v_same_iff in H. split; intuition congruence. Qed.
Lemma same_stbl v w : stbl v -> v_same v w = true -> stbl w.
Proof. intros (A & B) H. apply v_same_iff in H. split; intuition congruence. Qed.
Lemma same_del v w : v_same v w = true -> v_del w = v_del v.
Proof. intros H. apply v_same_iff in H. intuition congruence. Qed.
(* No split seen: the split counter has not moved. *)
Lemma nohassplit v w : v_hassplit v w = false -> v_ns v = v_ns w.
Proof. unfold v_hassplit. rewrite negb_false_iff, !andb_true_iff, Nat.eqb_eq. tauto. Qed.
Lemma vle_del v w : vle v w -> nosplit v w -> v_del w = v_del v.
Proof. unfold vle, nosplit. intros [H|(A & B & [C|C] & D)] (E & F); try lia; congruence. Qed.

(* ---- lists ---- *)
Lemma upper_le y l : (upper y l <= length l)%nat.
Proof. induction l as [|k l IH]; simpl; [lia|]. destruct (y <? k); simpl; lia. Qed.
Lemma upper_lt y l i : (i < upper y l)%nat -> nth i l 0 <= y.
Proof.
  revert i. induction l as [|k l IH]; simpl; intros i H; [lia|]. destruct (y <? k) eqn:E; [lia|].
  apply Z.ltb_ge in E. destruct i; [exact E|]. apply IH. lia.
Qed.
Lemma upper_ge y l : (upper y l < length l)%nat -> y < nth (upper y l) l 0.
Proof.
  induction l as [|k l IH]; simpl; intros H; [lia|]. destruct (y <? k) eqn:E; [apply Z.ltb_lt in E; exact E|].
  simpl. apply IH. lia.
Qed.

Section F2.
  Context {A B : Type} (R : A -> B -> Prop).
  Lemma F2_len l m : Forall2 R l m -> length l = length m.
  Proof. induction 1; simpl; congruence. Qed.
  Lemma F2_nth l m i d e : Forall2 R l m -> (i < length l)%nat -> R (nth i l d) (nth i m e).
  Proof. intros H. revert i. induction H; intros i Hi; simpl in *; [lia|]. destruct i; [assumption|]. apply IHForall2. lia. Qed.
  Lemma F2_firstn l m i : Forall2 R l m -> Forall2 R (firstn i l) (firstn i m).
  Proof. intros H. revert i. induction H; intros [|i]; simpl; constructor; auto. Qed.
  Lemma F2_skipn l m i : Forall2 R l m -> Forall2 R (skipn i l) (skipn i m).
  Proof. intros H. revert i. induction H; intros [|i]; simpl; auto. Qed.
  Lemma F2_app l m l' m' : Forall2 R l m -> Forall2 R l' m' -> Forall2 R (l ++ l') (m ++ m').
  Proof. induction 1; simpl; auto. Qed.
  Lemma F2_ins l m i x y : Forall2 R l m -> R x y -> Forall2 R (ins_at i x l) (ins_at i y m).
  Proof. intros H Hx. unfold ins_at. apply F2_app; [now apply F2_firstn|]. constructor; auto. now apply F2_skipn. Qed.
  Lemma F2_del l m i : Forall2 R l m -> Forall2 R (del_at i l) (del_at i m).
  Proof. intros H. unfold del_at. apply F2_app; [now apply F2_firstn|now apply F2_skipn]. Qed.
  Lemma F2_set l m i x y : Forall2 R l m -> R x y -> Forall2 R (set_at i x l) (set_at i y m).
  Proof. intros H Hx. unfold set_at. apply F2_app; [now apply F2_firstn|]. constructor; auto. now apply F2_skipn. Qed.
  Lemma F2_cut l m i d e : Forall2 R l m -> (i < length l)%nat ->
    skipn i m = nth i m e :: skipn (S i) m /\ R (nth i l d) (nth i m e).
  Proof.
    intros H Hi. split; [|now apply F2_nth]. rewrite (F2_len _ _ H) in Hi. clear H. revert i Hi.
    induction m as [|x m IH]; intros i Hi; simpl in *; [lia|]. destruct i; [reflexivity|]. apply IH. lia.
  Qed.
  Lemma F2_in_r l m y : Forall2 R l m -> In y m -> exists x, R x y.
  Proof. induction 1; simpl; [tauto|]. intros [->|H1]; eauto. Qed.
End F2.
Lemma F2_impl {A B} (R R' : A -> B -> Prop) l m : (forall x y, In y m -> R x y -> R' x y) -> Forall2 R l m -> Forall2 R' l m.
Proof. intros H. induction 1; constructor; auto. - apply H; auto. now left. - apply IHForall2. intros. apply H; auto. now right. Qed.

Lemma split_nth {A} (l : list A) i d : (i < length l)%nat -> l = firstn i l ++ nth i l d :: skipn (S i) l.
Proof.
  revert i. induction l as [|x l IH]; intros i H; simpl in *; [lia|]. destruct i; [reflexivity|]. simpl. f_equal. apply IH. lia.
Qed.
Lemma nth_some_lt {A} (l : list (option A)) i c : nth i l None = Some c -> (i < length l)%nat.
Proof. intros H. destruct (Nat.lt_ge_cases i (length l)) as [H1|H1]; [exact H1|]. rewrite nth_overflow in H by exact H1. discriminate. Qed.
Lemma is_at_iff n i l : is_at n i l = true <-> nth i l None = Some n.
Proof. unfold is_at. destruct (nth i l None) as [m|]; [rewrite Nat.eqb_eq|]; split; congruence. Qed.
Lemma in_firstn {A} (x : A) i l : In x (firstn i l) -> In x l.
Proof. intros H. rewrite <- (firstn_skipn i l). apply in_or_app. now left. Qed.
Lemma in_skipn {A} (x : A) i l : In x (skipn i l) -> In x l.
Proof. intros H. rewrite <- (firstn_skipn i l). apply in_or_app. now right. Qed.
Lemma in_ins {A} (x y : A) i l : In y (ins_at i x l) <-> y = x \/ In y l.
Proof.
  unfold ins_at. rewrite in_app_iff. simpl. rewrite <- (firstn_skipn i l) at 3. rewrite in_app_iff. intuition.
Qed.
Lemma in_del {A} (y : A) i l : In y (del_at i l) -> In y l.
Proof. unfold del_at. rewrite in_app_iff. intros [H|H]; [exact (in_firstn _ _ _ H)|exact (in_skipn _ _ _ H)]. Qed.
Lemma in_set {A} (x y : A) i l : In y (set_at i x l) -> y = x \/ In y l.
Proof. unfold set_at. rewrite in_app_iff. cbn [In]. intros [H|[H|H]]; [right; exact (in_firstn _ _ _ H)|left; congruence|right; exact (in_skipn _ _ _ H)]. Qed.

(* ---- what the proof adds to the state ---- *)
(* l0: a bound every key searched in the node respects; [ll, hh): the keys the node is responsible for, counting removals
   that have unlinked their leaf as finished; sp: a bound for the slice that may stand above the node; pd: the new right
   neighbour the parent does not name yet; us: the new right neighbour of a leaf that still holds the rows moved; rp: the
   child remove_leaf carries up; ul: unlinked; ze: the slice in perm[0] is not this leaf's. *)
Record gst := MkG { l0 : nat -> Z; ll : nat -> Z; hh : nat -> Z; sp : nat -> Z; pd : nat -> option nat; us : nat -> option nat;
                    rp : nat -> option nat; ul : nat -> bool; ze : nat -> bool }.
Definition INF : Z := 2 ^ 64.
Lemma INF_pos : 0 < INF. Proof. reflexivity. Qed.
Global Opaque INF.

Definition o2l {A} (o : option A) : list A := match o with Some a => [a] | None => [] end.
Definition ehi (g : gst) (c : nat) : Z := match pd g c with Some d => hh g d | None => hh g c end.
Definition rh (g : gst) (c : nat) : Z := match us g c with Some d => hh g d | None => hh g c end.
Definition subs (g : gst) (o : option nat) : list nat :=
  match o with Some c => c :: o2l (pd g c) | None => [] end.
Definition lkids (g : gst) (l : list (option nat)) : list nat := flat_map (subs g) l.
Definition ks (l : list (option nat)) : list nat := flat_map o2l l.
Definition first_kid (l : list (option nat)) : option nat :=
  match l with Some c :: _ => Some c | None :: Some c :: _ => Some c | _ => None end.
Fixpoint chain (g : gst) (a : Z) (l : list nat) (b : Z) : Prop :=
  match l with [] => a = b | c :: l' => ll g c = a /\ chain g (hh g c) l' b end.
Definition aft (g : gst) (k : Z) (c : nat) : Prop := k < ll g c \/ k <= sp g c.
Definition kok (g : gst) (k : Z) (o : option nat) : Prop := exists c, o = Some c /\ 0 < l0 g c <= k /\ aft g k c.

Lemma chain_app g : forall l a m b, chain g a (l ++ m) b <-> exists x, chain g a l x /\ chain g x m b.
Proof.
  induction l as [|c l IH]; intros a m b; simpl.
  - split; [intros H; exists a; auto|intros (x & -> & H); exact H].
  - rewrite IH. split.
    + intros (H & x & H1 & H2). exists x. auto.
    + intros (x & (H & H1) & H2). split; [exact H|]. exists x. auto.
Qed.
Lemma chain_ext g g' : forall l a b, (forall c, In c l -> ll g' c = ll g c /\ hh g' c = hh g c) -> chain g a l b -> chain g' a l b.
Proof.
  induction l as [|c l IH]; intros a b He; simpl; [auto|]. intros (H1 & H2).
  destruct (He c (or_introl eq_refl)) as (E1 & E2). rewrite E1, E2. split; [exact H1|]. apply IH; [|exact H2]. intros x Hx. apply He. now right.
Qed.
Lemma chain_map g g' (f : Z -> Z) : (forall c, ll g' c = f (ll g c)) -> (forall c, hh g' c = f (hh g c)) ->
  forall l a b, chain g a l b -> chain g' (f a) l (f b).
Proof. intros H1 H2. induction l as [|c l IH]; intros a b; simpl; [congruence|]. intros (E & H). rewrite H1, H2, E. split; auto. Qed.
Lemma chain_fun g : forall l a b b', chain g a l b -> chain g a l b' -> b = b'.
Proof. induction l as [|c l IH]; intros a b b'; simpl; [congruence|]. intros (_ & H1) (_ & H2). eauto. Qed.
Lemma chain_le g : forall l a b, (forall c, In c l -> ll g c <= hh g c) -> chain g a l b -> a <= b.
Proof.
  induction l as [|c l IH]; intros a b Hm; simpl; [lia|]. intros (H1 & H2).
  pose proof (IH _ _ (fun x Hx => Hm x (or_intror Hx)) H2). pose proof (Hm c (or_introl eq_refl)). lia.
Qed.
Lemma chain_in g x : forall l a b, (forall c, In c l -> ll g c <= hh g c) -> chain g a l b -> In x l -> a <= ll g x /\ hh g x <= b.
Proof.
  induction l as [|c l IH]; intros a b Hm H Hx; [destruct Hx|]. cbn [chain] in H. destruct H as (H1 & H2).
  assert (Hm' : forall c, In c l -> ll g c <= hh g c) by (intros z Hz; apply Hm; now right).
  pose proof (Hm c (or_introl eq_refl)). destruct Hx as [->|Hx].
  - pose proof (chain_le _ _ _ _ Hm' H2). lia.
  - pose proof (IH _ _ Hm' H2 Hx). lia.
Qed.
Lemma chain_subs g c a b : chain g a (subs g (Some c)) b -> a = ll g c /\ b = ehi g c.
Proof. unfold subs, ehi. simpl. destruct (pd g c) as [d|]; simpl; intuition. Qed.
Lemma chain_subs_i g c : (forall d, pd g c = Some d -> hh g c = ll g d) -> chain g (ll g c) (subs g (Some c)) (ehi g c).
Proof. unfold subs, ehi. destruct (pd g c) as [d|]; simpl; intros H; auto. rewrite (H d eq_refl). auto. Qed.

Lemma lkids_app g A B : lkids g (A ++ B) = lkids g A ++ lkids g B.
Proof. apply flat_map_app. Qed.
Lemma lkids_ext g g' l : (forall c, In (Some c) l -> pd g' c = pd g c) -> lkids g' l = lkids g l.
Proof.
  induction l as [|o l IH]; intros H; [reflexivity|]. cbn [lkids flat_map]. f_equal.
  - destruct o as [c|]; [|reflexivity]. unfold subs. rewrite (H c (or_introl eq_refl)). reflexivity.
  - apply IH. intros c Hc. apply H. now right.
Qed.
Lemma in_lkids g x l : In x (lkids g l) -> exists c, In (Some c) l /\ (x = c \/ pd g c = Some x).
Proof.
  unfold lkids. rewrite in_flat_map. intros ([c|] & A & B); [|destruct B]. exists c. split; [exact A|].
  cbn [subs In] in B. destruct B as [B|B]; [auto|]. right. destruct (pd g c) as [d|]; cbn in B; [|destruct B]. destruct B as [->|[]]. reflexivity.
Qed.
Lemma ks_app A B : ks (A ++ B) = ks A ++ ks B. Proof. apply flat_map_app. Qed.
Lemma in_ks c l : In c (ks l) <-> In (Some c) l.
Proof.
  unfold ks. rewrite in_flat_map. split.
  - intros ([d|] & A & B); cbn in B; [|destruct B]. destruct B as [->|[]]. exact A.
  - intros H. exists (Some c). split; [exact H|]. now left.
Qed.
Lemma nodup_mid {A} (x : A) a b : NoDup (a ++ x :: b) -> ~ In x a /\ ~ In x b /\ NoDup (a ++ b).
Proof. intros H. pose proof (NoDup_remove_2 _ _ _ H) as H2. rewrite in_app_iff in H2. split; [tauto|]. split; [tauto|]. exact (NoDup_remove_1 _ _ _ H). Qed.
Lemma nodup_ins {A} (x : A) a b : NoDup (a ++ b) -> ~ In x a -> ~ In x b -> NoDup (a ++ x :: b).
Proof.
  induction a as [|z a IH]; cbn [app]; intros H Ha Hb; [constructor; auto|]. inversion H; subst. constructor.
  - rewrite in_app_iff in *. cbn [In]. intros [K|[K|K]]; [tauto| |tauto]. subst. apply Ha. now left.
  - apply IH; auto. intros K. apply Ha. now right.
Qed.
Lemma nodup_app_l {A} (a b : list A) : NoDup (a ++ b) -> NoDup a.
Proof. induction a as [|x a IH]; cbn [app]; intros H; [constructor|]. inversion H; subst. constructor; [|auto]. intros K. apply H2. apply in_or_app. now left. Qed.
Lemma nodup_app_r {A} (a b : list A) : NoDup (a ++ b) -> NoDup b.
Proof. induction a as [|x a IH]; cbn [app]; intros H; [exact H|]. inversion H; subst. auto. Qed.
Lemma nodup_app_x {A} (a b : list A) x : NoDup (a ++ b) -> In x a -> In x b -> False.
Proof. induction a as [|z a IH]; cbn [app]; intros H Ha Hb; [destruct Ha|]. inversion H; subst. destruct Ha as [->|Ha]; [|eauto]. apply H2. apply in_or_app. now right. Qed.

(* ---- the invariant on nodes ---- *)
Definition linked (s : cst) (g : gst) (a : nat) : Prop := (a < fr s)%nat /\ isl (nd s a) = true /\ ul g a = false.
Definition bd (s : cst) (g : gst) (x : Z) : Prop := x = INF \/ exists a, linked s g a /\ lo (nd s a) = x.
Definition nlo (s : cst) (o : option nat) : Z := match o with Some b => lo (nd s b) | None => INF end.

(* The tree of internodes. *)
Record GT (s : cst) (g : gst) : Prop := {
  gt_par : forall a p, (a < fr s)%nat -> par (nd s a) = Some p -> (p < fr s)%nat /\ isl (nd s p) = false /\ (l0 g a = 0 -> l0 g p = 0);
  gt_kid : forall p c, (p < fr s)%nat -> isl (nd s p) = false -> In (Some c) (kids (nd s p)) -> (c < fr s)%nat /\ par (nd s c) = Some p;
  gt_nd : forall p, (p < fr s)%nat -> isl (nd s p) = false -> NoDup (ks (kids (nd s p)));
  gt_int : forall p, (p < fr s)%nat -> isl (nd s p) = false ->
    exists k0 t, kids (nd s p) = k0 :: t /\ Forall2 (kok g) (keys (nd s p)) t /\ (forall c, k0 = Some c -> l0 g c <= l0 g p);
  gt_chain : forall p, (p < fr s)%nat -> isl (nd s p) = false ->
    chain g (ll g p) (subs g (rp g p) ++ lkids g (kids (nd s p))) (hh g p);
  gt_fst : forall p f, (p < fr s)%nat -> isl (nd s p) = false -> first_kid (kids (nd s p)) = Some f -> aft g (sp g p) f;
  gt_rp : forall p r, rp g p = Some r -> (p < fr s)%nat /\ isl (nd s p) = false /\ kids (nd s p) = [None] /\ (r < fr s)%nat /\
    par (nd s r) = Some p /\ l0 g r <= l0 g p /\ aft g (sp g p) r;
  gt_pd : forall n c, pd g n = Some c -> (n < fr s)%nat /\ (c < fr s)%nat /\ hh g n = ll g c /\ pd g c = None /\ par (nd s c) = None /\
    0 < l0 g c /\ isl (nd s c) = isl (nd s n);
  gt_root2 : forall a, (a < fr s)%nat -> par (nd s a) = None -> (exists m, pd g m = Some a) \/ (l0 g a = 0 /\ ehi g a = INF);
  gt_rootp : (rootp s < fr s)%nat /\ l0 g (rootp s) = 0;
  gt_num : forall a, (a < fr s)%nat -> 0 <= l0 g a /\ ll g a <= hh g a /\ sp g a <= ll g a /\ sp g a < hh g a
}.
(* The list of leaves. *)
Record GL (s : cst) (g : gst) : Prop := {
  gl_us : forall n c, us g n = Some c -> linked s g n /\ linked s g c /\ hh g n = ll g c /\ us g c = None /\
    v_del (ver (nd s n)) = false /\ (forall y, ll g c <= y -> row_get y (rws (nd s n)) = row_get y (rws (nd s c)));
  gl_leaf : forall a, (a < fr s)%nat -> isl (nd s a) = true -> l0 g a = lo (nd s a) /\ sp g a = lo (nd s a) /\ lo (nd s a) <= INF /\
    (ul g a = true -> v_del (ver (nd s a)) = true) /\ (v_del (ver (nd s a)) = true -> rws (nd s a) = []) /\
    (forall b, nxt (nd s a) = Some b -> (b < fr s)%nat /\ isl (nd s b) = true);
  gl_link : forall a, linked s g a -> ll g a = lo (nd s a) /\ lo (nd s a) < hh g a /\ hh g a = nlo s (nxt (nd s a)) /\
    (forall b, nxt (nd s a) = Some b -> linked s g b /\ prv (nd s b) = Some a) /\
    (forall b, prv (nd s a) = Some b -> linked s g b /\ nxt (nd s b) = Some a) /\ (prv (nd s a) = None -> lo (nd s a) = 0);
  gl_rows : forall a, (a < fr s)%nat -> isl (nd s a) = true -> StronglySorted Z.lt (map fst (rws (nd s a))) /\
    (forall y, row_get y (rws (nd s a)) <> None -> lo (nd s a) <= y < rh g a) /\
    (ze g a = false -> rws (nd s a) = [] -> zk (nd s a) < rh g a);
  gl_ze : forall a, ze g a = true -> v_spl (ver (nd s a)) = true;
  gl_disj : forall a b, linked s g a -> linked s g b -> a <> b -> hh g a <= lo (nd s b) \/ hh g b <= lo (nd s a)
}.
(* What involves versions or both. *)
Record GV (s : cst) (g : gst) : Prop := {
  gv_pd : forall n c, pd g n = Some c -> (isl (nd s n) = true -> us g n = Some c) /\ (isl (nd s n) = false -> v_spl (ver (nd s n)) = true);
  gv_bd : forall a, (a < fr s)%nat -> bd s g (ll g a) /\ bd s g (hh g a);
  gv_dirty : forall a, (a < fr s)%nat -> v_dirty (ver (nd s a)) = true -> v_lk (ver (nd s a)) = true;
  gv_root1 : forall a, (a < fr s)%nat -> v_rt (ver (nd s a)) = true -> l0 g a = 0 -> v_spl (ver (nd s a)) = false -> rh g a = INF;
  gv_root3 : forall a, (a < fr s)%nat -> par (nd s a) = None -> (forall m, pd g m <> Some a) -> pd g a = None ->
    v_rt (ver (nd s a)) = true /\ v_spl (ver (nd s a)) = false;
  gv_n0 : forall p t, (p < fr s)%nat -> isl (nd s p) = false -> v_del (ver (nd s p)) = false -> kids (nd s p) = None :: t -> 0 < l0 g p;
  gv_dk : forall p, (p < fr s)%nat -> isl (nd s p) = false -> v_del (ver (nd s p)) = true -> kids (nd s p) = [None]
}.
Record GI (s : cst) (g : gst) : Prop := { gi_t : GT s g; gi_l : GL s g; gi_v : GV s g }.

Lemma us_out s g a : GL s g -> isl (nd s a) = false -> us g a = None.
Proof. intros G H. destruct (us g a) as [c|] eqn:E; [|reflexivity]. destruct (gl_us _ _ G _ _ E) as ((_ & K & _) & _). congruence. Qed.
Lemma rh_inter s g a : GL s g -> isl (nd s a) = false -> rh g a = hh g a.
Proof. intros G H. unfold rh. now rewrite (us_out _ _ _ G H). Qed.
Lemma rp_some s g p c : GT s g -> In (Some c) (kids (nd s p)) -> rp g p = None.
Proof.
  intros G H. destruct (rp g p) as [r|] eqn:E; [|reflexivity]. destruct (gt_rp _ _ G _ _ E) as (_ & _ & K & _). rewrite K in H.
  destruct H as [H|[]]. discriminate.
Qed.
Lemma ehi_ge s g c : GT s g -> (c < fr s)%nat -> hh g c <= ehi g c.
Proof.
  intros G Hc. unfold ehi. destruct (pd g c) as [d|] eqn:E; [|lia]. destruct (gt_pd _ _ G _ _ E) as (_ & B & C & _).
  destruct (gt_num _ _ G d B). lia.
Qed.
Lemma rh_ge s g c : GT s g -> GL s g -> (c < fr s)%nat -> hh g c <= rh g c.
Proof.
  intros G G2 Hc. unfold rh. destruct (us g c) as [d|] eqn:E; [|lia]. destruct (gl_us _ _ G2 _ _ E) as (_ & (B & _) & C & _).
  destruct (gt_num _ _ G d B). lia.
Qed.
Lemma lkids_le s g p : GT s g -> (p < fr s)%nat -> isl (nd s p) = false -> forall x, In x (lkids g (kids (nd s p))) -> ll g x <= hh g x.
Proof.
  intros G Hp Hi x Hx. destruct (in_lkids _ _ _ Hx) as (c & A & [->|B]).
  - destruct (gt_kid _ _ G _ _ Hp Hi A) as (K & _). destruct (gt_num _ _ G _ K). lia.
  - destruct (gt_pd _ _ G _ _ B) as (_ & K & _). destruct (gt_num _ _ G _ K). lia.
Qed.
Lemma kids_chain s g p c : GT s g -> (p < fr s)%nat -> isl (nd s p) = false -> In (Some c) (kids (nd s p)) ->
  chain g (ll g p) (lkids g (kids (nd s p))) (hh g p).
Proof. intros G Hp Hi Hc. pose proof (gt_chain _ _ G p Hp Hi) as H. rewrite (rp_some _ _ _ _ G Hc) in H. exact H. Qed.
Lemma kid_split (l : list (option nat)) i c : nth i l None = Some c -> l = firstn i l ++ Some c :: skipn (S i) l.
Proof. intros H. rewrite <- H. apply split_nth. exact (nth_some_lt _ _ _ H). Qed.
Lemma nth0_skipn {A} (d : A) : forall l i, nth 0 (skipn i l) d = nth i l d.
Proof. induction l as [|x l IH]; intros [|i]; try reflexivity. apply IH. Qed.
Lemma kid_in (l : list (option nat)) i c : nth i l None = Some c -> In (Some c) l.
Proof. intros H. rewrite <- H. apply nth_In. exact (nth_some_lt _ _ _ H). Qed.
Lemma kid_range s g p c : GT s g -> (p < fr s)%nat -> isl (nd s p) = false -> In (Some c) (kids (nd s p)) -> ll g p <= ll g c /\ ehi g c <= hh g p.
Proof.
  intros G Hp Hi Hc. pose proof (kids_chain _ _ _ _ G Hp Hi Hc) as H. pose proof (lkids_le _ _ _ G Hp Hi) as Hm.
  destruct (gt_kid _ _ G _ _ Hp Hi Hc) as (K & _).
  assert (H1 : In c (lkids g (kids (nd s p)))) by (apply in_flat_map; exists (Some c); split; [exact Hc|now left]).
  split; [exact (proj1 (chain_in _ _ _ _ _ Hm H H1))|]. unfold ehi. destruct (pd g c) as [d|] eqn:E.
  - assert (H2 : In d (lkids g (kids (nd s p)))) by (apply in_flat_map; exists (Some c); split; [exact Hc|]; cbn [subs]; rewrite E; right; now left).
    exact (proj2 (chain_in _ _ _ _ _ Hm H H2)).
  - exact (proj2 (chain_in _ _ _ _ _ Hm H H1)).
Qed.
Lemma kid_adj s g p i a b : GT s g -> (p < fr s)%nat -> isl (nd s p) = false ->
  nth i (kids (nd s p)) None = Some a -> nth (S i) (kids (nd s p)) None = Some b -> ehi g a = ll g b.
Proof.
  intros G Hp Hi Ha Hb. pose proof (kids_chain _ _ _ _ G Hp Hi (kid_in _ _ _ Ha)) as H. rewrite (kid_split _ _ _ Ha), lkids_app in H.
  rewrite (split_nth (skipn (S i) (kids (nd s p))) 0 None) in H.
  2:{ rewrite skipn_length. pose proof (nth_some_lt _ _ _ Hb). lia. }
  assert (E : nth 0 (skipn (S i) (kids (nd s p))) None = Some b).
  { rewrite <- Hb. apply nth0_skipn. }
  rewrite E in H. cbn [firstn app] in H. apply chain_app in H. destruct H as (x & _ & H).
  change (lkids g (Some a :: Some b :: ?r)) with (subs g (Some a) ++ subs g (Some b) ++ lkids g r) in H.
  apply chain_app in H. destruct H as (z & H1 & H2). destruct (chain_subs _ _ _ _ H1) as (_ & ->).
  apply chain_app in H2. destruct H2 as (z2 & H2 & _). now destruct (chain_subs _ _ _ _ H2).
Qed.
Lemma kid_last s g p a : GT s g -> (p < fr s)%nat -> isl (nd s p) = false ->
  nth (length (keys (nd s p))) (kids (nd s p)) None = Some a -> ehi g a = hh g p.
Proof.
  intros G Hp Hi Ha. pose proof (kids_chain _ _ _ _ G Hp Hi (kid_in _ _ _ Ha)) as H. rewrite (kid_split _ _ _ Ha), lkids_app in H.
  destruct (gt_int _ _ G p Hp Hi) as (k0 & t & E & F & _). apply F2_len in F. rewrite E, F in H. cbn [skipn] in H. rewrite skipn_all in H.
  apply chain_app in H. destruct H as (x & _ & H). change (lkids g [Some a]) with (subs g (Some a) ++ []) in H. rewrite app_nil_r in H.
  now destruct (chain_subs _ _ _ _ H).
Qed.
Lemma kid_key s g p i : GT s g -> (p < fr s)%nat -> isl (nd s p) = false -> (i < length (keys (nd s p)))%nat ->
  exists c, nth (S i) (kids (nd s p)) None = Some c /\ 0 < l0 g c <= nth i (keys (nd s p)) 0 /\ aft g (nth i (keys (nd s p)) 0) c.
Proof.
  intros G Hp Hi H. destruct (gt_int _ _ G p Hp Hi) as (k0 & t & E & F & _).
  destruct (F2_nth _ _ _ i 0 None F H) as (c & A & B & C). exists c. rewrite E. auto.
Qed.
Lemma first_in l f : first_kid l = Some f -> In (Some f) l.
Proof. destruct l as [|[c|] [|[d|] l]]; cbn; intros H; try discriminate; injection H as ->; auto. Qed.
Lemma first_chain s g p f : GT s g -> (p < fr s)%nat -> isl (nd s p) = false -> first_kid (kids (nd s p)) = Some f -> ll g f = ll g p.
Proof.
  intros G Hp Hi Hf. pose proof (kids_chain _ _ _ _ G Hp Hi (first_in _ _ Hf)) as H.
  destruct (kids (nd s p)) as [|[c|] [|[d|] l]]; cbn in Hf; try discriminate; injection Hf as ->; cbn in H; tauto.
Qed.
Lemma aft_num s g k c : GT s g -> (c < fr s)%nat -> aft g k c -> k <= ll g c /\ k < hh g c.
Proof. intros G Hc H. destruct (gt_num _ _ G c Hc). unfold aft in H. lia. Qed.
Lemma aft_tr g k p f : aft g k p -> aft g (sp g p) f -> ll g p <= ll g f -> aft g k f.
Proof. unfold aft. lia. Qed.

(* ---- what other threads see of a step ---- *)
Record Rel (s : cst) (g : gst) (s' : cst) (g' : gst) : Prop := {
  rl_fr : (fr s <= fr s')%nat;
  rl_isl : forall a, (a < fr s)%nat -> isl (nd s' a) = isl (nd s a);
  rl_l0 : forall a, (a < fr s)%nat -> l0 g' a <= l0 g a;
  rl_l0p : forall a, (a < fr s)%nat -> 0 < l0 g a -> 0 < l0 g' a;
  rl_ver : forall a, (a < fr s)%nat -> vmono (ver (nd s a)) (ver (nd s' a));
  rl_par : forall a, (a < fr s)%nat -> par (nd s a) <> None -> par (nd s' a) <> None;
  rl_rh : forall a, (a < fr s)%nat -> v_spl (ver (nd s' a)) = false -> rh g a <= rh g' a;
  rl_kids : forall a, (a < fr s)%nat -> isl (nd s a) = false -> v_dirty (ver (nd s' a)) = false ->
    length (keys (nd s' a)) = length (keys (nd s a)) /\ kids (nd s' a) = kids (nd s a) /\
    forall c, In (Some c) (kids (nd s a)) -> ehi g c <= ehi g' c
}.
