(* Proofs about stringbag. *)
From Verif Require Import Lib M_Stringbag.

(* ---- specification: the slots as independent strings ---- *)
Fixpoint bag_spec (ops : list (nat * list Z)) (acc : list bool) (m : nat -> list Z) : nat -> list Z :=
  match ops, acc with
  | (p, s) :: ops', true :: acc' => bag_spec ops' acc' (fun q => if (q =? p)%nat then s else m q)
  | _ :: ops', false :: acc' => bag_spec ops' acc' m
  | _, _ => m
  end.

Lemma set_nth_length {A} n (x : A) l : length (set_nth n x l) = length l.
Proof. revert n. induction l; intros [|n]; cbn; auto. Qed.
Lemma set_nth_nth {A} n (x d : A) l m : (n < length l)%nat -> nth m (set_nth n x l) d = if (m =? n)%nat then x else nth m l d.
Proof.
  revert n m. induction l as [|a l IH]; intros n m H; cbn in H; [lia|].
  destruct n, m; cbn [set_nth nth Nat.eqb]; auto. apply IH. lia.
Qed.

Section Bag.
Context (b : Z) (Hb : 8 <= b) (width : nat).
Local Notation OV := (sb_overhead b width).

Lemma pow_pos : 0 < 2 ^ b. Proof. apply Z.pow_pos_nonneg; lia. Qed.
Lemma max_size_val : sb_max_size b = 2 ^ b.
Proof.
  unfold sb_max_size, sb_off. pose proof pow_pos.
  rewrite <- (Z.mod_unique (-1) (2 ^ b) (-1) (2 ^ b - 1)) by lia. lia.
Qed.
Lemma overhead_pos : 0 < OV.
Proof. unfold sb_overhead, sb_empty_size, sb_osize. assert (1 <= b / 8) by lia. set (o := b / 8) in *. nia. Qed.

Definition slot_ok (g : sbag) (p : nat) : Prop :=
  let '(pos, l) := nth p (sb_info g) (0, 0) in
  0 <= l /\ 0 <= pos /\ (l <> 0 -> OV <= pos /\ pos + l <= sb_size g) /\ pos + Z.max l 8 <= Z.max (sb_capacity g) 8.
Definition slots_disjoint (g : sbag) : Prop :=
  forall p q, (p < width)%nat -> (q < width)%nat -> p <> q ->
  let '(pos, l) := nth p (sb_info g) (0, 0) in let '(pos', l') := nth q (sb_info g) (0, 0) in
  l <> 0 -> l' <> 0 -> pos + l <= pos' \/ pos' + l' <= pos.
Definition bag_inv (cap : Z) (g : sbag) : Prop :=
  length (sb_info g) = width /\ OV <= sb_size g <= cap /\ sb_capacity g = cap /\ len (sb_mem g) = cap /\ cap < 2 ^ b /\
  (forall p, (p < width)%nat -> slot_ok g p) /\ slots_disjoint g.

Lemma make_inv cap mem0 : OV <= cap < 2 ^ b -> len mem0 = cap ->
  exists g, sb_make b width cap mem0 = Some g /\ bag_inv cap g /\ (forall p, sb_get g p = []).
Proof.
  intros H Hm. unfold sb_make. rewrite max_size_val. pose proof overhead_pos.
  destruct (Z.leb_spec OV cap); [|lia]. destruct (Z.leb_spec cap (2 ^ b)); [|lia]. cbn [andb].
  eexists. split; [reflexivity|].
  assert (N : forall p, nth p (repeat (0, 0) width) (0, 0) = (0, 0)).
  { intros p. destruct (Nat.lt_ge_cases p width); [|apply nth_overflow; now rewrite repeat_length].
    match goal with X : (p < width)%nat |- _ => clear - X; revert p X end. induction width; intros p Hp; [lia|]. destruct p; cbn; auto. apply IHn. lia. }
  assert (E1 : sb_off b OV = OV) by (apply Z.mod_small; lia).
  assert (E2 : sb_off b (cap - 1) = cap - 1) by (apply Z.mod_small; lia).
  split.
  - unfold bag_inv, sb_capacity, slots_disjoint, slot_ok. cbn [sb_size sb_cap sb_info sb_mem].
    rewrite E1, E2, repeat_length. repeat split; try lia.
    + intros p Hp. rewrite N. unfold sb_capacity. cbn [sb_cap]. lia.
    + intros p q _ _ _. rewrite !N. lia.
  - intros p. unfold sb_get. cbn [sb_info]. now rewrite N.
Qed.

Lemma splice_len (m s : list Z) pos : 0 <= pos -> pos + len s <= len m ->
  len (firstn (Z.to_nat pos) m ++ s ++ skipn (Z.to_nat (pos + len s)) m) = len m.
Proof.
  intros. unfold len in *. rewrite !app_length, firstn_length, skipn_length. lia.
Qed.
(* Reading a region of a spliced memory. *)
Lemma splice_self (m s : list Z) pos : 0 <= pos -> pos + len s <= len m ->
  firstn (Z.to_nat (len s)) (skipn (Z.to_nat pos) (firstn (Z.to_nat pos) m ++ s ++ skipn (Z.to_nat (pos + len s)) m)) = s.
Proof.
  intros. unfold len in *. rewrite skipn_app, firstn_length, skipn_firstn_comm.
  replace (Z.to_nat pos - Z.to_nat pos)%nat with 0%nat by lia. rewrite firstn_O. cbn [app].
  replace (Z.to_nat pos - Nat.min (Z.to_nat pos) (length m))%nat with 0%nat by lia. cbn [skipn].
  rewrite firstn_app, Nat2Z.id, Nat.sub_diag, firstn_O, firstn_all, app_nil_r. reflexivity.
Qed.
Lemma splice_other (m s : list Z) pos a l : 0 <= pos -> pos + len s <= len m -> 0 <= a -> 0 <= l -> a + l <= len m ->
  (l = 0 \/ len s = 0 \/ a + l <= pos \/ pos + len s <= a) ->
  firstn (Z.to_nat l) (skipn (Z.to_nat a) (firstn (Z.to_nat pos) m ++ s ++ skipn (Z.to_nat (pos + len s)) m)) =
  firstn (Z.to_nat l) (skipn (Z.to_nat a) m).
Proof.
  intros H1 H2 H3 H4 H5 Hd.
  assert (X : forall i, nth_error (firstn (Z.to_nat pos) m ++ s ++ skipn (Z.to_nat (pos + len s)) m) i =
     if (i <? Z.to_nat pos)%nat then nth_error m i else if (i <? Z.to_nat pos + length s)%nat then nth_error s (i - Z.to_nat pos) else nth_error m i).
  { intros i. unfold len in *. assert (LF : length (firstn (Z.to_nat pos) m) = Z.to_nat pos) by (rewrite firstn_length; lia).
    destruct (Nat.ltb_spec i (Z.to_nat pos)).
    - rewrite nth_error_app1 by lia. rewrite <- (firstn_skipn (Z.to_nat pos) m) at 2. now rewrite nth_error_app1 by lia.
    - rewrite nth_error_app2 by lia. rewrite LF. destruct (Nat.ltb_spec i (Z.to_nat pos + length s)).
      + now rewrite nth_error_app1 by lia.
      + rewrite nth_error_app2 by lia.
        rewrite <- (firstn_skipn (Z.to_nat (pos + Z.of_nat (length s))) m) at 2.
        rewrite nth_error_app2; rewrite firstn_length; [f_equal|]; lia. }
  assert (Y : forall (u v : list Z), (forall i, nth_error u i = nth_error v i) -> u = v).
  { induction u as [|x u IH]; intros [|y v] E; auto.
    - specialize (E 0%nat). discriminate.
    - specialize (E 0%nat). discriminate.
    - pose proof (E 0%nat) as E0. cbn in E0. injection E0 as ->. f_equal. apply IH. intros i. apply (E (S i)). }
  assert (ZF : forall n (u : list Z) i, nth_error (firstn n u) i = if (i <? n)%nat then nth_error u i else None).
  { induction n; intros u i; cbn [firstn]; [destruct i; auto|]. destruct u as [|x u].
    - destruct (i <? S n)%nat; destruct i; auto.
    - destruct i; [reflexivity|]. cbn [nth_error]. rewrite IHn.
      change (S i <? S n)%nat with (i <? n)%nat. reflexivity. }
  assert (ZS : forall n (u : list Z) i, nth_error (skipn n u) i = nth_error u (n + i)).
  { induction n; intros u i; auto. destruct u; [now destruct i|]. cbn [skipn Nat.add nth_error]. apply IHn. }
  apply Y. intros i. rewrite !ZF. destruct (Nat.ltb_spec i (Z.to_nat l)); auto. rewrite !ZS, X. unfold len in *.
  destruct (Nat.ltb_spec (Z.to_nat a + i) (Z.to_nat pos)); auto.
  destruct (Nat.ltb_spec (Z.to_nat a + i) (Z.to_nat pos + length s)); auto. lia.
Qed.

Lemma assign_ok cap g p s : bag_inv cap g -> (p < width)%nat ->
  match sb_assign b width g p s with
  | SbOk g' => bag_inv cap g' /\ sb_get g' p = s /\ (forall q, (q < width)%nat -> q <> p -> sb_get g' q = sb_get g q) /\
               sb_size g' <= sb_size g + len s
  | SbRefused => sb_size g + Z.max (len s) 8 > cap
  | SbBad => False
  end.
Proof.
  intros (IL & IS & IC & IM & IW & Islot & Idis) Hp. unfold sb_assign.
  destruct (nth p (sb_info g) (0, 0)) as [ipos mylen] eqn:Ep.
  pose proof (Islot p Hp) as Sp. unfold slot_ok in Sp. rewrite Ep in Sp. destruct Sp as (L0 & P0 & Sp & Sm).
  pose proof (len_nonneg s) as Ls. pose proof overhead_pos as OVp.
  set (place := if len s <=? mylen then _ else _).
  assert (PL : match place with
     | Some (pos, size') => 0 <= pos /\ (len s <> 0 -> OV <= pos /\ pos + len s <= size') /\ OV <= size' <= cap /\
         sb_size g <= size' <= sb_size g + len s /\ (pos < 2 ^ b) /\ pos + Z.max (len s) 8 <= Z.max cap 8 /\
         (forall q, (q < width)%nat -> q <> p -> forall qpos ql, nth q (sb_info g) (0, 0) = (qpos, ql) -> ql <> 0 -> len s <> 0 ->
            qpos + ql <= pos \/ pos + len s <= qpos)
     | None => sb_size g + Z.max (len s) 8 > cap end).
  { unfold place. destruct (Z.leb_spec (len s) mylen).
    - split; [lia|]. split; [intros; destruct Sp; lia|]. split; [lia|]. split; [lia|].
      split; [destruct (Z.eq_dec mylen 0); [|destruct Sp]; lia|]. split; [rewrite IC in Sm; lia|].
      intros q Hq Hne qpos ql Eq Hql Hs. pose proof (Idis p q Hp Hq ltac:(auto)) as D. rewrite Ep, Eq in D. lia.
    - destruct (Z.leb_spec (sb_size g + Z.max (len s) 8) (sb_capacity g)); [|lia].
      rewrite IC in *. assert (Eo : sb_off b (sb_size g + len s) = sb_size g + len s) by (apply Z.mod_small; lia).
      rewrite Eo. split; [lia|]. split; [lia|]. split; [lia|]. split; [lia|]. split; [lia|]. split; [lia|].
      intros q Hq Hne qpos ql Eq Hql Hs. pose proof (Islot q Hq) as Sq. unfold slot_ok in Sq. rewrite Eq in Sq. lia. }
  destruct place as [[pos size']|]; [|exact PL]. destruct PL as (B0 & B1 & B2 & B3 & B4 & B5 & B6).
  assert (Fit : len s <> 0 -> pos + len s <= len (sb_mem g)) by (intros; specialize (B1 H); lia).
  replace ((len s =? 0) || (OV <=? pos) && (pos + len s <=? len (sb_mem g))) with true
    by (destruct (Z.eqb_spec (len s) 0); [auto|]; symmetry; cbn [orb]; specialize (B1 n); lia).
  set (mem' := firstn (Z.to_nat pos) (sb_mem g) ++ s ++ skipn (Z.to_nat (pos + len s)) (sb_mem g)).
  assert (Mem : len mem' = len (sb_mem g) /\ (forall a l, 0 <= a -> 0 <= l -> a + l <= len (sb_mem g) ->
      (l = 0 \/ len s = 0 \/ a + l <= pos \/ pos + len s <= a) ->
      firstn (Z.to_nat l) (skipn (Z.to_nat a) mem') = firstn (Z.to_nat l) (skipn (Z.to_nat a) (sb_mem g))) /\
      firstn (Z.to_nat (len s)) (skipn (Z.to_nat pos) mem') = s).
  { destruct (Z.eq_dec (len s) 0) as [E|E].
    - assert (s = []) by (destruct s; [auto|rewrite len_cons in E; pose proof (len_nonneg s); lia]). subst s.
      unfold mem'. rewrite E, Z.add_0_r. cbn [app]. rewrite firstn_skipn. repeat split; auto.
    - specialize (Fit E). split; [now apply splice_len|]. split; [|now apply splice_self].
      intros. now apply splice_other. }
  destruct Mem as (M1 & M2 & M3).
  assert (Op : sb_off b pos = pos) by (apply Z.mod_small; lia).
  assert (Ol : sb_off b (len s) = len s).
  { apply Z.mod_small. destruct (Z.eq_dec (len s) 0); [pose proof pow_pos; lia|]. specialize (Fit n). lia. }
  rewrite Op, Ol.
  assert (Inf : forall q, nth q (set_nth p (pos, len s) (sb_info g)) (0, 0) = if (q =? p)%nat then (pos, len s) else nth q (sb_info g) (0, 0)).
  { intros q. apply set_nth_nth. lia. }
  split; [|split; [|split; [|cbn [sb_size]; lia]]].
  - split; [cbn [sb_info]; now rewrite set_nth_length|]. split; [cbn [sb_size]; lia|].
    split; [exact IC|]. split; [cbn [sb_mem]; lia|]. split; [auto|]. split.
    + intros q Hq. unfold slot_ok. cbn [sb_info sb_size]. rewrite Inf. unfold sb_capacity in *. cbn [sb_cap]. rewrite IC.
      destruct (Nat.eqb_spec q p) as [->|Hne]; [repeat split; try lia; apply B1; lia|].
      specialize (Islot q Hq). unfold slot_ok in Islot. destruct (nth q (sb_info g) (0, 0)). unfold sb_capacity in Islot.
      destruct Islot as (I1 & I2 & I3 & I4). repeat split; try lia; specialize (I3 H); lia.
    + intros q r Hq Hr Hqr. cbn [sb_info]. rewrite !Inf.
      destruct (Nat.eqb_spec q p) as [->|Hqp], (Nat.eqb_spec r p) as [->|Hrp]; [lia| | |].
      * destruct (nth r (sb_info g) (0, 0)) as [rp rl] eqn:Er. intros Hl Hl'. specialize (B6 r Hr Hrp rp rl Er Hl' Hl). lia.
      * destruct (nth q (sb_info g) (0, 0)) as [qp ql] eqn:Eq. intros Hl Hl'. specialize (B6 q Hq Hqp qp ql Eq Hl Hl'). lia.
      * exact (Idis q r Hq Hr Hqr).
  - unfold sb_get. cbn [sb_info sb_mem]. rewrite Inf, Nat.eqb_refl. exact M3.
  - intros q Hq Hne. unfold sb_get. cbn [sb_info sb_mem]. rewrite Inf. apply Nat.eqb_neq in Hne as Hne'. rewrite Hne'.
    destruct (nth q (sb_info g) (0, 0)) as [qp ql] eqn:Eq. pose proof (Islot q Hq) as Sq. unfold slot_ok in Sq. rewrite Eq in Sq.
    destruct Sq as (S1 & S2 & S3 & S4).
    destruct (Z.eq_dec ql 0) as [->|Hql]; [reflexivity|]. specialize (S3 Hql).
    apply M2; try lia. destruct (Z.eq_dec (len s) 0); [auto|]. right. right. exact (B6 q Hq Hne qp ql Eq Hql n).
Qed.

Lemma run_ok cap : forall ops g, bag_inv cap g -> (forall p s, In (p, s) ops -> (p < width)%nat) ->
  exists g' acc, sb_run b width g ops = Some (g', acc) /\ length acc = length ops /\ bag_inv cap g' /\
    forall p, (p < width)%nat -> sb_get g' p = bag_spec ops acc (sb_get g) p.
Proof.
  induction ops as [|[p s] ops IH]; intros g Hg Hin; cbn [sb_run].
  - exists g, []. repeat split; auto; apply Hg.
  - assert (Hp : (p < width)%nat) by (eapply Hin; left; reflexivity).
    pose proof (assign_ok cap g p s Hg Hp) as A. destruct (sb_assign b width g p s) as [g1| |]; [| |contradiction].
    + destruct A as (A1 & A2 & A3 & _). destruct (IH g1 A1) as (g' & acc & R & La & I & S).
      { intros; eapply Hin; right; eauto. }
      rewrite R. exists g', (true :: acc). split; [auto|]. split; [cbn; lia|]. split; [auto|].
      intros q Hq. rewrite S by auto. cbn [bag_spec].
      (* bag_spec depends on its map only at the slots < width *)
      assert (Ext : forall ops acc m m', (forall q, (q < width)%nat -> m q = m' q) -> forall q, (q < width)%nat -> bag_spec ops acc m q = bag_spec ops acc m' q).
      { clear. induction ops as [|[p s] ops IH]; intros acc m m' E q Hq; cbn; auto. destruct acc as [|[|] acc]; auto.
        apply IH; auto. intros q' Hq'. destruct (q' =? p)%nat; auto. }
      apply Ext; auto. intros q' Hq'. destruct (Nat.eqb_spec q' p) as [->|]; auto.
    + destruct (IH g Hg) as (g' & acc & R & La & I & S). { intros; eapply Hin; right; eauto. }
      rewrite R. exists g', (false :: acc). split; [auto|]. split; [cbn; lia|]. split; [auto|].
      intros q Hq. rewrite S by auto. reflexivity.
Qed.

(* safe_size: a fresh bag of that capacity accepts any strings of that total length. *)
Lemma safe_run cap : forall ops g total, bag_inv cap g -> (forall p s, In (p, s) ops -> (p < width)%nat) ->
  len (concat (map snd ops)) <= total -> sb_size g + total + 7 <= cap ->
  exists g' acc, sb_run b width g ops = Some (g', acc) /\ forallb (fun x => x) acc = true.
Proof.
  induction ops as [|[p s] ops IH]; intros g total Hg Hin Ht Hc; cbn [sb_run]; [eauto|].
  assert (Hp : (p < width)%nat) by (eapply Hin; left; reflexivity).
  cbn [map concat snd] in Ht. rewrite len_app in Ht. pose proof (len_nonneg s). pose proof (len_nonneg (concat (map snd ops))).
  pose proof (assign_ok cap g p s Hg Hp) as A.
  assert (Hr : len s = 0 -> sb_assign b width g p s <> SbRefused).
  { intros E. unfold sb_assign. destruct (nth p (sb_info g) (0, 0)) eqn:Ep. destruct Hg as (_ & _ & _ & _ & _ & Sl & _).
    specialize (Sl p Hp). unfold slot_ok in Sl. rewrite Ep in Sl. destruct (Z.leb_spec (len s) z0); [|lia].
    destruct (_ || _); discriminate. }
  destruct (sb_assign b width g p s) as [g1| |]; [| |contradiction].
  - destruct A as (A1 & _ & _ & A4). destruct (IH g1 (total - len s) A1) as (g' & acc & R & F); try lia.
    { intros; eapply Hin; right; eauto. }
    rewrite R. exists g', (true :: acc). auto.
  - destruct (Z.eq_dec (len s) 0); [exfalso; now apply Hr|lia].
Qed.
End Bag.

Lemma bag_history : forall b width cap mem0 ops, 8 <= b -> sb_overhead b width <= cap < 2 ^ b -> len mem0 = cap ->
  (forall p s, In (p, s) ops -> (p < width)%nat) ->
  exists g0 g acc, sb_make b width cap mem0 = Some g0 /\ sb_run b width g0 ops = Some (g, acc) /\ length acc = length ops /\
    forall p, (p < width)%nat -> sb_get g p = bag_spec ops acc (fun _ => []) p /\
      let '(pos, l) := nth p (sb_info g) (0, 0) in pos + Z.max l 8 <= Z.max cap 8.
Proof.
  intros b width cap mem0 ops Hb Hc Hm Hin.
  destruct (make_inv b Hb width cap mem0 Hc Hm) as (g0 & E0 & I0 & G0).
  destruct (run_ok b Hb width cap ops g0 I0 Hin) as (g & acc & R & La & I & S).
  exists g0, g, acc. split; [auto|]. split; [auto|]. split; [auto|]. intros p Hp. split.
  - rewrite S by auto.
    assert (Ext : forall ops acc m m', (forall q, m q = m' q) -> forall q, bag_spec ops acc m q = bag_spec ops acc m' q).
    { clear. induction ops as [|[p s] ops IH]; intros acc m m' E q; cbn; auto. destruct acc as [|[|] acc]; auto.
      apply IH; auto. intros q'. destruct (q' =? p)%nat; auto. }
    now apply Ext.
  - destruct I as (_ & _ & IC & _ & _ & Sl & _). specialize (Sl p Hp). unfold slot_ok in Sl. rewrite IC in Sl.
    destruct (nth p (sb_info g) (0, 0)). tauto.
Qed.

Lemma bag_safe : forall b width total cap mem0 ops, 8 <= b -> sb_safe_size b width total <= cap < 2 ^ b -> len mem0 = cap ->
  (forall p s, In (p, s) ops -> (p < width)%nat) -> len (concat (map snd ops)) <= total ->
  exists g0 g acc, sb_make b width cap mem0 = Some g0 /\ sb_run b width g0 ops = Some (g, acc) /\ forallb (fun x => x) acc = true.
Proof.
  intros b width total cap mem0 ops Hb Hc Hm Hin Ht. pose proof (len_nonneg (concat (map snd ops))).
  unfold sb_safe_size in Hc. pose proof (overhead_pos b Hb width).
  destruct (make_inv b Hb width cap mem0 ltac:(lia) Hm) as (g0 & E0 & I0 & G0).
  destruct (safe_run b Hb width cap ops g0 total I0 Hin Ht) as (g & acc & R & F).
  { unfold sb_make in E0. destruct (_ && _); [|discriminate]. injection E0 as <-. cbn [sb_size].
    unfold sb_off. rewrite Z.mod_small by lia. lia. }
  eauto 10.
Qed.
