(* Histories of a version word, and threads sharing it. *)
From Verif Require Import Lib M_Version P_Version.

(* Fields of a well-formed word: lock, inserting, splitting, 25-bit counter, deleted, root, isleaf; bit 28 is zero. *)
Definition enc (l i s c d r f : Z) : Z := l + 2 * i + 4 * s + 8 * c + 536870912 * d + 1073741824 * r + 2147483648 * f.
Definition fld (l i s c d r f : Z) : Prop :=
  0 <= l < 2 /\ 0 <= i < 2 /\ 0 <= s < 2 /\ 0 <= c < 33554432 /\ 0 <= d < 2 /\ 0 <= r < 2 /\ 0 <= f < 2.
Definition nv_wf (w : Z) : Prop := exists l i s c d r f, fld l i s c d r f /\ w = enc l i s c d r f.

Lemma nv_wf_iff w : nv_wf w <-> nv_word w /\ (w / 268435456) mod 2 = 0.
Proof.
  split.
  - intros (l & i & s & c & d & r & f & H & ->). unfold fld, enc, nv_word in *. lia.
  - intros [H U]. unfold nv_word in H.
    exists (w mod 2), ((w / 2) mod 2), ((w / 4) mod 2), ((w / 8) mod 33554432), ((w / 536870912) mod 2), ((w / 1073741824) mod 2), (w / 2147483648).
    unfold fld, enc. lia.
Qed.
Lemma enc_nonneg l i s c d r f : fld l i s c d r f -> nv_word (enc l i s c d r f).
Proof. unfold fld, enc, nv_word. lia. Qed.

Lemma enc_locked l i s c d r f : fld l i s c d r f -> nv_locked (enc l i s c d r f) = (l =? 1).
Proof. intros H. rewrite nv_locked_arith; unfold fld, enc in *; lia. Qed.
Lemma enc_inserting l i s c d r f : fld l i s c d r f -> nv_inserting (enc l i s c d r f) = (i =? 1).
Proof. intros H. rewrite nv_inserting_arith; unfold fld, enc in *; lia. Qed.
Lemma enc_splitting l i s c d r f : fld l i s c d r f -> nv_splitting (enc l i s c d r f) = (s =? 1).
Proof. intros H. rewrite nv_splitting_arith; unfold fld, enc in *; lia. Qed.
Lemma enc_dirty l i s c d r f : fld l i s c d r f -> nv_dirty (enc l i s c d r f) = (i =? 1) || (s =? 1).
Proof. intros H. rewrite nv_dirty_arith; unfold fld, enc in *; lia. Qed.
Lemma enc_isleaf l i s c d r f : fld l i s c d r f -> nv_isleaf (enc l i s c d r f) = (f =? 1).
Proof. intros H. rewrite nv_isleaf_arith; unfold fld, enc in *; lia. Qed.
Lemma enc_root l i s c d r f : fld l i s c d r f -> nv_is_root (enc l i s c d r f) = (r =? 1).
Proof. intros H. rewrite nv_root_arith; unfold fld, enc in *; lia. Qed.
Lemma enc_deleted l i s c d r f : fld l i s c d r f -> nv_deleted (enc l i s c d r f) = (d =? 1).
Proof. intros H. rewrite nv_deleted_arith; unfold fld, enc in *; lia. Qed.

Lemma enc_lock l i s c d r f : fld l i s c d r f -> nv_lock (enc l i s c d r f) = enc 1 i s c d r f.
Proof. intros H. rewrite nv_lock_arith; unfold fld, enc in *; lia. Qed.

Lemma enc_unlock l i s c d r f : fld l i s c d r f ->
  nv_unlock (enc l i s c d r f) =
  if s =? 1 then enc 0 0 0 (((c / 64 + 1) * 64) mod 33554432) d 0 f
  else enc 0 0 0 ((c + i) mod 33554432) d r f.
Proof.
  intros H. pose proof (enc_nonneg _ _ _ _ _ _ _ H) as Hn. pose proof (enc_splitting _ _ _ _ _ _ _ H) as Hs.
  destruct (Z.eqb_spec s 1) as [->|E].
  - rewrite (nv_unlock_split_arith _ Hn Hs). unfold fld in H.
    assert (A : (enc l i 1 c d r f + 512) mod 4294967296 = enc l i 1 c d r f + 512 - (if (c / 64 =? 524287) && (d =? 1) && (r =? 1) && (f =? 1) then 0 else 0)).
    { rewrite Z.mod_small; [destruct ((c / 64 =? 524287) && (d =? 1) && (r =? 1) && (f =? 1)); lia|unfold enc; lia]. }
    cbv zeta. rewrite A. replace (enc l i 1 c d r f + 512 - _) with (enc l i 1 c d r f + 512) by (destruct (_ && _); lia). clear A.
    set (a := enc l i 1 c d r f + 512).
    assert (R : (a / 1073741824) mod 2 = r) by (unfold a, enc; lia).
    assert (U : (a / 268435456) mod 2 = (if c / 64 =? 524287 then 1 else 0)) by (unfold a, enc; destruct (Z.eqb_spec (c / 64) 524287); lia).
    rewrite R, U. clear R U. unfold a, enc. destruct (Z.eqb_spec (c / 64) 524287); lia.
  - assert (s = 0) by (unfold fld in H; lia). subst s.
    rewrite (nv_unlock_insert_arith _ Hn Hs). unfold fld in H. cbv zeta.
    assert (I : (enc l i 0 c d r f / 2) mod 2 = i) by (unfold enc; lia). rewrite I.
    assert (A : (enc l i 0 c d r f + 8 * i) mod 4294967296 = enc l i 0 c d r f + 8 * i) by (rewrite Z.mod_small; unfold enc; lia).
    rewrite A. clear A. set (a := enc l i 0 c d r f + 8 * i).
    assert (U : (a / 268435456) mod 2 = (if c + i =? 33554432 then 1 else 0)) by (unfold a, enc; destruct (Z.eqb_spec (c + i) 33554432); lia).
    rewrite U. unfold a, enc. destruct (Z.eqb_spec (c + i) 33554432); lia.
Qed.

Definition mark_fld (m : nv_mark) (isdr : Z * Z * Z * Z) : Z * Z * Z * Z :=
  let '(i, s, d, r) := isdr in
  match m with
  | MkInsert => (1, s, d, r) | MkSplit => (i, 1, d, r)
  | MkChange true => (i, 1, d, r) | MkChange false => (1, s, d, r)
  | MkDeleted => (i, 1, 1, r) | MkDeletedTree => (i, s, 1, r) | MkRoot => (i, s, d, 1) | MkNonroot => (i, s, d, 0)
  end.
Lemma enc_mark m l i s c d r f : fld l i s c d r f ->
  nv_mark_apply m (enc l i s c d r f) = (let '(i', s', d', r') := mark_fld m (i, s, d, r) in enc l i' s' c d' r' f).
Proof.
  intros H. pose proof (enc_nonneg _ _ _ _ _ _ _ H) as Hn. unfold nv_word in Hn.
  assert (L1 : forall i s d r, fld l i s c d r f -> Z.lor (enc l i s c d r f) (2 ^ 1) = enc l 1 s c d r f).
  { intros. rewrite lor_pow2 by (unfold fld, enc in *; lia). change (2 ^ 1) with 2. unfold fld, enc in *; lia. }
  assert (L2 : forall i s d r, fld l i s c d r f -> Z.lor (enc l i s c d r f) (2 ^ 2) = enc l i 1 c d r f).
  { intros. rewrite lor_pow2 by (unfold fld, enc in *; lia). change (2 ^ 2) with 4. unfold fld, enc in *; lia. }
  assert (L3 : forall i s d r, fld l i s c d r f -> Z.lor (enc l i s c d r f) (2 ^ 29) = enc l i s c 1 r f).
  { intros. rewrite lor_pow2 by (unfold fld, enc in *; lia). change (2 ^ 29) with 536870912. unfold fld, enc in *; lia. }
  assert (L4 : forall i s d r, fld l i s c d r f -> Z.lor (enc l i s c d r f) (2 ^ 30) = enc l i s c d 1 f).
  { intros. rewrite lor_pow2 by (unfold fld, enc in *; lia). change (2 ^ 30) with 1073741824. unfold fld, enc in *; lia. }
  destruct m as [ | |[|]| | | | ]; cbn [nv_mark_apply mark_fld].
  - now apply L1.
  - now apply L2.
  - change (Z.shiftl (1 + 1) 1) with (2 ^ 2). now apply L2.
  - change (Z.shiftl (0 + 1) 1) with (2 ^ 1). now apply L1.
  - rewrite Z.lor_assoc. unfold nv_deleted_bit, nv_splitting_bit. rewrite L3 by auto. apply L2. unfold fld in *; lia.
  - now apply L3.
  - now apply L4.
  - unfold nv_wrap, nv_root_bit. rewrite land_clear by (change (2 ^ 32) with 4294967296; lia).
    change (2 ^ 30) with 1073741824. unfold fld, enc in *; lia.
Qed.
Lemma mark_fld_ok m l i s c d r f : fld l i s c d r f ->
  let '(i', s', d', r') := mark_fld m (i, s, d, r) in fld l i' s' c d' r' f.
Proof. intros. destruct m as [ | |[|]| | | | ]; cbn; unfold fld in *; lia. Qed.

(* ---- specification: what happened, read off the events alone ---- *)
(* (modification pending?, split pending?, completed modifications, completed splits) *)
Definition tally_step (t : bool * bool * Z * Z) (e : nv_event) : bool * bool * Z * Z :=
  let '(i, s, k, n) := t in
  match e with
  | EvLock => t
  | EvMark MkInsert | EvMark (MkChange false) => (true, s, k, n)
  | EvMark MkSplit | EvMark (MkChange true) | EvMark MkDeleted => (i, true, k, n)
  | EvMark _ => t
  | EvUnlock => (false, false, (if i || s then k + 1 else k), (if s then n + 1 else n))
  end.
Definition tally (es : list nv_event) : bool * bool * Z * Z := fold_left tally_step es (false, false, 0, 0).

Definition b2z (b : bool) : Z := if b then 1 else 0.

(* N is the counter as an unbounded integer. *)
Definition hist_inv (c0 f0 : Z) (w : Z) (t : bool * bool * Z * Z) (N : Z) : Prop :=
  let '(pi, ps, k, n) := t in
  exists l c d r, fld l (b2z pi) (b2z ps) c d r f0 /\ w = enc l (b2z pi) (b2z ps) c d r f0 /\
    c = N mod 33554432 /\ c0 + k <= N <= c0 + 64 * k /\ N / 64 <= c0 / 64 + k /\ c0 / 64 + n <= N / 64 /\ 0 <= n <= k /\
    (k = 0 -> N = c0).

Lemma hist_step c0 f0 w t N e : 0 <= c0 < 33554432 -> hist_inv c0 f0 w t N -> nv_event_ok w e = true ->
  exists N', hist_inv c0 f0 (nv_step w e) (tally_step t e) N'.
Proof.
  intros Hc0. destruct t as [[[pi ps] k] n]. intros (l & c & d & r & Hf & -> & Hc & Hb & Hb2 & Hb3 & Hn & H0) Hok.
  destruct e as [|m|]; cbn [nv_step tally_step].
  - exists N. exists 1, c, d, r. rewrite (enc_lock _ _ _ _ _ _ _ Hf). split; [unfold fld in *; lia|]. auto 10.
  - exists N. pose proof (enc_mark m _ _ _ _ _ _ _ Hf) as Em. pose proof (mark_fld_ok m _ _ _ _ _ _ _ Hf) as Ef.
    destruct m as [ | |[|]| | | | ]; cbn [mark_fld] in *; rewrite Em; eexists l, c, _, _;
      (split; [exact Ef|split; [reflexivity|auto 10]]).
  - rewrite (enc_unlock _ _ _ _ _ _ _ Hf). cbn [hist_inv].
    destruct ps; cbn [b2z Z.eqb orb] in *.
    + exists ((N / 64 + 1) * 64). rewrite orb_true_r.
      exists 0, (((c / 64 + 1) * 64) mod 33554432), d, 0.
      split; [unfold fld, b2z in *; lia|]. split; [reflexivity|].
      split; [|lia]. rewrite Hc. clear - Hc0 Hb Hn. lia.
    + change (0 =? 1) with false. cbv iota. exists (N + b2z pi). exists 0, ((c + b2z pi) mod 33554432), d, r.
      split; [unfold fld, b2z in *; destruct pi; lia|]. split; [reflexivity|].
      split; [rewrite Hc; clear; lia|]. rewrite orb_false_r. destruct pi; cbn [b2z] in *; lia.
Qed.

Lemma hist_run c0 f0 : 0 <= c0 < 33554432 -> forall es w t N w', hist_inv c0 f0 w t N -> nv_run w es = Some w' ->
  exists N', hist_inv c0 f0 w' (fold_left tally_step es t) N'.
Proof.
  intros Hc0. induction es as [|e es IH]; intros w t N w' H R; cbn in *.
  - injection R as <-. eauto.
  - destruct (nv_event_ok w e) eqn:E; [|discriminate]. destruct (hist_step _ _ _ _ _ _ Hc0 H E) as [N' H']. eauto.
Qed.

Lemma nv_change_detected : forall w0 es w1 pi ps k n,
  nv_wf w0 -> nv_dirty w0 = false -> nv_run w0 es = Some w1 -> tally es = (pi, ps, k, n) -> k < 2 ^ 19 ->
  nv_wf w1 /\
  (0 < k \/ pi = true \/ ps = true -> nv_has_changed w1 w0 = true) /\
  (0 < n -> nv_has_split w1 w0 = true) /\
  nv_dirty w1 = pi || ps /\
  nv_isleaf w1 = nv_isleaf w0.
Proof.
  intros w0 es w1 pi ps k n (l & i & s & c & d & r & f & Hf & ->) Hd Hr Ht Hk.
  change (2 ^ 19) with 524288 in Hk.
  rewrite enc_dirty in Hd by auto. assert (i = 0 /\ s = 0) as [-> ->] by (unfold fld in Hf; lia).
  assert (H0 : hist_inv c f (enc l 0 0 c d r f) (false, false, 0, 0) c).
  { exists l, c, d, r. cbn [b2z]. split; [auto|]. split; [auto|]. unfold fld in Hf. lia. }
  assert (Hc0 : 0 <= c < 33554432) by (unfold fld in Hf; lia).
  destruct (hist_run c f Hc0 es _ _ _ _ H0 Hr) as [N H1]. fold (tally es) in H1. rewrite Ht in H1.
  destruct H1 as (l1 & c1 & d1 & r1 & Hf1 & -> & Hc & Hb & Hb2 & Hb3 & Hn & Hk0).
  pose proof (enc_nonneg _ _ _ _ _ _ _ Hf) as W0. pose proof (enc_nonneg _ _ _ _ _ _ _ Hf1) as W1. unfold nv_word in *.
  split; [now eexists _, _, _, _, _, _, _; split; [exact Hf1|]|].
  split; [|split; [|split]].
  - intros Hdis. rewrite nv_has_changed_arith by lia. apply negb_true_iff, Z.eqb_neq. intros E.
    assert (E3 : b2z pi = 0 /\ b2z ps = 0 /\ c = c1) by (clear - E Hf Hf1; unfold fld, enc in *; lia).
    destruct E3 as (E1 & E2 & E3). destruct Hdis as [Hp|[->| ->]]; [|discriminate|discriminate].
    clear - E3 Hc Hb Hp Hk Hc0. lia.
  - intros Hs. rewrite nv_has_split_arith by lia. apply negb_true_iff, Z.eqb_neq. intros E.
    assert (E3 : c / 64 = c1 / 64) by (clear - E Hf Hf1; unfold fld, enc in *; lia).
    clear - E3 Hc Hb2 Hb3 Hs Hn Hk Hc0. lia.
  - rewrite enc_dirty by auto. destruct pi, ps; reflexivity.
  - rewrite !enc_isleaf by auto. reflexivity.
Qed.

(* No marks at all: reported unchanged (and not split), whether or not somebody holds the lock. *)
Definition no_marks (es : list nv_event) : bool := forallb (fun e => match e with EvMark _ => false | _ => true end) es.
Lemma nv_unchanged : forall w0 es w1, nv_wf w0 -> nv_dirty w0 = false -> nv_run w0 es = Some w1 -> no_marks es = true ->
  nv_has_changed w1 w0 = false /\ nv_has_split w1 w0 = false /\ (nv_locked w1 = nv_locked w0 -> w1 = w0).
Proof.
  intros w0 es w1 (l & i & s & c & d & r & f & Hf & ->) Hd Hr Hm.
  rewrite enc_dirty in Hd by auto. assert (i = 0 /\ s = 0) as [-> ->] by (unfold fld in Hf; lia). clear Hd.
  assert (G : exists l1, fld l1 0 0 c d r f /\ w1 = enc l1 0 0 c d r f).
  { assert (H0 : exists l1, fld l1 0 0 c d r f /\ enc l 0 0 c d r f = enc l1 0 0 c d r f) by eauto.
    remember (enc l 0 0 c d r f) as w. clear Heqw. revert w H0 Hr. induction es as [|e es IH]; intros w (l1 & F1 & ->) Hr; cbn in *.
    - injection Hr as <-. eauto.
    - apply andb_true_iff in Hm as [He Hm]. destruct (nv_event_ok _ e); [|discriminate]. refine (IH Hm _ _ Hr). clear IH Hr.
      destruct e as [|m|]; [| discriminate|]; cbn [nv_step].
      + rewrite enc_lock by auto. exists 1. split; auto. unfold fld in *; lia.
      + rewrite enc_unlock by auto. exists 0. split; [unfold fld in *; lia|]. cbn. f_equal. unfold fld in *; lia. }
  destruct G as (l1 & F1 & ->).
  pose proof (enc_nonneg _ _ _ _ _ _ _ Hf) as W0. pose proof (enc_nonneg _ _ _ _ _ _ _ F1) as W1. unfold nv_word in *.
  rewrite nv_has_changed_arith, nv_has_split_arith by lia. rewrite !enc_locked by auto.
  unfold fld, enc in *. repeat split; try lia.
Qed.

(* The bound is tight: 2^19 splits wrap the split counter. *)
Definition split_cycle : list nv_event := [EvLock; EvMark MkSplit; EvUnlock].

(* ---- threads ---- *)
Definition pc_ok (s : nv_sys) (t : nat) : Prop :=
  match sy_pc s t with
  | PcMark _ r | PcUnlock r => r = sy_v s
  | _ => True
  end.
Definition sys_inv (isleaf : bool) (s : nv_sys) : Prop :=
  nv_wf (sy_v s) /\ nv_isleaf (sy_v s) = isleaf /\
  (forall t u, pc_holds (sy_pc s t) = true -> pc_holds (sy_pc s u) = true -> t = u) /\
  (nv_locked (sy_v s) = true <-> exists t, pc_holds (sy_pc s t) = true) /\
  (forall t, pc_ok s t) /\
  nv_dirty (sy_v s) = sy_dirty s /\
  (sy_dirty s = true -> nv_locked (sy_v s) = true).

Lemma wf_lock w : nv_wf w -> nv_wf (nv_lock w) /\ nv_isleaf (nv_lock w) = nv_isleaf w /\ nv_locked (nv_lock w) = true /\ nv_dirty (nv_lock w) = nv_dirty w.
Proof.
  intros (l & i & s & c & d & r & f & Hf & ->). rewrite enc_lock by auto.
  assert (F : fld 1 i s c d r f) by (unfold fld in *; lia).
  rewrite !enc_isleaf, !enc_locked, !enc_dirty by auto. repeat split. now exists 1, i, s, c, d, r, f.
Qed.
Lemma wf_unlock w : nv_wf w -> nv_wf (nv_unlock w) /\ nv_isleaf (nv_unlock w) = nv_isleaf w /\ nv_locked (nv_unlock w) = false /\ nv_dirty (nv_unlock w) = false.
Proof.
  intros (l & i & s & c & d & r & f & Hf & ->). rewrite enc_unlock by auto. destruct (s =? 1).
  - assert (F : fld 0 0 0 (((c / 64 + 1) * 64) mod 33554432) d 0 f) by (unfold fld in *; lia).
    rewrite !enc_isleaf, !enc_locked, !enc_dirty by auto. repeat split. now eexists _, _, _, _, _, _, _; split; [exact F|].
  - assert (F : fld 0 0 0 ((c + i) mod 33554432) d r f) by (unfold fld in *; lia).
    rewrite !enc_isleaf, !enc_locked, !enc_dirty by auto. repeat split. now eexists _, _, _, _, _, _, _; split; [exact F|].
Qed.
Lemma wf_mark m w : nv_wf w -> nv_wf (nv_mark_apply m w) /\ nv_isleaf (nv_mark_apply m w) = nv_isleaf w /\
  nv_locked (nv_mark_apply m w) = nv_locked w /\ nv_dirty (nv_mark_apply m w) = nv_dirty w || nv_mark_dirties m.
Proof.
  intros (l & i & s & c & d & r & f & Hf & ->). rewrite enc_mark by auto.
  pose proof (mark_fld_ok m _ _ _ _ _ _ _ Hf) as F.
  destruct m as [ | |[|]| | | | ]; cbn [mark_fld nv_mark_dirties] in *;
    rewrite !enc_isleaf, !enc_locked, !enc_dirty by auto;
    (split; [now eexists _, _, _, _, _, _, _; split; [exact F|]|]); unfold fld in *; repeat split; lia.
Qed.

Lemma upd_same f t p : nv_upd f t p t = p. Proof. unfold nv_upd. now rewrite Nat.eqb_refl. Qed.
Lemma upd_other f t p u : u <> t -> nv_upd f t p u = f u.
Proof. unfold nv_upd. intros H. apply Nat.eqb_neq in H. now rewrite H. Qed.

(* A step that changes neither the word nor who holds the lock. *)
Lemma inv_local b s t p : sys_inv b s -> pc_holds p = pc_holds (sy_pc s t) ->
  (match p with PcMark _ r | PcUnlock r => r = sy_v s | _ => True end) ->
  sys_inv b {| sy_v := sy_v s; sy_pc := nv_upd (sy_pc s) t p; sy_dirty := sy_dirty s |}.
Proof.
  intros (A & B & C & D & E & F & G) Hp Hr. unfold sys_inv, pc_ok. cbn [sy_v sy_pc sy_dirty].
  assert (K : forall u, pc_holds (nv_upd (sy_pc s) t p u) = pc_holds (sy_pc s u)).
  { intros u. destruct (Nat.eq_dec u t) as [->|]; [now rewrite upd_same|now rewrite upd_other]. }
  split; [auto|]. split; [auto|]. split; [intros t' u; rewrite !K; auto|]. split.
  - rewrite D. split; intros [u Hu]; exists u; [now rewrite K|now rewrite K in Hu].
  - split; [|auto]. intros u. destruct (Nat.eq_dec u t) as [->|]; [now rewrite upd_same|rewrite upd_other by auto; apply E].
Qed.

Lemma inv_acquire b s t e : sys_inv b s -> pc_holds (sy_pc s t) = false -> nv_locked e = false -> sy_v s = e ->
  sys_inv b {| sy_v := nv_lock e; sy_pc := nv_upd (sy_pc s) t PcHold; sy_dirty := sy_dirty s |}.
Proof.
  intros (A & B & C & D & E & F & G) Hp Hl He. rewrite <- He in *. destruct (wf_lock _ A) as (W1 & W2 & W3 & W4).
  assert (N : forall u, pc_holds (sy_pc s u) = false).
  { intros u. destruct (pc_holds (sy_pc s u)) eqn:X; auto. assert (nv_locked (sy_v s) = true) by (apply D; eauto). congruence. }
  unfold sys_inv, pc_ok. cbn [sy_v sy_pc sy_dirty].
  split; [auto|]. split; [congruence|]. split.
  - intros t' u H1 H2. destruct (Nat.eq_dec t' t) as [->|]; [|rewrite upd_other, N in H1 by auto; discriminate].
    destruct (Nat.eq_dec u t) as [->|]; auto. rewrite upd_other, N in H2 by auto; discriminate.
  - split; [split; [intros _; exists t; now rewrite upd_same|auto]|]. split.
    + intros u. destruct (Nat.eq_dec u t) as [->|]; [now rewrite upd_same|rewrite upd_other by auto].
      specialize (N u). destruct (sy_pc s u); auto; discriminate.
    + split; [congruence|]. auto.
Qed.

Lemma inv_step b s s' : sys_inv b s -> nv_sstep s s' -> sys_inv b s'.
Proof.
  intros I St. destruct St as [s t e Hp He|s t e Hp He|s t Hp|s t e Hp Hl He|s t Hp|s t e Hp He|s t e Hp Hl He|s t m Hp|s t m r Hp|s t Hp|s t r Hp|s t Hp|s t r Hp Hd|s t r Hp];
    try (apply inv_local; [exact I|rewrite Hp; reflexivity|now auto]).
  - apply inv_acquire; auto. now rewrite Hp.
  - apply inv_acquire; auto. now rewrite Hp.
  - destruct I as (A & B & C & D & E & F & G). pose proof (E t) as Et. unfold pc_ok in Et. rewrite Hp in Et. subst r.
    destruct (wf_mark m _ A) as (W1 & W2 & W3 & W4).
    assert (Lk : nv_locked (sy_v s) = true) by (apply D; exists t; now rewrite Hp).
    assert (K : forall u, pc_holds (nv_upd (sy_pc s) t PcHold u) = pc_holds (sy_pc s u)).
    { intros u. destruct (Nat.eq_dec u t) as [->|]; [now rewrite upd_same, Hp|now rewrite upd_other]. }
    unfold sys_inv, pc_ok. cbn [sy_v sy_pc sy_dirty]. split; [auto|]. split; [congruence|].
    split; [intros t' u; rewrite !K; auto|]. split.
    { rewrite W3, D. split; intros [u Hu]; exists u; [now rewrite K|now rewrite K in Hu]. }
    split.
    { intros u. destruct (Nat.eq_dec u t) as [->|Hu]; [now rewrite upd_same|rewrite upd_other by auto].
      destruct (pc_holds (sy_pc s u)) eqn:X; [exfalso; apply Hu, C; [auto|now rewrite Hp]|]. destruct (sy_pc s u); auto; discriminate. }
    split; [congruence|]. intros _. congruence.
  - destruct I as (A & B & C & D & E & F & G). pose proof (E t) as Et. unfold pc_ok in Et. rewrite Hp in Et. subst r.
    destruct (wf_unlock _ A) as (W1 & W2 & W3 & W4).
    assert (N : forall u, u <> t -> pc_holds (sy_pc s u) = false).
    { intros u Hu. destruct (pc_holds (sy_pc s u)) eqn:X; auto. exfalso. apply Hu, C; auto. now rewrite Hp. }
    unfold sys_inv, pc_ok. cbn [sy_v sy_pc sy_dirty]. split; [auto|]. split; [congruence|].
    assert (K : forall u, pc_holds (nv_upd (sy_pc s) t PcIdle u) = false).
    { intros u. destruct (Nat.eq_dec u t) as [->|]; [now rewrite upd_same|rewrite upd_other; auto]. }
    split; [intros t' u H1; rewrite K in H1; discriminate|]. split.
    { rewrite W3. split; [discriminate|intros [u Hu]; rewrite K in Hu; discriminate]. }
    split.
    { intros u. specialize (K u). destruct (nv_upd (sy_pc s) t PcIdle u); auto; discriminate. }
    split; [auto|discriminate].
  - destruct Hp as [Hp|(r & Hp & _)]; apply inv_local; auto; now rewrite Hp.
Qed.

Lemma inv_reach v0 s : nv_wf v0 -> nv_dirty v0 = false -> nv_locked v0 = false -> nv_reach v0 s -> sys_inv (nv_isleaf v0) s.
Proof.
  intros W Dy L R. induction R.
  - unfold sys_inv, pc_ok. cbn. repeat split; auto; try congruence; try discriminate. intros [t H]; discriminate.
  - eapply inv_step; eauto.
Qed.

Lemma mutual_exclusion v0 s : nv_wf v0 -> nv_dirty v0 = false -> nv_locked v0 = false -> nv_reach v0 s ->
  (forall t u, pc_holds (sy_pc s t) = true -> pc_holds (sy_pc s u) = true -> t = u) /\
  (nv_locked (sy_v s) = true <-> exists t, pc_holds (sy_pc s t) = true) /\
  nv_isleaf (sy_v s) = nv_isleaf v0.
Proof. intros A B C R. destruct (inv_reach _ _ A B C R) as (_ & H1 & H2 & H3 & _). auto. Qed.

(* stable(): at the load whose value is returned, no modification was in progress. *)
Lemma stable_not_mid v0 s t s' : nv_wf v0 -> nv_dirty v0 = false -> nv_locked v0 = false -> nv_reach v0 s ->
  nv_sstep s s' -> sy_pc s' t = PcStable (sy_v s) -> sy_v s' = sy_v s ->
  nv_dirty (sy_v s) = false -> sy_dirty s = false.
Proof. intros A B C R _ _ _ D. destruct (inv_reach _ _ A B C R) as (_ & _ & _ & _ & _ & E & _). congruence. Qed.

(* Every word that stable() returns was the node's word, with no modification in progress, at some earlier moment. *)
Definition stable_sound (v0 : Z) (s : nv_sys) : Prop :=
  forall t r, sy_pc s t = PcStable r \/ sy_pc s t = PcStableDone r ->
    (exists s0, nv_reach v0 s0 /\ sy_v s0 = r /\ sy_dirty s0 = nv_dirty r) /\ (sy_pc s t = PcStableDone r -> nv_dirty r = false).
Lemma stable_sound_reach v0 s : nv_wf v0 -> nv_dirty v0 = false -> nv_locked v0 = false -> nv_reach v0 s -> stable_sound v0 s.
Proof.
  intros W Dy L R. induction R as [|s s' R IH St].
  - intros t r [H|H]; discriminate.
  - pose proof (inv_reach _ _ W Dy L R) as (_ & _ & _ & _ & _ & F & _).
    intros t r Hr. unfold stable_sound in IH.
    assert (Q : forall (f : nat -> nv_pc) u p, f = nv_upd (sy_pc s) u p -> t <> u -> f t = sy_pc s t).
    { intros f u p -> Hne. now apply upd_other. }
    destruct St as [s u e Hp He|s u e Hp He|s u Hp|s u e Hp Hl He|s u Hp|s u e Hp He|s u e Hp Hl He|s u m Hp|s u m r0 Hp|s u Hp|s u r0 Hp|s u Hp|s u r0 Hp Hd|s u r0 Hp];
    cbn [sy_pc] in *; (destruct (Nat.eq_dec t u) as [->|Hne];
      [rewrite upd_same in *|rewrite (Q _ u _ eq_refl Hne) in *; now apply IH]);
    try (destruct Hr; discriminate).
    + destruct Hr as [E|E]; [|discriminate]. injection E as <-. split; [exists s; auto|discriminate].
    + destruct Hr as [E|E]; [discriminate|]. injection E as <-. split; [|auto]. apply (IH u r0). auto.
Qed.

(* ---- the bound is tight ---- *)
Fixpoint split_cycles (n : nat) : list nv_event := match n with O => [] | S n' => split_cycle ++ split_cycles n' end.
Lemma split_cycles_run n : forall j, 0 <= j ->
  nv_run (enc 0 0 0 ((64 * j) mod 33554432) 0 0 1) (split_cycles n) = Some (enc 0 0 0 ((64 * (j + Z.of_nat n)) mod 33554432) 0 0 1).
Proof.
  induction n; intros j Hj.
  - cbn [split_cycles nv_run]. now replace (j + Z.of_nat 0) with j by lia.
  - cbn [split_cycles split_cycle app nv_run nv_event_ok nv_step].
    assert (F : forall l s, 0 <= l < 2 -> 0 <= s < 2 -> fld l 0 s ((64 * j) mod 33554432) 0 0 1) by (unfold fld; intros; lia).
    rewrite enc_locked by (apply F; lia). cbn [negb Z.eqb]. rewrite enc_lock by (apply F; lia).
    rewrite enc_locked by (apply F; lia). rewrite Z.eqb_refl. rewrite enc_mark by (apply F; lia). cbn [mark_fld].
    rewrite enc_locked by (apply F; lia). rewrite Z.eqb_refl. rewrite enc_unlock by (apply F; lia). rewrite Z.eqb_refl.
    replace ((((64 * j) mod 33554432 / 64 + 1) * 64) mod 33554432) with ((64 * (j + 1)) mod 33554432) by (clear; lia).
    rewrite IHn by lia. now replace (j + 1 + Z.of_nat n) with (j + Z.of_nat (S n)) by lia.
Qed.
Lemma split_cycles_tally n : forall k m, fold_left tally_step (split_cycles n) (false, false, k, m) = (false, false, k + Z.of_nat n, m + Z.of_nat n).
Proof.
  induction n; intros; cbn [split_cycles split_cycle app fold_left tally_step].
  - now replace (k + Z.of_nat 0) with k by lia; replace (m + Z.of_nat 0) with m by lia.
  - rewrite IHn. cbn [orb].
    now replace (k + 1 + Z.of_nat n) with (k + Z.of_nat (S n)) by lia; replace (m + 1 + Z.of_nat n) with (m + Z.of_nat (S n)) by lia.
Qed.
Lemma bound_tight : exists w0 es, nv_wf w0 /\ nv_dirty w0 = false /\ nv_run w0 es = Some w0 /\
  tally es = (false, false, 2 ^ 19, 2 ^ 19) /\ nv_has_changed w0 w0 = false /\ nv_has_split w0 w0 = false.
Proof.
  exists (enc 0 0 0 ((64 * 0) mod 33554432) 0 0 1), (split_cycles (Z.to_nat 524288)).
  assert (F : fld 0 0 0 ((64 * 0) mod 33554432) 0 0 1) by (unfold fld; lia).
  pose proof (enc_nonneg _ _ _ _ _ _ _ F) as W. unfold nv_word in W.
  split; [now eexists _, _, _, _, _, _, _; split; [exact F|]|]. split; [now rewrite enc_dirty|]. split.
  - rewrite split_cycles_run, Z2Nat.id by lia. reflexivity.
  - split; [unfold tally; rewrite split_cycles_tally, Z2Nat.id by lia; reflexivity|].
    rewrite nv_has_changed_arith, nv_has_split_arith by lia. rewrite !Z.eqb_refl. auto.
Qed.
