(* Property theorems: C13 (version words report every change), C14 (the node lock). *)
From Verif Require Import Lib M_Version P_Version P_Version2.

(* nv_wf w: a 32-bit word whose unused bit is clear (every word a constructor, mark or unlock produces).
   tally es = (i, s, k, n): read off the lock holders' actions alone, whether an insert/split mark is pending, and
   how many critical sections that marked an insert or split (k), or a split (n), have completed. *)

(* C13: between a stable read w0 and a later word w1, if at least one modification completed or one is in progress,
   the readers' test reports a change; if a split completed, the split test reports it; fewer than 2^19
   completed modifications in between. *)
Theorem C13_changes_are_reported : forall w0 es w1 pi ps k n,
  nv_wf w0 -> nv_dirty w0 = false -> nv_run w0 es = Some w1 -> tally es = (pi, ps, k, n) -> k < 2 ^ 19 ->
  nv_wf w1 /\
  (0 < k \/ pi = true \/ ps = true -> nv_has_changed w1 w0 = true) /\
  (0 < n -> nv_has_split w1 w0 = true) /\
  nv_dirty w1 = pi || ps /\
  nv_isleaf w1 = nv_isleaf w0.
Proof. exact nv_change_detected. Qed.
Print Assumptions C13_changes_are_reported.

(* C13: lock and unlock without any mark is reported as no change, and restores the very same word. *)
Theorem C13_no_false_alarm : forall w0 es w1, nv_wf w0 -> nv_dirty w0 = false -> nv_run w0 es = Some w1 ->
  no_marks es = true ->
  nv_has_changed w1 w0 = false /\ nv_has_split w1 w0 = false /\ (nv_locked w1 = nv_locked w0 -> w1 = w0).
Proof. exact nv_unchanged. Qed.
Print Assumptions C13_no_false_alarm.

(* The bound cannot be dropped: exactly 2^19 splits bring the word back, and the change is missed. *)
Theorem C13_unbounded_refuted : exists w0 es, nv_wf w0 /\ nv_dirty w0 = false /\ nv_run w0 es = Some w0 /\
  tally es = (false, false, 2 ^ 19, 2 ^ 19) /\ nv_has_changed w0 w0 = false /\ nv_has_split w0 w0 = false.
Proof. exact bound_tight. Qed.
Print Assumptions C13_unbounded_refuted.

Example c13_witness : nv_wf (nv_init true) /\ nv_dirty (nv_init true) = false /\
  nv_run (nv_init true) [EvLock; EvMark MkInsert; EvUnlock; EvLock; EvUnlock; EvLock; EvMark (MkChange true); EvUnlock; EvLock]
    = Some (2 ^ 31 + 2 ^ 9 + 1) /\
  tally [EvLock; EvMark MkInsert; EvUnlock; EvLock; EvUnlock; EvLock; EvMark (MkChange true); EvUnlock; EvLock] = (false, false, 2, 1) /\
  no_marks [EvLock; EvUnlock; EvLock] = true.
Proof. split; [apply nv_wf_iff; vm_compute; repeat split; congruence|vm_compute; repeat split]. Qed.
(* The insert counter overflowing into the split counter keeps its history distinguishable. *)
Example c13_carry : nv_unlock (nv_lock (2 ^ 31 + 63 * 8) + 2) = 2 ^ 31 + 2 ^ 9 /\
  nv_has_changed (2 ^ 31 + 2 ^ 9) (2 ^ 31 + 63 * 8) = true.
Proof. vm_compute. auto. Qed.

(* C14: any number of threads, any interleaving of individual loads, stores and compare-and-swaps: at most one
   holds the lock, the lock bit is set exactly when one does, and the node-kind bit never changes. *)
Theorem C14_mutual_exclusion : forall v0 s, nv_wf v0 -> nv_dirty v0 = false -> nv_locked v0 = false -> nv_reach v0 s ->
  (forall t u, pc_holds (sy_pc s t) = true -> pc_holds (sy_pc s u) = true -> t = u) /\
  (nv_locked (sy_v s) = true <-> exists t, pc_holds (sy_pc s t) = true) /\
  nv_isleaf (sy_v s) = nv_isleaf v0.
Proof. exact mutual_exclusion. Qed.
Print Assumptions C14_mutual_exclusion.

(* C14: a word returned by stable() was the node's word at an earlier moment at which no modification was in progress. *)
Theorem C14_stable_reads_are_not_mid_modification : forall v0 s t r,
  nv_wf v0 -> nv_dirty v0 = false -> nv_locked v0 = false -> nv_reach v0 s ->
  sy_pc s t = PcStableDone r ->
  nv_dirty r = false /\ exists s0, nv_reach v0 s0 /\ sy_v s0 = r /\ sy_dirty s0 = false.
Proof.
  exact (fun v0 s t r A B C R H =>
    let S := stable_sound_reach v0 s A B C R t r (or_intror H) in
    conj (proj2 S H) (match proj1 S with ex_intro _ s0 (conj H1 (conj H2 H3)) =>
      ex_intro _ s0 (conj H1 (conj H2 (eq_trans H3 (proj2 S H)))) end)).
Qed.
Print Assumptions C14_stable_reads_are_not_mid_modification.

(* A reachable state in which thread 1 has lost the race, thread 0 holds the lock and is mid-modification. *)
Example c14_witness : exists s, nv_reach (nv_init true) s /\ sy_pc s 0%nat = PcHold /\ sy_pc s 1%nat = PcLockSpin /\
  sy_dirty s = true /\ nv_locked (sy_v s) = true.
Proof.
  eexists. split.
  - eapply RStep; [eapply RStep; [eapply RStep; [eapply RStep; [eapply RStep; [eapply RStep; [apply RInit|]|]|]|]|]|].
    + apply (SLockBegin _ 0%nat (nv_init true)); [reflexivity|vm_compute; split; congruence].
    + apply (SLockBegin _ 1%nat (nv_init true)); [reflexivity|vm_compute; split; congruence].
    + eapply (SLockOk _ 0%nat); reflexivity.
    + eapply (SLockFail _ 1%nat); [reflexivity|right; cbn; vm_compute; congruence].
    + apply (SMarkLoad _ 0%nat MkInsert); reflexivity.
    + eapply (SMarkStore _ 0%nat); reflexivity.
  - repeat split.
Qed.
