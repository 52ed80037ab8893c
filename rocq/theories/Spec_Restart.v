(* The life of a server up to the moment a checkpoint is committed, and what has to hold then and when it crashes for the
   server to be able to restart from it. *)
From Verif Require Import Lib Spec_Log M_Logset M_Restart.

(* The checkpoint starts after a, is complete after b and is committed after c; it covers the epochs from ck_min to
   ck_max (mtd.cc:1657, 1556). *)
Definition ck_life (s0 : lset) (a b c : list act) (s : lset) (ck_min ck_max : Z) : Prop :=
  exists s1 s2, ls_run s0 a = Some s1 /\ s_epoch s1 = ck_min /\ ls_run s1 b = Some s2 /\ s_epoch s2 = ck_max /\ ls_run s2 c = Some s /\ may_commit s ck_max = true.
(* At the commit no log has been asleep since the checkpoint ended, and every log has been flushed at least once. *)
Definition awake (s : lset) (ck_max : Z) : Prop := forall g, In g (s_logs s) -> if lg_quiescent g then ck_max < l_flushed g else l_flushed g <> 0.
(* At the crash no file ends with a quiescent entry older than the end of the checkpoint. *)
Definition slept_after (s : lset) (ck_max : Z) : Prop :=
  forall g, In g (s_logs s) -> ends_quiescent (firstn (l_disk g) (l_all g)) = true -> ck_max < epoch_after 0 (firstn (l_disk g) (l_all g)).
(* Every log began before the checkpoint. *)
Definition began_before (s : lset) (ck_min : Z) : Prop := forall g, In g (s_logs s) -> first_epoch (l_all g) < ck_min.
