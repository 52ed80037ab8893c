(* C16: the list of leaves under concurrency. *)
From Verif Require Import Lib M_Link Spec_Link P_Link6 P_Link7.

(* When nobody works on the list, next pointers give exactly the leaves that splits added and removals left, in order and
   unmarked, and previous pointers give the same list backwards. *)
Theorem C16_quiet : forall g p l s ds, lexec (l_init g p) l = Some (s, ds) -> idle s ->
  forward (l_nx s) (Some first) (live ds) /\ (forall x, In x (live ds) -> snd (l_nx s x) = false) /\ backward (l_pv s) (Some (last (live ds) first)) (rev (live ds)).
Proof. exact quiet. Qed.
Print Assumptions C16_quiet.

(* At every moment the next pointers from the first leaf lead to the end, through all leaves of the list in order. Other
   leaves on the way were unlinked; there are none if no split is going on. No null pointer is followed.
   Missing: the full claim says that there are never other leaves; see C16_exact_refuted. *)
Theorem C16_path_partial : forall g p l s ds, lexec (l_init g p) l = Some (s, ds) ->
  l_bad s = false /\ exists P, forward (l_nx s) (Some first) P /\ sublist (live ds) P /\ (forall x, In x P -> In x (live ds) \/ In (DUnlink x) ds) /\ (~ splitting s -> P = live ds).
Proof. exact always. Qed.
Print Assumptions C16_path_partial.

(* A leaf that was unlinked can still be reached: its removal completes through the new leaf of a split whose last store is outstanding. *)
Theorem C16_exact_refuted : exists g p l s ds P, lexec (l_init g p) l = Some (s, ds) /\ forward (l_nx s) (Some first) P /\ P <> live ds.
Proof. exact exact_refuted. Qed.
Print Assumptions C16_exact_refuted.

(* Operations wait for each other, but never in a circle: from every reachable state all of them can finish. *)
Theorem C16_no_deadlock : forall g p l s ds, lexec (l_init g p) l = Some (s, ds) -> exists l' s' ds', accesses l' /\ lexec s l' = Some (s', ds') /\ idle s'.
Proof. exact can_finish. Qed.
Print Assumptions C16_no_deadlock.

(* Two splits, then a removal and a split of neighbours interleaved one access at a time, then completion. *)
Definition mixed_run : list llabel :=
  [BeginLink 0 0 1] ++ repeat (Access 0) 5 ++ [BeginLink 0 0 2] ++ repeat (Access 0) 6 ++
  [BeginUnlink 1 2; BeginLink 0 0 3] ++ concat (repeat [Access 0; Access 1] 5).
Definition idleb (N : nat) (s : lstate) : bool := forallb (fun i => match l_pc s i with LIdle => true | _ => false end) (seq 0 N).
Example C16_example_busy :
  match lexec (l_init (fun _ => (None, false)) (fun _ => None)) mixed_run with Some (s, ds) => (idleb 2 s, ds) | None => (true, []) end = (false, [DLink 0 1; DLink 0 2]).
Proof. vm_compute. reflexivity. Qed.
Definition none_run : option (lstate * list ldone) := lexec (l_init (fun _ => (None, false)) (fun _ => None)) (mixed_run ++ repeat (Access 0) 1 ++ repeat (Access 1) 3).
Example C16_example :
  match none_run with Some (s, ds) => (idleb 2 s, ds, live ds) | None => (false, [], []) end = (true, [DLink 0 1; DLink 0 2; DLink 0 3; DUnlink 2], [0%nat; 3%nat; 1%nat]).
Proof. vm_compute. reflexivity. Qed.
