(* C61: the files of a checkpoint through a crash of the machine. *)
From Verif Require Import Lib M_Ckfile Spec_Ckfile P_Ckfile1 P_Ckfile2 P_Ckfile3.

(* All checkpoint directories on one disk that keeps directory changes in order: after any checkpoints, crashes and starts, a
   crash at any moment of the next checkpoint leaves files from which recovery reads a whole checkpoint: the one being
   made, one made since the last start, or what was found then; it never fails and never mixes two. Partial: not
   always the last one (C61_durable_refuted), and not with several disks (C61_two_disks_refuted) or unordered changes
   (C61_unordered_refuted). *)
Theorem C61_one_disk_partial (gen_of : list Z -> option nat) (n : nat) (dk : nat -> nat) (s : fs) (g : nat) (A : list ckpt) (parts : list (list Z)) (l1 l2 : list call) (keep : list bool) (junk : nat -> list Z) :
  (forall i, dk i = dk 0%nat) -> reach false (in_order dk) gen_of n s g A -> round false gen_of n g parts (l1 ++ l2) -> in_order dk (f_pend (calls s l1)) keep ->
  exists x, recover gen_of n (crash keep junk (calls s l1)) = Some x /\ In x (A ++ [Some (S g, parts)]).
Proof. exact (one_disk gen_of n dk s g A parts l1 l2 keep junk). Qed.
Print Assumptions C61_one_disk_partial.
(* A second checkpoint, stopped after the rename and one removal; the crash keeps the changes up to the rename or up to
   the file before it. *)
Example C61_one_disk_example :
  reach false (in_order (fun _ => 0%nat)) gen1 2 s2 1 [None; Some (1%nat, [[10; 11]; [20]])] /\ round false gen1 2 1 [[30; 31]; [40]] (round2 false 1 30 40) /\
  let s := calls s2 (firstn 12 (round2 false 1 30 40)) in
  in_order (fun _ => 0%nat) (f_pend s) (repeat true 10) /\ recover gen1 2 (crash (repeat true 10) (fun _ => [77]) s) = Some (Some (2%nat, [[30; 31]; [40]])) /\
  in_order (fun _ => 0%nat) (f_pend s) (repeat true 9) /\ recover gen1 2 (crash (repeat true 9) (fun _ => [77]) s) = Some (Some (1%nat, [[10; 11]; [20]])) /\
  contents (crash (repeat true 10) (fun _ => [77]) (calls s2 (firstn 5 (round2 false 1 30 40)))) (Ck 2 0) = Some [77].
Proof.
  split; [apply s2_reach|]. split; [apply round2_ok|]. cbv zeta. split; [vm_compute; repeat split; discriminate|]. split; [reflexivity|]. split; [vm_compute; repeat split; discriminate|]. split; reflexivity.
Qed.

(* With directories on two disks the server may be unable to start: the files of the old checkpoint are removed on one disk
   while the rename of kvd-ckp-gen is not yet on the other. Both checkpoints had been committed. *)
Theorem C61_two_disks_refuted : exists s g A parts l keep junk, reach false (in_order (fun i => i)) gen1 2 s g A /\ round false gen1 2 g parts l /\ in_order (fun i => i) (f_pend (calls s l)) keep /\
  recover gen1 2 s = Some (Some (1%nat, [[10; 11]; [20]])) /\ recover gen1 2 (calls s l) = Some (Some (2%nat, [[30; 31]; [40]])) /\ recover gen1 2 (crash keep junk (calls s l)) = None.
Proof. exact two_disks. Qed.
Print Assumptions C61_two_disks_refuted.

(* The same on one disk that may keep a removal without an earlier rename. *)
Theorem C61_unordered_refuted : exists s g A parts l keep junk, reach false any_order gen1 2 s g A /\ round false gen1 2 g parts l /\ recover gen1 2 (crash keep junk (calls s l)) = None.
Proof. exact unordered. Qed.
Print Assumptions C61_unordered_refuted.

(* Nor does a committed checkpoint survive: after two of them a crash may leave none. *)
Theorem C61_durable_refuted (dk : nat -> nat) : exists s l keep junk, reach false (in_order dk) gen1 2 s 1 [None; Some (1%nat, [[10; 11]; [20]])] /\ round false gen1 2 1 [[30; 31]; [40]] l /\ in_order dk (f_pend (calls s l)) keep /\
  recover gen1 2 s = Some (Some (1%nat, [[10; 11]; [20]])) /\ recover gen1 2 (calls s l) = Some (Some (2%nat, [[30; 31]; [40]])) /\ recover gen1 2 (crash keep junk (calls s l)) = Some None.
Proof. exact (not_durable dk). Qed.
Print Assumptions C61_durable_refuted.

(* With the directories synced before kvd-ckp-gen.tmp is written and after the rename, any number of disks and changes that
   survive in any order: recovery finds the last checkpoint committed or the one being made, whole. *)
Theorem C61_repaired (gen_of : list Z -> option nat) (n : nat) (s : fs) (g : nat) (A : list ckpt) (parts : list (list Z)) (l1 l2 : list call) (keep : list bool) (junk : nat -> list Z) :
  reach true any_order gen_of n s g A -> round true gen_of n g parts (l1 ++ l2) ->
  exists y x, A = [y] /\ gen_no y = g /\ recover gen_of n (crash keep junk (calls s l1)) = Some x /\ (x = y \/ x = Some (S g, parts)).
Proof. exact (repaired gen_of n s g A parts l1 l2 keep junk). Qed.
Print Assumptions C61_repaired.
Example C61_repaired_example :
  reach true any_order gen1 2 (calls fs0 (round2 true 0 10 20)) 1 [Some (1%nat, [[10; 11]; [20]])] /\ round true gen1 2 1 [[30; 31]; [40]] (round2 true 1 30 40) /\
  let s := calls (calls fs0 (round2 true 0 10 20)) (firstn 12 (round2 true 1 30 40)) in
  map (fun k => recover gen1 2 (crash k (fun _ => []) s)) [[true]; [false; false]; [true; true]; [false; true]] =
    [Some (Some (1%nat, [[10; 11]; [20]])); Some (Some (1%nat, [[10; 11]; [20]])); Some (Some (2%nat, [[30; 31]; [40]])); Some (Some (2%nat, [[30; 31]; [40]]))].
Proof. split; [exact (R_round true any_order gen1 2 fs0 0 [None] _ _ (R_start _ _ _ _) (round2_ok true 0 10 20))|]. split; [apply round2_ok|reflexivity]. Qed.

(* safe_write, whatever write returns: the bytes written are a beginning of the buffer, the count returned is theirs or -1 with
   nothing written, and it is the length of the buffer just when all was written (so that the files above are whole or the
   server stops). *)
Theorem C61_safe_write (rs : list wres) (b : list Z) (ps : list (list Z)) (r : Z) :
  safe_write rs b 0 = (ps, Some r) ->
  (exists rest, b = concat ps ++ rest) /\ (r = Z.of_nat (length (concat ps)) \/ r = -1 /\ ps = [] /\ b <> []) /\ (r = Z.of_nat (length b) <-> concat ps = b).
Proof. exact (safe_write_all rs b ps r). Qed.
Print Assumptions C61_safe_write.
Example C61_safe_write_example : safe_write [Eintr; Wrote 2; Eintr; Wrote 9] [1; 2; 3] 0 = ([[1; 2]; [3]], Some 3) /\ safe_write [Wrote 2; Fail] [1; 2; 3] 0 = ([[1; 2]], Some 2) /\ safe_write [Eintr; Fail] [1; 2; 3] 0 = ([], Some (-1)).
Proof. repeat split. Qed.
