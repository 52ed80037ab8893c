(* Property theorems: C12 (suffix bags keep the string last stored in each slot). *)
From Verif Require Import Lib M_Stringbag P_Stringbag.

(* C12: a bag of any offset width b, any number of slots, any capacity below 2^b, and any sequence of stores.
   No store writes outside the string area; every slot holds the string of its last accepted store
   (bag_spec: a plain map updated only by accepted stores); and 8 bytes can be read at every slot's string. *)
Theorem C12_every_slot_keeps_its_string : forall b width cap mem0 ops,
  8 <= b -> sb_overhead b width <= cap < 2 ^ b -> len mem0 = cap ->
  (forall p s, In (p, s) ops -> (p < width)%nat) ->
  exists g0 g acc, sb_make b width cap mem0 = Some g0 /\ sb_run b width g0 ops = Some (g, acc) /\ length acc = length ops /\
    forall p, (p < width)%nat -> sb_get g p = bag_spec ops acc (fun _ => []) p /\
      let '(pos, l) := nth p (sb_info g) (0, 0) in pos + Z.max l 8 <= Z.max cap 8.
Proof. exact bag_history. Qed.
Print Assumptions C12_every_slot_keeps_its_string.

(* C12: a bag allocated with safe_size(width, total) refuses no store while the stored lengths sum to at most total. *)
Theorem C12_safe_size_is_enough : forall b width total cap mem0 ops,
  8 <= b -> sb_safe_size b width total <= cap < 2 ^ b -> len mem0 = cap ->
  (forall p s, In (p, s) ops -> (p < width)%nat) -> len (concat (map snd ops)) <= total ->
  exists g0 g acc, sb_make b width cap mem0 = Some g0 /\ sb_run b width g0 ops = Some (g, acc) /\
    forallb (fun x => x) acc = true.
Proof. exact bag_safe. Qed.
Print Assumptions C12_safe_size_is_enough.

(* The constructor also admits capacity = 2^b exactly, and there the property fails: filling the bag to the last
   byte wraps size_ to zero, and the next store overwrites the bag's own header. *)
Theorem C12_full_capacity_refuted : exists b width mem0 ops g0,
  8 <= b /\ sb_overhead b width <= 2 ^ b /\ len mem0 = 2 ^ b /\
  (forall p s, In (p, s) ops -> (p < width)%nat) /\
  sb_make b width (2 ^ b) mem0 = Some g0 /\ sb_run b width g0 ops = None.
Proof.
  exists 8, 2%nat, (repeat 0 256), [(0%nat, repeat 65 250); (1%nat, [66])].
  eexists. split; [lia|]. split; [vm_compute; congruence|]. split; [vm_compute; reflexivity|]. split.
  - intros p s [H|[H|[]]]; injection H as <- <-; lia.
  - split; vm_compute; reflexivity.
Qed.
Print Assumptions C12_full_capacity_refuted.

(* A bag of three slots: stores that append, reuse a slot in place, move a slot, and are refused. *)
Definition c12_ops : list (nat * list Z) :=
  [(0%nat, [1; 2; 3; 4; 5]); (1%nat, [9]); (0%nat, [7; 7]); (2%nat, repeat 4 40); (1%nat, [6; 6; 6]); (0%nat, repeat 8 20)].
Example c12_witness : sb_overhead 8 3 <= 50 < 2 ^ 8 /\
  (match sb_make 8 3 50 (repeat 0 50) with
   | Some g0 => match sb_run 8 3 g0 c12_ops with
     | Some (g, acc) => acc = [true; true; true; false; true; true] /\ sb_get g 0 = repeat 8 20 /\ sb_get g 1 = [6; 6; 6] /\ sb_get g 2 = []
     | None => False end
   | None => False end) /\
  sb_safe_size 16 15 100 <= 200 < 2 ^ 16.
Proof. vm_compute. repeat split; congruence. Qed.
