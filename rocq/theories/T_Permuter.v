(* Property theorems: C10 (the packed permutation obeys its documented contract).
   perm_ok W x: x is a word of the permuter's type, its size is at most W, and its W elements are a
   permutation of the slots 0..W-1 (so no slot is lost or duplicated). *)
From Verif Require Import Lib M_Permuter P_Permuter P_Permuter2.
From Coq Require Import Permutation.

Theorem C10_insert_from_back : forall W p i, (1 <= W <= 15)%nat -> perm_ok W p ->
  (perm_size p < W)%nat -> (i < W)%nat ->
  let q := perm_insert_from_back W p i in
  let x := perm_back W p in
  perm_ok W q /\ perm_size q = S (perm_size p) /\
  (forall j, (j < i)%nat -> perm_get q j = perm_get p j /\ perm_get q j <> x) /\
  perm_get q i = x /\
  (forall j, (i < j < W)%nat -> perm_get q j = perm_get p (j - 1) /\ perm_get q j <> x).
Proof. exact doc_insert_from_back. Qed.
Print Assumptions C10_insert_from_back.

Theorem C10_insert_selected : forall W p di si, (1 <= W <= 15)%nat -> perm_ok W p ->
  (perm_size p < W)%nat -> (di <= si)%nat -> (si < W)%nat ->
  let q := perm_insert_selected W p di si in
  perm_ok W q /\ perm_size q = S (perm_size p) /\
  (forall j, (j < di)%nat -> perm_get q j = perm_get p j) /\
  perm_get q di = perm_get p si /\
  (forall j, (di < j <= si)%nat -> perm_get q j = perm_get p (j - 1)) /\
  (forall j, (si < j < W)%nat -> perm_get q j = perm_get p j).
Proof. exact doc_insert_selected. Qed.
Print Assumptions C10_insert_selected.

(* The documentation asks size() < width, but the code calls remove on full nodes too: no such hypothesis here. *)
Theorem C10_remove : forall W p i, (1 <= W <= 15)%nat -> perm_ok W p -> (i < perm_size p)%nat ->
  let q := perm_remove W p i in
  perm_ok W q /\ perm_size q = (perm_size p - 1)%nat /\
  (forall j, (j < i)%nat -> perm_get q j = perm_get p j) /\
  (forall j, (i <= j < perm_size q)%nat -> perm_get q j = perm_get p (S j)) /\
  perm_get q (perm_size q) = perm_get p i /\
  (forall j, (perm_size p <= j < W)%nat -> perm_get q j = perm_get p j).
Proof. exact doc_remove. Qed.
Print Assumptions C10_remove.

Theorem C10_remove_to_back : forall W p i, (1 <= W <= 15)%nat -> perm_ok W p -> (i < perm_size p)%nat ->
  let q := perm_remove_to_back W p i in
  perm_ok W q /\ perm_size q = (perm_size p - 1)%nat /\
  (forall j, (j < i)%nat -> perm_get q j = perm_get p j) /\
  (forall j, (i <= j < W - 1)%nat -> perm_get q j = perm_get p (S j)) /\
  perm_back W q = perm_get p i.
Proof. exact doc_remove_to_back. Qed.
Print Assumptions C10_remove_to_back.

Theorem C10_exchange : forall W p i j, (1 <= W <= 15)%nat -> perm_ok W p -> (i < W)%nat -> (j < W)%nat ->
  let q := perm_exchange W p i j in
  perm_ok W q /\ perm_size q = perm_size p /\ perm_get q i = perm_get p j /\ perm_get q j = perm_get p i /\
  (forall k, (k < W)%nat -> k <> i -> k <> j -> perm_get q k = perm_get p k).
Proof. exact doc_exchange. Qed.
Print Assumptions C10_exchange.

Theorem C10_exchange_values : forall W p a b, (1 <= W <= 15)%nat -> perm_ok W p -> (a < W)%nat -> (b < W)%nat ->
  let q := perm_exchange_values W p a b in
  perm_ok W q /\ perm_size q = perm_size p /\
  (forall k, (k < W)%nat ->
     (perm_get p k = a -> perm_get q k = b) /\ (perm_get p k = b -> perm_get q k = a) /\
     (perm_get p k <> a -> perm_get p k <> b -> perm_get q k = perm_get p k)).
Proof. exact doc_exchange_values. Qed.
Print Assumptions C10_exchange_values.

(* make_sorted(n), and make_empty as its n = 0 case. Free slots are allocated (from the back) in order n, n+1, ... *)
Theorem C10_make_sorted : forall W n, (1 <= W <= 15)%nat -> (n <= W)%nat ->
  let q := perm_make_sorted W n in
  perm_ok W q /\ perm_size q = n /\
  (forall i, (i < n)%nat -> perm_get q i = i) /\
  (forall k, (n <= k < W)%nat -> perm_get q (W - 1 - (k - n)) = k) /\
  (n = 0%nat -> perm_empty W = q).
Proof. exact doc_make_sorted. Qed.
Print Assumptions C10_make_sorted.

Theorem C10_set_size : forall W x n, (1 <= W <= 15)%nat -> perm_ok W x -> (n <= W)%nat ->
  perm_ok W (perm_set_size W x n) /\ perm_list W (perm_set_size W x n) = perm_list W x /\
  perm_size (perm_set_size W x n) = n.
Proof. intros W x n HW; exact (ok_set_size W HW x n). Qed.
Print Assumptions C10_set_size.

(* Every sequence of operations within their preconditions, from any legal permuter, ends in a legal one. *)
Theorem C10_any_history_keeps_a_permutation : forall W, (1 <= W <= 15)%nat ->
  forall (l : list perm_op) (x : Z), perm_ok W x -> perm_runs W x l ->
  let y := fold_left (perm_step W) l x in
  (perm_size y <= W)%nat /\ Permutation (perm_list W y) (seq 0 W).
Proof. intros W HW l x H R; exact (proj2 (perm_runs_ok W HW l x H R)). Qed.
Print Assumptions C10_any_history_keeps_a_permutation.

(* rotate(i, j) does not do what its documentation says: it rotates all slots from i to the width, not the
   live elements from i to size(). *)
Theorem C10_rotate_documentation_refuted : exists W p i j k,
  (1 <= W <= 15)%nat /\ perm_ok W p /\ (i <= j <= perm_size p)%nat /\ (i <= k < perm_size p)%nat /\
  perm_get (perm_rotate W p i j) k <> perm_get p (i + (k - i + (j - i)) mod (perm_size p - i))%nat.
Proof.
  exists 15%nat, (perm_make_sorted 15 3), 0%nat, 1%nat, 2%nat.
  split; [lia|]. split; [apply make_sorted_spec; lia|]. vm_compute. repeat split; lia.
Qed.
Print Assumptions C10_rotate_documentation_refuted.

Theorem C10_rotate_actual : forall W x i j, (1 <= W <= 15)%nat -> perm_ok W x ->
  (i <= j)%nat -> (j <= perm_size x)%nat ->
  perm_ok W (perm_rotate W x i j) /\ perm_size (perm_rotate W x i j) = perm_size x /\
  (forall k, (k < i)%nat -> perm_get (perm_rotate W x i j) k = perm_get x k) /\
  (forall k, (i <= k < W)%nat -> perm_get (perm_rotate W x i j) k = perm_get x (i + (k - i + (j - i)) mod (W - i))).
Proof. intros W x i j HW; exact (rotate_actual W HW x i j). Qed.
Print Assumptions C10_rotate_actual.

(* Witnesses: a shuffled permuter of width 15 and size 7 satisfies every hypothesis above. *)
Definition c10_demo : Z :=
  fold_left (perm_step 15) [PIns 0; PIns 0; PIns 1; PIns 3; PRem 1; PIns 2; PIns 4; PSel 1 9; PRtb 0; PIns 2; PExch 3 12; PVal 5 6] (perm_empty 15).
Example c10_demo_runs : perm_runs 15 (perm_empty 15)
  [PIns 0; PIns 0; PIns 1; PIns 3; PRem 1; PIns 2; PIns 4; PSel 1 9; PRtb 0; PIns 2; PExch 3 12; PVal 5 6].
Proof. vm_compute. repeat split; lia. Qed.
Example c10_demo_ok : perm_ok 15 c10_demo /\ perm_size c10_demo = 6%nat /\ (3 < perm_size c10_demo)%nat /\
  perm_list 15 c10_demo <> seq 0 15.
Proof.
  split.
  - apply perm_runs_ok; [lia| |apply c10_demo_runs]. rewrite empty_sorted by lia. apply make_sorted_spec; lia.
  - vm_compute. repeat split; try lia. intro; discriminate.
Qed.
Example c10_full_width_ok : perm_ok 15 (perm_make_sorted 15 15) /\ perm_size (perm_remove 15 (perm_make_sorted 15 15) 0) = 14%nat.
Proof. split; [apply make_sorted_spec; lia|vm_compute; reflexivity]. Qed.
