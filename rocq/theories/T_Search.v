(* Property theorems: C11 (node search returns the right position, binary and linear alike). *)
From Verif Require Import Lib M_Key M_Permuter M_Search P_Search.

(* C11, internal nodes: the upper-bound search returns the number of keys not greater than the search key. *)
Theorem C11_internode_upper_bound : forall (ks : list Z) (ik : Z), keys_sorted ks ->
  let r := inter_upper ks ik in
  (r <= length ks)%nat /\
  (forall j, (j < r)%nat -> nth j ks 0 <= ik) /\
  (forall j, (r <= j < length ks)%nat -> ik < nth j ks 0) /\
  inter_upper_binary ks ik = Some r.
Proof. exact inter_upper_spec. Qed.
Print Assumptions C11_internode_upper_bound.

(* C11, leaves: entries are ordered by slice and then by length class (0..8, or "longer"). The search returns the
   position where the key is or belongs, reports a slot exactly when an entry of the same slice and length class
   is there, and the binary search agrees. *)
Theorem C11_leaf_lower_bound : forall x ikey0 keylenx k, leaf_sorted x ikey0 keylenx ->
  let r := leaf_lower x ikey0 keylenx k in
  let e j := (ikey0 (perm_get x j), keylenx (perm_get x j)) in
  let ke := (k_ikey k, k_len k) in
  (fst r <= perm_size x)%nat /\
  (forall j, (j < fst r)%nat -> entry_lt (e j) ke) /\
  (forall p, snd r = Some p -> (fst r < perm_size x)%nat /\ p = perm_get x (fst r) /\ fst (e (fst r)) = k_ikey k /\
                               lenclass (snd (e (fst r))) = lenclass (k_len k)) /\
  (snd r = None -> forall j, (fst r <= j < perm_size x)%nat -> entry_lt ke (e j)) /\
  (forall j, (fst r < j < perm_size x)%nat -> entry_lt ke (e j)) /\
  leaf_lower_binary x ikey0 keylenx k = Some r.
Proof. exact leaf_lower_spec. Qed.
Print Assumptions C11_leaf_lower_bound.

Example c11_inter : keys_sorted [10; 20; 30; 2 ^ 63] /\ inter_upper [10; 20; 30; 2 ^ 63] 20 = 2%nat /\
  inter_upper [10; 20; 30; 2 ^ 63] 19 = 1%nat /\ inter_upper_binary [10; 20; 30; 2 ^ 63] (2 ^ 64 - 1) = Some 4%nat.
Proof.
  split; [|vm_compute; auto]. intros i j H. cbn in H.
  destruct i as [|[|[|[|]]]], j as [|[|[|[|]]]]; try lia; vm_compute; reflexivity.
Qed.
(* A leaf of three entries stored out of order: slot 2 holds the empty key, slot 0 a one-byte key with the same
   (zero-padded) slice, slot 1 a suffixed key. *)
Definition c11_ik (p : nat) : Z := nth p [0; 7; 0] 0.
Definition c11_kl (p : nat) : Z := nth p [1; 64; 0] 0.
Example c11_leaf_sorted : let x := Z.lor (Z.lor (Z.lor 3 (Z.shiftl 2 4)) (Z.shiftl 0 8)) (Z.shiftl 1 12) in
  leaf_sorted x c11_ik c11_kl /\ leaf_lower x c11_ik c11_kl (MkKey 7 20 [] 0) = (2%nat, Some 1%nat) /\
  leaf_lower x c11_ik c11_kl (MkKey 0 1 [] 0) = (1%nat, Some 0%nat) /\ leaf_lower x c11_ik c11_kl (MkKey 7 8 [] 0) = (2%nat, None).
Proof.
  cbv zeta. split; [|vm_compute; auto]. intros i j H. change (perm_size _) with 3%nat in H.
  destruct i as [|[|[|]]], j as [|[|[|]]]; try lia; vm_compute; intuition congruence.
Qed.
