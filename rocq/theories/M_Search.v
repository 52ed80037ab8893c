(* Model of the node searches (ksearch.hh). Definitions only.
   A search looks at positions 0..n-1; [perm] maps a position to a slot, [cmp] is comparator(ka, node, slot):
   negative if the search key is smaller than the slot's key, positive if larger (ksearch.hh:20-25). *)
From Verif Require Import Lib M_Key M_Permuter.

Section Search.
Context (perm : nat -> nat) (cmp : nat -> Z).

(* key_upper_bound_by, ksearch.hh:38-55. None: out of fuel (never, with fuel > r - l). *)
Fixpoint upper_bin (fuel l r : nat) : option nat :=
  match fuel with
  | O => None
  | S f =>
    if (l <? r)%nat then
      let m := Nat.div2 (l + r) in
      let c := cmp (perm m) in
      if c <? 0 then upper_bin f l m else if c =? 0 then Some (m + 1)%nat else upper_bin f (m + 1) r
    else Some l
  end.

(* key_lower_bound_by, ksearch.hh:63-81. The result is (i, Some p) when found, (i, None) for p == -1. *)
Fixpoint lower_bin (fuel l r : nat) : option (nat * option nat) :=
  match fuel with
  | O => None
  | S f =>
    if (l <? r)%nat then
      let m := Nat.div2 (l + r) in
      let mp := perm m in
      let c := cmp mp in
      if c <? 0 then lower_bin f l m else if c =? 0 then Some (m, Some mp) else lower_bin f (m + 1) r
    else Some (l, None)
  end.

(* key_find_upper_bound_by, ksearch.hh:90-105; n is the number of positions not yet looked at. *)
Fixpoint upper_lin (n l : nat) : nat :=
  match n with
  | O => l
  | S n' => if cmp (perm l) <? 0 then l else upper_lin n' (S l)
  end.

(* key_find_lower_bound_by, ksearch.hh:107-125. *)
Fixpoint lower_lin (n l : nat) : nat * option nat :=
  match n with
  | O => (l, None)
  | S n' =>
    let lp := perm l in
    let c := cmp lp in
    if c <? 0 then (l, None) else if c =? 0 then (l, Some lp) else lower_lin n' (S l)
  end.
End Search.

(* leaf: bound_type::lower(ka, leaf) through leaf::compare_key, masstree_struct.hh:370-372; positions through the
   permutation. Both methods ksearch.hh offers are modelled; nodeparams selects the binary one (masstree.hh:34). *)
Definition leaf_lower (x : Z) (ikey0 keylenx : nat -> Z) (k : mkey) : nat * option nat :=
  lower_lin (perm_get x) (fun p => key_compare (k_ikey k) (k_len k) (ikey0 p) (keylenx p)) (perm_size x) 0.
Definition leaf_lower_binary (x : Z) (ikey0 keylenx : nat -> Z) (k : mkey) : option (nat * option nat) :=
  lower_bin (perm_get x) (fun p => key_compare (k_ikey k) (k_len k) (ikey0 p) (keylenx p)) (S (perm_size x)) 0 (perm_size x).

(* internode: bound_type::upper(ikey, internode) through internode::compare_key, masstree_struct.hh:140-145;
   identity permutation of size nkeys_ (kpermuter.hh:26-38). *)
Definition inter_upper (keys : list Z) (ikey : Z) : nat :=
  upper_lin (fun i => i) (fun p => icompare ikey (nth p keys 0)) (length keys) 0.
Definition inter_upper_binary (keys : list Z) (ikey : Z) : option nat :=
  upper_bin (fun i => i) (fun p => icompare ikey (nth p keys 0)) (S (length keys)) 0 (length keys).
