(* Specification of the routing invariants: what the border nodes of a layer look like, seen from the layer's root pointer. *)
From Verif Require Import Lib M_Key M_Permuter M_Tree.

(* A border node of a layer, with the range of slices it is responsible for. *)
Record border := MkBorder { b_addr : addr; b_leaf : leafn; b_lo : Z; b_hi : Z }.
Definition slot_ikey (l : leafn) (j : nat) : Z := lf_ikey l (perm_get (lf_perm l) j).
Definition slot_len (l : leafn) (j : nat) : Z := lf_klx l (perm_get (lf_perm l) j).

(* The border nodes from one on: their ranges are adjacent and end at 2^64; forward and backward links agree with this
   order; a descent for any slice in a node's range reaches that node; the live slots are strictly ordered by slice and
   length class and lie in the range; slot 0 of every node but the first still has the lower bound. *)
Fixpoint border_list (h : heap) (root : addr) (prev : option addr) (lo : Z) (B : list border) : Prop :=
  match B with
  | [] => lo = 2 ^ 64
  | b :: B' =>
    let l := b_leaf b in
    hp_node h (b_addr b) = Some (NLeaf l) /\ lf_deleted l = false /\ b_lo b = lo /\ lo < b_hi b /\
    lf_prev l = prev /\ lf_next l = option_map b_addr (hd_error B') /\ (prev <> None -> lf_ikey l 0%nat = lo) /\
    (forall ik, lo <= ik < b_hi b -> reach_leaf h root ik = Ok (b_addr b)) /\
    (forall j, (j < perm_size (lf_perm l))%nat -> lo <= slot_ikey l j < b_hi b) /\
    (forall i j, (i < j < perm_size (lf_perm l))%nat -> slot_ikey l i < slot_ikey l j \/
       (slot_ikey l i = slot_ikey l j /\ Z.min 9 (slot_len l i) < Z.min 9 (slot_len l j))) /\
    border_list h root (Some (b_addr b)) (b_hi b) B'
  end.

(* The layers of the tree: the layer pointer reached by following, from the root, the slots for a prefix. *)
Inductive layer_at (h : heap) (root : addr) : list Z -> addr -> Prop :=
| layer_top : layer_at h root [] root
| layer_sub p r n l j r' : layer_at h root p r -> reach_leaf h r (slot_ikey l j) = Ok n -> hp_node h n = Some (NLeaf l) ->
    (j < perm_size (lf_perm l))%nat -> 0 <= slot_ikey l j < 2 ^ 64 -> slot_len l j = 128 -> lf_lv l (perm_get (lf_perm l) j) = LvLayer r' ->
    layer_at h root (p ++ be_bytes 8 (slot_ikey l j)) r'.

(* Key k has its value in position j of border node n, which is the node a descent for k reaches in the layer of one of
   its prefixes. *)
Definition stored_at (h : heap) (root : addr) (k : list Z) (v : Z) (n : addr) (j : nat) : Prop :=
  exists p r t l, layer_at h root p r /\ k = p ++ t /\ reach_leaf h r (slice_make_comparable t) = Ok n /\ hp_node h n = Some (NLeaf l) /\
    (j < perm_size (lf_perm l))%nat /\ slot_ikey l j = slice_make_comparable t /\ lf_lv l (perm_get (lf_perm l) j) = LvVal v /\
    ((len t <= 8 /\ slot_len l j = len t) \/ (8 < len t /\ slot_len l j = 64 /\ lf_ksuf l (perm_get (lf_perm l) j) = skipn 8 t)).
