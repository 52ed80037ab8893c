(* Which nodes make up a table. *)
From Verif Require Import Lib M_Permuter M_Tree.

(* The root above a node. *)
Inductive top_of (h : heap) : addr -> addr -> Prop :=
| top_here a n : hp_node h a = Some n -> n_is_root n = true -> top_of h a a
| top_up a n p r : hp_node h a = Some n -> n_is_root n = false -> n_parent n = Some p -> top_of h p r -> top_of h a r.

(* The nodes of a table: the root, children, and the trees of the layers. *)
Inductive part (h : heap) (root : addr) : addr -> Prop :=
| part_root r : top_of h root r -> part h root r
| part_child a i k c : part h root a -> hp_node h a = Some (NInter i) -> (k <= in_nkeys i)%nat -> in_child i k = Some c ->
    part h root c
| part_layer a l j r r' : part h root a -> hp_node h a = Some (NLeaf l) -> (j < perm_size (lf_perm l))%nat ->
    lf_klx l (perm_get (lf_perm l) j) = 128 -> lf_lv l (perm_get (lf_perm l) j) = LvLayer r -> top_of h r r' ->
    part h root r'.

(* No layer pointer in the table is behind a split of the layer's root. *)
Definition up_to_date (h : heap) (root : addr) : Prop :=
  forall a l j r, part h root a -> hp_node h a = Some (NLeaf l) -> (j < perm_size (lf_perm l))%nat ->
    lf_klx l (perm_get (lf_perm l) j) = 128 -> lf_lv l (perm_get (lf_perm l) j) = LvLayer r ->
    exists n, hp_node h r = Some n /\ n_is_root n = true.

(* Nothing but nodes of the table is freed, the rest is as before. *)
Definition only_own (h h' : heap) (root : addr) : Prop :=
  forall a, hp_node h' a = hp_node h a \/ (hp_node h' a = None /\ part h root a).
(* All nodes of the table are freed. *)
Definition all_freed (h h' : heap) (root : addr) : Prop := forall a, part h root a -> hp_node h' a = None.
