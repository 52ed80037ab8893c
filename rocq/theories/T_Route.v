(* Routing invariants of the table in one thread: C09. *)
From Verif Require Import Lib Spec_Map Spec_Route M_Key M_Permuter M_Tree P_Route T_Tree.

(* After any history, in every layer: the border nodes partition the slices into adjacent ranges, in the order of the
   list, with consistent links; a descent for a slice reaches the node whose range has it; slots are in order and in range. *)
Theorem C09_border_lists : forall ops, Forall op_ok ops -> exists t rs, truns table_init ops = Ok (t, rs) /\
  forall p r, layer_at (t_heap t) (t_root t) p r -> exists B, border_list (t_heap t) r None 0 B.
Proof. exact c09_borders. Qed.
Print Assumptions C09_border_lists.

(* A key is present exactly when it is stored in the border node a descent for it reaches; it is stored once. *)
Theorem C09_keys_in_reached_nodes : forall ops, Forall op_ok ops -> exists t rs, truns table_init ops = Ok (t, rs) /\
  (forall k v, bytes_ok k -> present ops k = Some v <-> exists n j, stored_at (t_heap t) (t_root t) k v n j) /\
  (forall k v v' n n' j j', bytes_ok k -> stored_at (t_heap t) (t_root t) k v n j -> stored_at (t_heap t) (t_root t) k v' n' j' -> v = v' /\ n = n' /\ j = j').
Proof. exact c09_keys. Qed.
Print Assumptions C09_keys_in_reached_nodes.

(* for the examples: the border nodes with their number of keys and slot 0's slice, following the links *)
Fixpoint walk (fuel : nat) (h : heap) (n : option addr) : list (addr * nat * Z) :=
  match fuel, n with
  | S f, Some a => match hp_node h a with Some (NLeaf l) => (a, perm_size (lf_perm l), lf_ikey l 0%nat / 2 ^ 48) :: walk f h (lf_next l) | _ => [] end
  | _, _ => []
  end.
Definition walk_of (ops : list top) : list (addr * nat * Z) := match truns table_init ops with Ok (t, _) => walk 100 (t_heap t) (Some 0%nat) | Err _ => [] end.
(* several border nodes, one of them (node 1) removed again and its range taken by its neighbours *)
Example C09_border_lists_ex :
  walk_of (ex_puts 40) = [(0%nat, 15%nat, 0); (1%nat, 15%nat, 15); (3%nat, 10%nat, 30)] /\ walk_of ex_ops = [(0%nat, 2%nat, 0); (6%nat, 2%nat, 1); (3%nat, 8%nat, 30)].
Proof. vm_compute. auto. Qed.
(* a layer below a layer, and the key stored in it *)
Example C09_keys_in_reached_nodes_ex : exists t rs r n j, truns table_init [OPut ex_long 1; OPut ex_long2 2] = Ok (t, rs) /\ layer_at (t_heap t) (t_root t) (repeat 7 16) r /\ r <> t_root t /\ stored_at (t_heap t) (t_root t) ex_long2 2 n j.
Proof.
  assert (X : exists t rs, truns table_init [OPut ex_long 1; OPut ex_long2 2] = Ok (t, rs) /\ t = match truns table_init [OPut ex_long 1; OPut ex_long2 2] with Ok (t, _) => t | Err _ => table_init end).
  { vm_compute. eexists. eexists. split; reflexivity. }
  destruct X as (t & rs & E & Et). exists t, rs.
  assert (L1 : exists r1, layer_at (t_heap t) (t_root t) (repeat 7 8) r1 /\ r1 = 1%nat).
  { eexists. split; [|reflexivity].
    assert (N : exists l, hp_node (t_heap t) 0%nat = Some (NLeaf l) /\ slot_ikey l 0%nat = 506381209866536711 /\ slot_len l 0%nat = 128 /\ lf_lv l (perm_get (lf_perm l) 0%nat) = LvLayer 1%nat /\ perm_size (lf_perm l) = 1%nat).
    { subst t. vm_compute. eexists. split; [reflexivity|auto]. }
    destruct N as (l & N1 & N2 & N3 & N4 & N5). change (repeat 7 8) with ([] ++ be_bytes 8 506381209866536711). rewrite <- N2.
    apply (layer_sub _ _ [] (t_root t) 0%nat l 0%nat); auto; [constructor| |lia|lia].
    rewrite N2. subst t. vm_compute. reflexivity. }
  destruct L1 as (r1 & L1 & ->).
  assert (L2 : layer_at (t_heap t) (t_root t) (repeat 7 16) 2%nat).
  { assert (N : exists l, hp_node (t_heap t) 1%nat = Some (NLeaf l) /\ slot_ikey l 0%nat = 506381209866536711 /\ slot_len l 0%nat = 128 /\ lf_lv l (perm_get (lf_perm l) 0%nat) = LvLayer 2%nat /\ perm_size (lf_perm l) = 1%nat).
    { subst t. vm_compute. eexists. split; [reflexivity|auto]. }
    destruct N as (l & N1 & N2 & N3 & N4 & N5). change (repeat 7 16) with (repeat 7 8 ++ be_bytes 8 506381209866536711). rewrite <- N2.
    apply (layer_sub _ _ (repeat 7 8) 1%nat 1%nat l 0%nat); auto; [|lia|lia].
    rewrite N2. subst t. vm_compute. reflexivity. }
  exists 2%nat, 2%nat, 1%nat. split; auto. split; auto. split; [subst t; vm_compute; congruence|].
  assert (N : exists l, hp_node (t_heap t) 2%nat = Some (NLeaf l) /\ slot_ikey l 1%nat = slice_make_comparable [7; 8] /\ slot_len l 1%nat = 2 /\ lf_lv l (perm_get (lf_perm l) 1%nat) = LvVal 2 /\ perm_size (lf_perm l) = 2%nat).
  { subst t. vm_compute. eexists. split; [reflexivity|auto]. }
  destruct N as (l & N1 & N2 & N3 & N4 & N5).
  exists (repeat 7 16), 2%nat, [7; 8], l. split; auto. split; [reflexivity|]. split; [subst t; vm_compute; reflexivity|]. split; auto. split; [lia|]. split; auto. split; auto.
  left. split; [vm_compute; congruence|]. rewrite N3. reflexivity.
Qed.
