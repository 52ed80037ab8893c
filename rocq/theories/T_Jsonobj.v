(* C67: Json objects. *)
From Verif Require Import Lib M_Jsonobj Spec_Jsonobj P_Jsonobj1 P_Jsonobj2 P_Jsonobj3 P_Jsonobj4 P_Jsonobj5.

(* After any calls of set, insert and erase on a new object, iteration gives the keys and values in the order of insertion, size() is their
   number, and find finds just them, whatever the hash function. Full statement, with an erase as the first call, refuted below;
   it holds in the repaired code. *)
Theorem C67_object_partial : forall hash rep l, rep = true \/ match l with Erase _ :: _ => False | _ => True end ->
  exists s, run hash rep obj0 l = Some s /\ items s = ops_spec l /\ o_size s = length (ops_spec l) /\
  forall k, exists r, find hash s k = Some r /\ match r with Some i => exists v, o_item s i = Some (k, v) /\ lookup (ops_spec l) k = Some v | None => lookup (ops_spec l) k = None end.
Proof. exact run_new. Qed.
Print Assumptions C67_object_partial.
(* Seven keys in one bucket, so that hash_ grows, one set again, one erased and inserted again. *)
Example C67_object_example :
  let l := [Set_ [1] 1; Set_ [2] 2; Set_ [3] 3; Set_ [4] 4; Set_ [5] 5; Set_ [6] 6; Set_ [7] 7; Set_ [2] 9; Erase [3]; Insert [3] 8; Insert [4] 0] in
  ops_spec l = [([1], 1); ([2], 9); ([4], 4); ([5], 5); ([6], 6); ([7], 7); ([3], 8)] /\
  option_map items (run (fun _ => 3%nat) false obj0 l) = Some (ops_spec l) /\ option_map o_hs (run (fun _ => 3%nat) false obj0 l) = Some 64%nat.
Proof. vm_compute. auto. Qed.

(* erase on a new object reads hash_[b] of an empty vector. *)
Theorem C67_object_refuted : forall hash k, run hash false obj0 [Erase k] = None.
Proof. exact run_erase. Qed.
Print Assumptions C67_object_refuted.

(* hash_ doubles with every key after the fifth if all keys have the same hash code: its size is exponential in the number of keys. *)
Theorem C67_space_refuted : forall hash h ks, Forall (fun k => hash k = h) ks -> NoDup ks -> ks <> [] ->
  exists s, run hash false obj0 (map (fun k => Insert k 0) ks) = Some s /\ o_hs s = (8 * 2 ^ (length ks - 5))%nat.
Proof. exact blow_up. Qed.
Print Assumptions C67_space_refuted.
(* Six such keys. *)
Example C67_space_example : Forall (fun k => (fun _ => 3%nat) k = 3%nat) [[1]; [2]; [3]; [4]; [5]; [6]] /\ NoDup [[1]; [2]; [3]; [4]; [5]; [6]].
Proof. split; [repeat constructor|]. repeat (constructor; [simpl; intuition discriminate|]). constructor. Qed.

(* What the calls return after any sequence of calls: erase whether the key was there; insert the item of the key, with its old
   value if it was there, and i == n_ (the bool of the pair, json.hh:2367) just if it was not. Full statement, also with the sequence
   empty or begun by an erase, refuted by C67_object_refuted. *)
Theorem C67_returns_partial : forall hash rep l s k v, rep = true \/ match l with [] | Erase _ :: _ => False | _ => True end -> run hash rep obj0 l = Some s ->
  (exists t, erase hash rep s k = Some (t, match lookup (ops_spec l) k with Some _ => true | None => false end)) /\
  exists t i, find_insert hash s k v = Some (t, i) /\ (i = o_n s <-> lookup (ops_spec l) k = None) /\
  o_item t i = Some (k, match lookup (ops_spec l) k with Some w => w | None => v end).
Proof. exact returns. Qed.
Print Assumptions C67_returns_partial.
(* A key that is there and one that was erased, in the same bucket. *)
Example C67_returns_example :
  let l := [Set_ [1] 1; Insert [2] 2; Erase [1]] in
  (exists s, run (fun _ => 3%nat) false obj0 l = Some s) /\ lookup (ops_spec l) [2] = Some 2 /\ lookup (ops_spec l) [1] = None.
Proof. split; [eexists; reflexivity|]. vm_compute. auto. Qed.

(* Erased items stay: after m insertions and erasures of one key an object without keys holds m items. *)
Theorem C67_erased_refuted : forall hash k v m, exists s, run hash false obj0 (concat (repeat [Insert k v; Erase k] m)) = Some s /\ items s = [] /\ o_n s = m.
Proof. exact garbage_new. Qed.
Print Assumptions C67_erased_refuted.
(* Three times. *)
Example C67_erased_example : option_map o_n (run (fun _ => 3%nat) false obj0 (concat (repeat [Insert [1] 5; Erase [1]] 3))) = Some 3%nat.
Proof. reflexivity. Qed.

(* erase by an iterator at an item after any sequence of calls does what erase of its key does; its assertion (json.cc:193) holds.
   Full statement, with a sequence begun by an erase, refuted by C67_object_refuted. *)
Theorem C67_erase_at_partial : forall hash rep l s p k v, rep = true \/ match l with Erase _ :: _ => False | _ => True end -> run hash rep obj0 l = Some s ->
  (p < o_n s)%nat -> o_item s p = Some (k, v) ->
  exists t, erase_at hash s p = Some t /\ run hash rep obj0 (l ++ [Erase k]) = Some t /\ items t = ops_spec (l ++ [Erase k]).
Proof. exact erase_at_run. Qed.
Print Assumptions C67_erase_at_partial.
(* The item in the middle of a chain of three. *)
Example C67_erase_at_example :
  match run (fun _ => 3%nat) false obj0 [Set_ [1] 1; Set_ [2] 2; Set_ [3] 3] with
  | Some s => (1 <? o_n s)%nat = true /\ o_item s 1%nat = Some ([2], 2) /\ option_map items (erase_at (fun _ => 3%nat) s 1) = Some [([1], 1); ([3], 3)]
  | None => False
  end.
Proof. vm_compute. auto. Qed.
