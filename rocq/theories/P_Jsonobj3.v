(* Sequences of calls on a Json object. *)
From Verif Require Import Lib M_Jsonobj Spec_Jsonobj P_Jsonobj1 P_Jsonobj2.

Section H.
Variable hash : list Z -> nat.
Notation pow s := (exists e, o_hs s = (2 ^ e)%nat).
Lemma step_ok rep s o : inv hash s -> rep = true \/ pow s \/ (forall k, o <> Erase k) -> exists t, step hash rep s o = Some t /\ inv hash t /\ (rep = true \/ pow t) /\ items t = op_spec (items s) o.
Proof.
  intros H Hr. destruct o as [k v|k v|k]; cbn [step op_spec].
  - destruct (set_ok hash s k v H) as (t & -> & A & B & C). exists t. auto.
  - destruct (find_insert_ok hash s k v H) as (t & i & -> & A & B & C & _). exists t. auto.
  - assert (Hp : pow s \/ rep = true /\ o_hs s = 0%nat /\ o_n s = 0%nat) by (destruct Hr as [->|[Hr|Hr]]; [destruct H as ([(E & En)|Hp] & _); auto|auto|exfalso; apply (Hr k); auto]).
    destruct Hp as [Hp|(-> & E & En)].
    + destruct (erase_power hash s rep k H Hp) as (t & r & -> & A & B & C & _). exists t. auto.
    + unfold erase. rewrite E. cbn. exists s. split; auto. split; auto. split; auto. rewrite items_its, En. reflexivity.
Qed.
Lemma run_ok rep l : forall s, inv hash s -> rep = true \/ pow s -> exists t, run hash rep s l = Some t /\ inv hash t /\ items t = fold_left op_spec l (items s).
Proof.
  induction l as [|o l IH]; intros s H Hr; cbn [run fold_left]; [eauto|]. destruct (step_ok rep s o H) as (t & -> & A & B & C); [tauto|]. rewrite <- C. apply IH; auto.
Qed.
Lemma run_new rep l : rep = true \/ match l with Erase _ :: _ => False | _ => True end ->
  exists s, run hash rep obj0 l = Some s /\ items s = ops_spec l /\ o_size s = length (ops_spec l) /\
  forall k, exists r, find hash s k = Some r /\ match r with Some i => exists v, o_item s i = Some (k, v) /\ lookup (ops_spec l) k = Some v | None => lookup (ops_spec l) k = None end.
Proof.
  intros Hr. assert (K : exists t, run hash rep obj0 l = Some t /\ inv hash t /\ items t = ops_spec l).
  { destruct Hr as [->|Hr]; [apply run_ok; auto; apply inv_obj0|]. destruct l as [|o l]; [exists obj0; split; auto; split; auto; apply inv_obj0|]. cbn [run]. destruct (step_ok rep obj0 o (inv_obj0 hash)) as (t & -> & A & B & C); [right; right; intros k ->; exact Hr|]. destruct (run_ok rep l t A B) as (u & U & V & W). exists u. split; auto. split; auto. rewrite W, C. reflexivity. }
  destruct K as (t & R & I & E). exists t. split; auto. split; auto. split; [rewrite <- E; apply I|]. intros k. rewrite <- E. apply find_ok. auto.
Qed.
Lemma run_erase k : run hash false obj0 [Erase k] = None.
Proof. unfold run, step, erase, walk_key. cbn [obj0 o_hs]. unfold bucket. cbn [andb o_hs obj0]. replace (_ <? 0)%nat with false by (symmetry; apply Nat.ltb_ge; lia). reflexivity. Qed.

(* All items have the hash code h. *)
Variable h : nat.
Definition all_h (s : obj) : Prop := forall i, (i < o_n s)%nat -> exists k v, o_item s i = Some (k, v) /\ hash k = h.
Lemma add_one s k v : inv hash s -> all_h s -> hash k = h -> lookup (items s) k = None ->
  exists t, step hash false s (Insert k v) = Some t /\ inv hash t /\ all_h t /\ o_n t = Datatypes.S (o_n s) /\ items t = items s ++ [(k, v)] /\
  o_hs t = ((if (o_hs s =? 0)%nat then 8 else o_hs s) * (if (4 <? o_n s)%nat then 2 else 1))%nat.
Proof.
  intros H Ha Hk Hl. destruct (ready_ok hash s H) as (Hr & Hp & Ei). unfold step, find_insert. cbv zeta. assert (En : o_n (ready s) = o_n s /\ o_item (ready s) = o_item s /\ o_hs (ready s) = if (o_hs s =? 0)%nat then 8%nat else o_hs s) by (unfold ready; destruct (o_hs s =? 0)%nat; auto). destruct En as (E1 & E2 & E3). set (r := ready s) in *.
  destruct (walk_key_ok hash r k Hp ltac:(apply Hr)) as [(l1 & i & l2 & _ & K & Hi & W)|(K & W)]; rewrite W.
  - exfalso. destruct (key_item _ _ _ K) as (w & Ew). rewrite <- Ei in Hl. rewrite items_its in Hl. rewrite (lookup_its (o_item r) (seq 0 (o_n r)) k i w) in Hl; [discriminate|apply inv_only; auto; apply Hr|apply in_seq; lia|auto].
  - destruct (added_ok hash r k v Hr Hp K) as (A1 & A2 & A3). destruct (write_same r (lastslot (InHash (bucket hash r k)) (chain_of hash r (bucket hash r k))) (Some (o_n r))) as (W1 & _ & W3 & W4). rewrite W1, W3, W4. fold (added r (lastslot (InHash (bucket hash r k)) (chain_of hash r (bucket hash r k))) k v).
    assert (Lc : length (chain_of hash r (bucket hash r k)) = o_n s).
    { unfold chain_of. rewrite filter_none; [rewrite seq_length; auto|]. intros i Hi. apply in_seq in Hi. unfold mem. rewrite E2. destruct (Ha i) as (k' & v' & Ek & Hh); [lia|]. rewrite Ek. unfold bucket. rewrite Hh, Hk. apply Nat.eqb_refl. }
    rewrite Lc. set (t := added _ _ _ _) in *. assert (Ht : all_h t).
    { intros i Hi. cbn [t added o_n] in Hi. cbn [t added o_item]. rewrite E2, E1 in *. unfold put. destruct (Nat.eqb_spec i (o_n s)); [exists k, v; auto|]. apply Ha. lia. }
    destruct (4 <? o_n s)%nat; cbn [option_map fst].
    + destruct (rehash_ok hash t A1 Hp) as (R1 & R2 & R3 & R4). eexists. split; [reflexivity|]. split; [exact R1|]. split; [intros i Hi; rewrite R3 in Hi; rewrite R2; apply Ht; auto|]. split; [rewrite R3; cbn [t added o_n]; lia|]. split; [rewrite items_its, R2, R3, <- Ei; exact A2|]. rewrite R4, <- E3. reflexivity.
    + eexists. split; [reflexivity|]. split; [exact A1|]. split; [exact Ht|]. split; [cbn [t added o_n]; lia|]. split; [rewrite <- Ei; exact A2|]. rewrite <- E3. cbn [t added o_hs]. lia.
Qed.
Lemma lookup_app l k v k' : k <> k' -> lookup l k' = None -> lookup (l ++ [(k, v)]) k' = None.
Proof. intros N. induction l as [|(x, y) l IH]; cbn [lookup app]; [destruct (list_eq_dec Z.eq_dec k k'); [contradiction|auto]|]. destruct (list_eq_dec Z.eq_dec x k'); [discriminate|auto]. Qed.
Lemma add_many ks : forall s, inv hash s -> all_h s -> Forall (fun k => hash k = h) ks -> NoDup ks -> (forall k, In k ks -> lookup (items s) k = None) ->
  (o_hs s = if (o_n s =? 0)%nat then 0 else 8 * 2 ^ (o_n s - 5))%nat ->
  exists t, run hash false s (map (fun k => Insert k 0) ks) = Some t /\ o_n t = (o_n s + length ks)%nat /\ (o_hs t = if (o_n t =? 0)%nat then 0 else 8 * 2 ^ (o_n t - 5))%nat.
Proof.
  induction ks as [|k ks IH]; intros s H Ha Hf Nd Hl Hs; cbn [map run length]; [exists s; repeat split; auto; lia|]. inversion Hf as [|? ? Hk Hf']; inversion Nd as [|? ? N1 N2]; subst.
  destruct (add_one s k 0 H Ha Hk (Hl k (or_introl eq_refl))) as (t & -> & A1 & A2 & A3 & A4 & A5). destruct (IH t A1 A2 Hf' N2) as (u & U1 & U2 & U3).
  - intros k' Hk'. rewrite A4. apply lookup_app; [congruence|]. apply Hl. right. auto.
  - rewrite A5, A3, Hs. cbn [Nat.eqb]. destruct (Nat.eqb_spec (o_n s) 0) as [->|Ne]; [reflexivity|]. replace (8 * 2 ^ (o_n s - 5) =? 0)%nat with false; [|symmetry; apply Nat.eqb_neq; pose proof (Nat.pow_nonzero 2 (o_n s - 5)); lia].
    destruct (Nat.ltb_spec 4 (o_n s)); [replace (Datatypes.S (o_n s) - 5)%nat with (Datatypes.S (o_n s - 5)) by lia; rewrite Nat.pow_succ_r'; lia|]. replace (Datatypes.S (o_n s) - 5)%nat with 0%nat by lia. replace (o_n s - 5)%nat with 0%nat by lia. reflexivity.
  - exists u. split; auto. split; [lia|auto].
Qed.
Lemma blow_up ks : Forall (fun k => hash k = h) ks -> NoDup ks -> ks <> [] -> exists s, run hash false obj0 (map (fun k => Insert k 0) ks) = Some s /\ o_hs s = (8 * 2 ^ (length ks - 5))%nat.
Proof.
  intros Hf Nd Ne. assert (A : all_h obj0) by (intros i Hi; cbn [obj0 o_n] in Hi; lia).
  destruct (add_many ks obj0 (inv_obj0 hash) A Hf Nd (fun k _ => eq_refl) eq_refl) as (t & T1 & T2 & T3). exists t. split; [exact T1|]. rewrite T3, T2. cbn [obj0 o_n Nat.add]. destruct ks; [contradiction|]. reflexivity.
Qed.
End H.
