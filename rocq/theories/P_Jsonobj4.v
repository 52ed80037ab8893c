(* What the calls on a Json object return, and the items that stay. *)
From Verif Require Import Lib M_Jsonobj Spec_Jsonobj P_Jsonobj1 P_Jsonobj2 P_Jsonobj3.

Section H.
Variable hash : list Z -> nat.
Notation pow s := (exists e, o_hs s = (2 ^ e)%nat).
Lemma ready_n s : o_n (ready s) = o_n s.
Proof. unfold ready. destruct (o_hs s =? 0)%nat; auto. Qed.
Lemma insert_index s k v : inv hash s -> exists t i, find_insert hash s k v = Some (t, i) /\
  match lookup (items s) k with Some w => (i < o_n s)%nat /\ o_n t = o_n s /\ o_item t i = Some (k, w) | None => i = o_n s /\ o_n t = Datatypes.S (o_n s) /\ o_item t i = Some (k, v) end.
Proof.
  intros H. destruct (ready_ok hash s H) as (Hr & Hp & Ei). unfold find_insert. cbv zeta. rewrite <- Ei, <- (ready_n s). set (r := ready s) in *.
  destruct (walk_key_ok hash r k Hp ltac:(apply Hr)) as [(l1 & i & l2 & _ & K & Hi & W)|(K & W)]; rewrite W.
  - exists r, i. split; auto. destruct (key_item _ _ _ K) as (w & Ew). rewrite (items_its r). rewrite (lookup_its (o_item r) (seq 0 (o_n r)) k i w); auto; [apply inv_only; auto; apply Hr|apply in_seq; lia].
  - destruct (added_ok hash r k v Hr Hp K) as (A1 & _ & _). destruct (write_same r (lastslot (InHash (bucket hash r k)) (chain_of hash r (bucket hash r k))) (Some (o_n r))) as (W1 & _ & W3 & W4). rewrite W1, W3, W4. fold (added r (lastslot (InHash (bucket hash r k)) (chain_of hash r (bucket hash r k))) k v). set (t := added _ _ _ _) in *.
    rewrite (key_none hash r k K). assert (It : o_item t (o_n r) = Some (k, v)) by (unfold t, added; cbn [o_item]; apply put_same).
    destruct (4 <? length (chain_of hash r (bucket hash r k)))%nat.
    + destruct (rehash_ok hash t A1 Hp) as (_ & R2 & R3 & _). exists (rehash hash t), (o_n r). split; auto. split; auto. split; [rewrite R3; reflexivity|rewrite R2; auto].
    + exists t, (o_n r). split; auto.
Qed.
Lemma erase_n rep s k t r : erase hash rep s k = Some (t, r) -> o_n t = o_n s.
Proof.
  unfold erase. destruct (rep && _); [congruence|]. destruct (walk_key hash s k) as [b i|b c|]; [|congruence|discriminate]. cbv zeta. intros E. injection E as <- _. cbn [o_n]. apply write_same.
Qed.
Lemma run_inv rep l s : rep = true \/ match l with Erase _ :: _ => False | _ => True end -> run hash rep obj0 l = Some s -> inv hash s /\ items s = ops_spec l /\ (l = [] \/ rep = true \/ pow s).
Proof.
  assert (G : forall l s t, inv hash s -> rep = true \/ pow s -> run hash rep s l = Some t -> inv hash t /\ items t = fold_left op_spec l (items s) /\ (rep = true \/ pow t)).
  { clear. induction l as [|o l IH]; intros s t H Hr; cbn [run fold_left]; [intros E; injection E as <-; auto|]. destruct (step_ok hash rep s o H) as (u & -> & A & B & C); [tauto|]. rewrite <- C. apply IH; auto. }
  intros Hr. destruct l as [|o l]; cbn [run]; [intros E; injection E as <-; split; [apply inv_obj0|auto]|]. destruct (step_ok hash rep obj0 o (inv_obj0 hash)) as (t & -> & A & B & C); [destruct Hr; auto; right; right; intros k ->; auto|].
  intros E. destruct (G l t s A B E) as (X & Y & Z0). split; auto. split; auto. rewrite Y, C. reflexivity.
Qed.
Lemma returns rep l s k v : rep = true \/ match l with [] | Erase _ :: _ => False | _ => True end -> run hash rep obj0 l = Some s ->
  (exists t, erase hash rep s k = Some (t, match lookup (ops_spec l) k with Some _ => true | None => false end)) /\
  exists t i, find_insert hash s k v = Some (t, i) /\ (i = o_n s <-> lookup (ops_spec l) k = None) /\
  o_item t i = Some (k, match lookup (ops_spec l) k with Some w => w | None => v end).
Proof.
  intros Hr R. destruct (run_inv rep l s) as (I & E & P); auto; [destruct Hr; auto; destruct l as [|[]]; tauto|]. rewrite <- E. split.
  - assert (Hp : pow s \/ rep = true /\ o_hs s = 0%nat /\ o_n s = 0%nat).
    { destruct I as ([(Ez & En)|Hp] & _); auto. destruct P as [->|[P|P]]; auto. destruct Hr as [Hr|[]]; auto. }
    destruct Hp as [Hp|(-> & Ez & En)].
    + destruct (erase_power hash s rep k I Hp) as (t & r & X & _ & _ & _ & Q). exists t. rewrite X. f_equal. f_equal. destruct (lookup (items s) k), r; auto; destruct Q as (Q1 & Q2); try (exfalso; apply Q1; auto; fail); symmetry; apply Q2 || apply eq_sym, Q2; discriminate.
    + exists s. unfold erase. rewrite Ez. cbn. rewrite items_its, En. reflexivity.
  - destruct (insert_index s k v I) as (t & i & F & M). exists t, i. split; auto. destruct (lookup (items s) k) as [w|].
    + destruct M as (M1 & _ & M3). split; auto. split; [lia|discriminate].
    + destruct M as (M1 & _ & M3). split; auto. split; auto.
Qed.
(* Insertion and erasure of a key, m times. *)
Lemma garbage k v m : forall s, inv hash s -> items s = [] -> exists t, run hash false s (concat (repeat [Insert k v; Erase k] m)) = Some t /\ items t = [] /\ o_n t = (o_n s + m)%nat.
Proof.
  induction m as [|m IH]; intros s H E; cbn [repeat concat app run]; [exists s; auto|].
  destruct (insert_index s k v H) as (t & i & F & M). rewrite E in M. cbn [lookup] in M. destruct M as (_ & M & _). destruct (find_insert_ok hash s k v H) as (t' & i' & F' & I & P & It & _). rewrite F in F'. injection F' as <- <-.
  cbn [step]. rewrite F. cbn [option_map fst]. destruct (erase_power hash t false k I P) as (u & r & X & J & _ & Iu & _). rewrite X. cbn [option_map fst]. rewrite It, E in Iu. unfold erase_spec, insert_spec in Iu. cbn [lookup app filter fst] in Iu. destruct (list_eq_dec Z.eq_dec k k) as [_|N]; [|exfalso; auto].
  destruct (IH u J Iu) as (w & W1 & W2 & W3). exists w. split; auto. split; auto. rewrite W3, (erase_n _ _ _ _ _ X), M. lia.
Qed.
Lemma garbage_new k v m : exists s, run hash false obj0 (concat (repeat [Insert k v; Erase k] m)) = Some s /\ items s = [] /\ o_n s = m.
Proof. apply (garbage k v m obj0); auto. apply inv_obj0. Qed.
End H.
