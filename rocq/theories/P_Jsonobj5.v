(* Erase by iterator. *)
From Verif Require Import Lib M_Jsonobj Spec_Jsonobj P_Jsonobj1 P_Jsonobj2 P_Jsonobj3 P_Jsonobj4.

Section H.
Variable hash : list Z -> nat.
Notation pow s := (exists e, o_hs s = (2 ^ e)%nat).
Lemma walk_at_ok s k v p b' f : forall b c, o_item s p = Some (k, v) -> walk s f k b c = Hit b' p -> walk_at s f p b = Some b'.
Proof.
  induction f as [|f IH]; intros b c E; cbn [walk walk_at]; destruct (read s b) as [i|]; try discriminate. destruct (o_item s i) as [(k', w)|] eqn:Ei; [|discriminate]. destruct (same_key k' k) eqn:Ek.
  - intros H. injection H as <- <-. rewrite Nat.eqb_refl. reflexivity.
  - intros H. destruct (Nat.eqb_spec i p) as [->|]; [|apply (IH _ (Datatypes.S c)); auto]. rewrite E in Ei. injection Ei as <- _. assert (same_key k k = true) by (apply same_key_spec; auto). congruence.
Qed.
Lemma erase_at_ok rep s p k v : inv hash s -> (p < o_n s)%nat -> o_item s p = Some (k, v) -> erase_at hash s p = option_map fst (erase hash rep s k).
Proof.
  intros H Hp E. assert (P : pow s) by (destruct H as ([(_ & En)|P] & _); auto; lia). unfold erase_at, erase. rewrite E. replace (o_hs s =? 0)%nat with false; [|symmetry; apply Nat.eqb_neq; destruct P as (e & ->); apply Nat.pow_nonzero; lia]. rewrite andb_false_r.
  assert (Kp : keyof s p = Some k) by (unfold keyof; rewrite E; auto).
  destruct (walk_key_ok hash s k P ltac:(apply H)) as [(l1 & i & l2 & _ & K & Hi & W)|(K & _)]; [|exfalso; apply (K p); auto].
  assert (i = p) as -> by (destruct H as (_ & _ & D & _); apply (D i p k); auto). rewrite W. unfold walk_key in W. destruct (bucket hash s k <? o_hs s)%nat; [|discriminate]. rewrite (walk_at_ok _ _ _ _ _ _ _ _ E W). reflexivity.
Qed.
Lemma run_app rep l m : forall s, run hash rep s (l ++ m) = match run hash rep s l with Some t => run hash rep t m | None => None end.
Proof. induction l as [|o l IH]; intros s; cbn [app run]; auto. destruct (step hash rep s o); auto. Qed.
Lemma erase_at_run rep l s p k v : rep = true \/ match l with Erase _ :: _ => False | _ => True end -> run hash rep obj0 l = Some s -> (p < o_n s)%nat -> o_item s p = Some (k, v) ->
  exists t, erase_at hash s p = Some t /\ run hash rep obj0 (l ++ [Erase k]) = Some t /\ items t = ops_spec (l ++ [Erase k]).
Proof.
  intros Hr R Hp E. destruct (run_inv hash rep l s Hr R) as (I & It & _). rewrite run_app, R. cbn [run step]. rewrite (erase_at_ok rep s p k v I Hp E). assert (P : pow s) by (destruct I as ([(_ & En)|P] & _); auto; lia).
  destruct (erase_power hash s rep k I P) as (t & r & X & _ & _ & J & _). rewrite X. cbn [option_map fst]. exists t. split; auto. split; auto. rewrite J, It. unfold ops_spec. rewrite fold_left_app. reflexivity.
Qed.
End H.
