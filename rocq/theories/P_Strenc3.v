(* base64 texts with padding, the round trip, and URI components. *)
From Verif Require Import Lib M_Strenc Spec_Strenc P_Strenc1 P_Strenc2.

Lemma drop_repeat k r : drop_eq (repeat 61 k ++ r) = drop_eq r.
Proof. induction k; simpl; auto. Qed.
Lemma drop_id r : (forall r', r <> 61 :: r') -> drop_eq r = r.
Proof. intros H. destruct r as [|x r]; simpl; auto. destruct (x =? 61) eqn:E; auto. assert (x = 61) as -> by lia. exfalso. apply (H r). auto. Qed.
Lemma rev_repeat61 k : rev (repeat 61 k) = repeat 61 k.
Proof. induction k; simpl; auto. rewrite IHk. clear. induction k; simpl; auto. congruence. Qed.
Lemma drop_ok u k : (forall u', u <> u' ++ [61]) -> rev (drop_eq (rev (u ++ repeat 61 k))) = u.
Proof.
  intros H. rewrite rev_app_distr, rev_repeat61, drop_repeat, drop_id; [apply rev_involutive|]. intros r' E. apply (H (rev r')). rewrite <- (rev_involutive u), E. auto.
Qed.
Lemma octets_len n : forall l, (length l <= n)%nat -> (8 * length (octets l) <= length l)%nat.
Proof.
  induction n as [|n IH]; intros l H; [destruct l; simpl in *; lia|]. destruct l as [|b0 [|b1 [|b2 [|b3 [|b4 [|b5 [|b6 [|b7 l]]]]]]]]; try (simpl; lia). cbn [octets length] in *. specialize (IH l ltac:(lia)). lia.
Qed.
Lemma flat6 vs : length (flat_map (bits 6) vs) = (6 * length vs)%nat.
Proof. induction vs as [|v vs IH]; auto. cbn [flat_map]. rewrite app_length, IH. change (length (bits 6 v)) with 6%nat. cbn [length]. lia. Qed.
Lemma unbase64_len u o : unbase64 u = Some o -> (8 * length o <= 6 * length u)%nat.
Proof.
  unfold unbase64. destruct (values u) as [vs|] eqn:E; [|discriminate]. destruct (length vs mod 4 =? 1)%nat; [discriminate|]. intros F. inversion F. pose proof (octets_len _ (flat_map (bits 6) vs) (le_n _)) as H. rewrite flat6 in H. rewrite (values_len _ _ E) in H. auto.
Qed.
Lemma decode_ok u k : bytes_ok u -> (forall u', u <> u' ++ [61]) -> (len u + Z.of_nat k) * 3 < 2 ^ 31 -> decode_base64 (u ++ repeat 61 k) = match unbase64 u with Some o => EOk o | None => ENo end.
Proof.
  intros H1 H2 H3. unfold decode_base64. rewrite drop_ok, dec64_ok by auto. rewrite len_app, len_repeat. replace (2 ^ 31 <=? (len u + Z.of_nat k) * 3) with false by lia.
  destruct (unbase64 u) as [o|] eqn:E; auto. pose proof (unbase64_len _ _ E). replace ((len u + Z.of_nat k) * 3 / 4 + 1 <? len o) with false by (unfold len; lia). auto.
Qed.
Lemma values_map vs : Forall six vs -> values (map alphabet vs) = Some vs.
Proof. induction 1 as [|v vs Hv Hvs IH]; simpl; auto. destruct (value_alphabet v Hv) as (-> & _). rewrite IH. auto. Qed.
Lemma octets_digits s : bytes_ok s -> octets (flat_map (bits 6) (digits s)) = s.
Proof.
  induction s using ind3; intros Hs; bytes.
  - reflexivity.
  - rewrite digits1 by auto. cbn [flat_map]. unfold byte_ok in *. rewrite app_nil_r, octets2 by (unfold six; lia). f_equal. lia.
  - rewrite digits2 by auto. cbn [flat_map]. unfold byte_ok in *. rewrite app_nil_r, octets3 by (unfold six; lia). f_equal; [|f_equal]; lia.
  - rewrite digits3 by auto. cbn [flat_map]. unfold byte_ok in *. rewrite octets4 by (unfold six; lia). rewrite IHs by auto. f_equal; [|f_equal; [|f_equal]]; lia.
Qed.
Lemma unbase64_digits s : bytes_ok s -> unbase64 (map alphabet (digits s)) = Some s.
Proof.
  intros H. unfold unbase64. rewrite values_map by (apply digits_six; auto). destruct (digits_len s H) as (_ & B). replace (length (digits s) mod 4 =? 1)%nat with false by (symmetry; apply Nat.eqb_neq; auto). rewrite octets_digits; auto.
Qed.
Lemma round_trip pad s : bytes_ok s -> (len s + 2) * 4 < 2 ^ 31 -> exists t, encode_base64 pad s = EOk t /\ decode_base64 t = EOk s.
Proof.
  intros H L. exists (base64 pad s). split; [apply encode_ok; auto|]. pose proof (base64_len pad s H) as BL.
  assert (E : exists k, base64 pad s = map alphabet (digits s) ++ repeat 61 k) by (unfold base64; destruct pad; [eexists; reflexivity|exists 0%nat; reflexivity]).
  destruct E as (k & E). rewrite E in *. rewrite len_app, len_repeat in BL. rewrite decode_ok.
  - rewrite unbase64_digits; auto.
  - pose proof (digits_six s H) as S6. apply Forall_forall. intros x Hx. apply in_map_iff in Hx. destruct Hx as (v & <- & Hv). rewrite Forall_forall in S6. apply value_alphabet. auto.
  - intros u' C. pose proof (digits_six s H) as S6. assert (Hi : In 61 (map alphabet (digits s))) by (rewrite C; apply in_app_iff; right; left; auto). apply in_map_iff in Hi. destruct Hi as (v & Ev & Hv). rewrite Forall_forall in S6. destruct (value_alphabet v (S6 v Hv)) as (_ & _ & N). auto.
  - lia.
Qed.
Lemma many_texts : exists t1 t2 s, t1 <> t2 /\ decode_base64 t1 = EOk s /\ decode_base64 t2 = EOk s /\ encode_base64 false s = EOk t1.
Proof. exists [81; 81], [81; 82], [65]. repeat split; try reflexivity. discriminate. Qed.
Lemma long_text pad s : len s = 2 ^ 29 -> encode_base64 pad s = EUb.
Proof. intros H. unfold encode_base64. rewrite H. reflexivity. Qed.

Lemma plain_unreserved c : uri_plain c = true <-> unreserved c.
Proof. unfold uri_plain, unreserved. lia. Qed.
Lemma hex_ok n : 0 <= n < 16 -> digit (hex n) n.
Proof. intros H. unfold digit, hex. destruct (9 <? n) eqn:E; lia. Qed.
Lemma percent_app t s c : Forall unreserved c -> percent t s -> percent (c ++ t) (c ++ s).
Proof. induction 1; simpl; auto. intros. constructor; auto. Qed.
Lemma uri_ok pend s : bytes_ok s -> Forall unreserved pend -> percent (uri pend s) (pend ++ s).
Proof.
  revert pend. induction s as [|c s IH]; intros pend Hs Hp; simpl.
  - rewrite <- (app_nil_r pend) at 1. apply percent_app; auto. constructor.
  - inversion Hs; subst. destruct (uri_plain c) eqn:E.
    + replace (pend ++ c :: s) with ((pend ++ [c]) ++ s) by (rewrite <- app_assoc; auto). apply IH; auto. apply Forall_app. split; auto. constructor; auto. apply plain_unreserved. auto.
    + apply percent_app; auto. unfold byte_ok in *. rewrite Z.shiftr_div_pow2 by lia. change (2 ^ 4) with 16. change 15 with (Z.ones 4). rewrite Z.land_ones by lia. change (2 ^ 4) with 16.
      replace (c :: s) with (16 * (c / 16) + c mod 16 :: s) by (f_equal; lia). apply Pc_code.
      * apply hex_ok. lia.
      * apply hex_ok. lia.
      * replace (16 * (c / 16) + c mod 16) with c by lia. intros C. apply plain_unreserved in C. congruence.
      * apply (IH []); auto.
Qed.
Lemma digit_inj c n m : digit c n -> digit c m -> n = m.
Proof. unfold digit. lia. Qed.
Lemma percent_fun t s s' : percent t s -> percent t s' -> s = s'.
Proof.
  intros H. revert s'. induction H as [|c t s Hu H IH|c1 c2 h l t s D1 D2 N H IH]; intros s' H'; inversion H'; subst; auto.
  - f_equal. auto.
  - exfalso. unfold unreserved in Hu. lia.
  - exfalso. match goal with U : unreserved 37 |- _ => unfold unreserved in U; lia end.
  - match goal with D : digit c1 ?h', D' : digit c2 ?l', Q : percent t ?s' |- _ = 16 * ?h' + ?l' :: ?s' => rewrite (digit_inj _ _ _ D1 D), (digit_inj _ _ _ D2 D'), (IH _ Q) end. auto.
Qed.
Lemma uri_all s : bytes_ok s -> percent (encode_uri_component s) s /\ forall s', percent (encode_uri_component s) s' -> s' = s.
Proof. intros H. pose proof (uri_ok [] s H (Forall_nil _)) as U. split; auto. intros s' H'. symmetry. exact (percent_fun _ _ _ U H'). Qed.
