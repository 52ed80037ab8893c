(* Safety of the streaming decoder on arbitrary input. *)
From Verif Require Import Lib M_Key P_Key M_Msgpack Spec_Msgpack P_Msgpack1 P_Msgpack2 P_Msgpack3 P_Msgpack4.

(* Pointers on the stack are valid, and counts agree with the containers. *)
Definition wf_elem (e : selem) (below : list selem) (r : json) : Prop :=
  0 <= se_size e /\
  match se_jp e with
  | PIdx i => exists l, jget (path_of below) r = Some (JArr l) /\ Z.of_nat i + 1 + se_size e <= len l
  | PMem k => exists m x, jget (path_of below) r = Some (JObj m) /\ obj_get k m = Some x
  | PKey => exists m, jget (path_of below) r = Some (JObj m)
  | PNull => False
  end.
Fixpoint wf_st (st : list selem) (r : json) : Prop :=
  match st with
  | [] => True
  | e :: below => wf_elem e below r /\ top_not_key below /\ wf_st below r
  end.

Lemma arr_set_len i v l l' : arr_set i v l = Some l' -> length l' = length l.
Proof.
  revert i l'. induction l as [|x l IH]; intros [|i] l'; cbn; try discriminate.
  - intros [= <-]. reflexivity.
  - destruct (arr_set i v l) eqn:E; [|discriminate]. intros [= <-]. cbn. f_equal. eauto.
Qed.
Lemma obj_set_keeps k v l l' : obj_set k v l = Some l' -> forall k' x, obj_get k' l = Some x -> exists y, obj_get k' l' = Some y.
Proof.
  revert l'. induction l as [|[k0 x0] l IH]; intros l'; cbn; try discriminate.
  destruct (bytes_eqb k k0) eqn:Ek.
  - intros [= <-] k' x. cbn. destruct (bytes_eqb k' k0); eauto.
  - destruct (obj_set k v l) eqn:E; [|discriminate]. intros [= <-] k' x. cbn. destruct (bytes_eqb k' k0); eauto.
Qed.

(* Writing below a container keeps its shape. *)
Lemma jput_shape a q v c c' : jput (a :: q) v c = Some c' ->
  (forall l, c = JArr l -> exists l', c' = JArr l' /\ length l' = length l) /\
  (forall m, c = JObj m -> exists m', c' = JObj m' /\ forall k x, obj_get k m = Some x -> exists y, obj_get k m' = Some y).
Proof.
  cbn [jput]. destruct a; try discriminate; destruct c; try discriminate.
  - destruct (nth_error l i); [|discriminate]. destruct (jput q v j); [|discriminate].
    destruct (arr_set i j0 l) eqn:E; [|discriminate]. intros [= <-]. split; [|discriminate].
    intros l1 [= <-]. exists l0. split; auto. eapply arr_set_len; eauto.
  - destruct (obj_get k l); [|discriminate]. destruct (jput q v j); [|discriminate].
    destruct (obj_set k j0 l) eqn:E; [|discriminate]. intros [= <-]. split; [discriminate|].
    intros l1 [= <-]. exists l0. split; auto. eapply obj_set_keeps; eauto.
Qed.

Lemma wf_elem_put e below r t v r' : wf_elem e below r -> jput (path_of below ++ se_jp e :: t) v r = Some r' -> wf_elem e below r'.
Proof.
  intros [Hs He] Hp. split; auto. rewrite jput_app in Hp.
  destruct (jget (path_of below) r) as [c|] eqn:Eg; [|discriminate].
  destruct (jput (se_jp e :: t) v c) as [c'|] eqn:Ec; [|discriminate].
  destruct (jput_shape _ _ _ _ _ Ec) as [SA SO]. apply jput_get in Hp.
  destruct (se_jp e); auto.
  - destruct He as [m Hm]. injection Hm as ->. destruct (SO _ eq_refl) as [m' [-> _]]. eauto.
  - destruct He as [l [Hl Hn]]. injection Hl as ->. destruct (SA _ eq_refl) as [l' [-> E]].
    exists l'. split; auto. unfold len in *. lia.
  - destruct He as (m & x & Hm & Hx). injection Hm as ->. destruct (SO _ eq_refl) as [m' [-> E]].
    destruct (E _ _ Hx) as [y Hy]. eauto.
Qed.
Lemma wf_put st : forall r t v r', wf_st st r -> jput (path_of st ++ t) v r = Some r' -> wf_st st r'.
Proof.
  induction st as [|e st IH]; intros r t v r' Hw Hp; auto. cbn [wf_st] in *. destruct Hw as (He & Hk & Hw).
  rewrite path_of_cons, <- app_assoc in Hp. cbn [app] in Hp. repeat split.
  - apply (wf_elem_put e st r t v r' He Hp).
  - apply (wf_elem_put e st r t v r' He Hp).
  - auto.
  - eapply IH; eauto.
Qed.

(* The top pointer is valid. *)
Lemma wf_get st : forall r, wf_st st r -> top_not_key st -> exists x, jget (path_of st) r = Some x.
Proof.
  intros r. destruct st as [|e st]; intros Hw Hk; [cbn; eauto|]. cbn in Hw, Hk. destruct Hw as ((Hs & He) & _ & _).
  rewrite path_of_cons, jget_app. destruct (se_jp e); try easy.
  - destruct He as [l [-> Hn]]. cbn. destruct (nth_error l i) eqn:E; eauto.
    apply nth_error_None in E. unfold len in Hn. lia.
  - destruct He as (m & x & -> & Hx). cbn. rewrite Hx. eauto.
Qed.

Definition wf (p : sparser) : Prop := wf_st (sp_stack p) (sp_json p).

Lemma wf_cons_inv e below r : wf_st (e :: below) r -> wf_elem e below r /\ top_not_key below /\ wf_st below r.
Proof. auto. Qed.

Lemma pop_done_spec st r : wf_st st r -> top_not_key st ->
  wf_st (pop_done st) r /\ top_not_key (pop_done st) /\ (match pop_done st with e :: _ => se_size e <> 0 | [] => True end).
Proof.
  induction st as [|e st IH]; intros Hw Hk; [cbn; auto|]. cbn [pop_done].
  destruct Hw as (He & Hk' & Hw). destruct (se_size e =? 0) eqn:E; [auto|].
  split; [cbn; auto|]. split; auto. lia.
Qed.

Lemma finish_wf p s : wf p -> top_not_key (sp_stack p) ->
  match finish_value p s with RUndef => False | RCont p' _ => wf p' | RRet _ _ => True end.
Proof.
  intros Hw Hk. destruct (pop_done_spec _ _ Hw Hk) as (W & K & S). unfold finish_value.
  destruct (pop_done (sp_stack p)) as [|e st]; auto.
  destruct W as ((Hs & He) & Kb & Wb). destruct (_ =? _) eqn:E; [lia|].
  cbn in K. destruct (se_jp e) eqn:Ej; try easy.
  - destruct He as [l [Hl Hn]]. rewrite Hl. unfold wf. cbn [set_stack sp_stack sp_json wf_st].
    split; [|auto]. split; cbn [se_size se_jp]; [lia|]. exists l. split; auto. lia.
  - destruct He as (m & x & Hm & Hx). rewrite Hm. unfold wf. cbn [set_stack sp_stack sp_json wf_st].
    split; [|auto]. split; cbn [se_size se_jp]; [lia|]. eauto.
Qed.

Lemma key_or_not st : cur_loc st = LKey \/ (cur_loc st = LAt (path_of st) /\ top_not_key st).
Proof. destruct st as [|e st]; cbn; auto. destruct (se_jp e); auto; right; split; auto; discriminate. Qed.

(* After a value has been stored at jx. *)
Lemma after_wf p p' n s v : wf p -> 0 <= n -> (match v with JArr l => len l = n | _ => True end) ->
  store p (cur_loc (sp_stack p)) v = Some p' ->
  match after_value p' (cur_loc (sp_stack p)) n s with RUndef => False | RCont q _ => wf q | RRet _ _ => True end.
Proof.
  intros Hw Hn Hv Hs. destruct (key_or_not (sp_stack p)) as [E|[E Hk]]; rewrite E in *.
  - cbn in Hs. injection Hs as <-. cbn [after_value sp_jokey set_jokey sp_stack sp_json].
    unfold wf in Hw. destruct (sp_stack p) as [|e st]; [discriminate|]. cbn in E.
    destruct Hw as ((Hsz & He) & Kb & Wb). destruct (se_jp e) eqn:Ej; try discriminate.
    destruct He as [m Hm].
    assert (G : forall k, match (match jget (path_of st) (sp_json p) with
        | Some (JObj m) => match jput (path_of st) (JObj (obj_get_insert k m)) (sp_json p) with
                           | Some j => RCont (set_stack (set_json (set_jokey p v) j) (MkSelem (PMem k) (se_size e) :: st)) s
                           | None => RUndef end
        | _ => RUndef end) with RUndef => False | RCont q _ => wf q | RRet _ _ => True end).
    { intros k. rewrite Hm. destruct (jput_some _ (JObj (obj_get_insert k m)) _ _ Hm) as [j Hj]. rewrite Hj.
      unfold wf. cbn [set_stack set_json set_jokey sp_stack sp_json wf_st]. split; [|split; auto].
      - split; cbn [se_size se_jp]; auto. exists (obj_get_insert k m).
        assert (exists x, obj_get k (obj_get_insert k m) = Some x) as [x Hx].
        { unfold obj_get_insert. destruct (obj_get k m) eqn:Eo; eauto.
          clear - Eo. induction m as [|[k0 x0] m IH]; cbn in *.
          - assert (bytes_eqb k k = true) as -> by now apply bytes_eqb_eq. eauto.
          - destruct (bytes_eqb k k0); [discriminate|]. auto. }
        exists x. split; auto. exact (jput_get _ _ _ _ Hj).
      - apply (wf_put st (sp_json p) [] (JObj (obj_get_insert k m)) j Wb). now rewrite app_nil_r. }
    destruct v; auto; apply G.
  - cbn [store] in Hs. destruct (jput (path_of (sp_stack p)) v (sp_json p)) as [j|] eqn:Ej; [|discriminate].
    injection Hs as <-. pose proof (jput_get _ _ _ _ Ej) as Hg.
    assert (Wp : wf_st (sp_stack p) j) by (apply (wf_put (sp_stack p) (sp_json p) [] v j Hw); now rewrite app_nil_r).
    assert (F : match finish_value (set_json p j) s with RUndef => False | RCont q _ => wf q | RRet _ _ => True end)
      by (apply finish_wf; auto).
    cbn [after_value sp_json set_json]. rewrite Hg. destruct v; auto.
    + destruct (n =? 0) eqn:E0; auto. unfold wf. cbn [set_stack set_json sp_stack sp_json wf_st].
      split; [|auto]. split; cbn [se_size se_jp]; [lia|]. exists l. split; auto. lia.
    + destruct (n =? 0) eqn:E0; auto. destruct (n =? - 2 ^ 31) eqn:E1; [lia|].
      unfold wf. cbn [set_stack set_json sp_stack sp_json wf_st]. split; [|auto]. split; cbn [se_size se_jp]; [lia|]. eauto.
Qed.

Lemma store_some p v : wf p -> exists p', store p (cur_loc (sp_stack p)) v = Some p'.
Proof.
  intros Hw. destruct (key_or_not (sp_stack p)) as [E|[E Hk]]; rewrite E; cbn; eauto.
  destruct (wf_get _ _ Hw Hk) as [x Hx]. destruct (jput_some _ v _ _ Hx) as [j ->]. eauto.
Qed.
Lemma load_some p : wf p -> exists x, load p (cur_loc (sp_stack p)) = Some x.
Proof.
  intros Hw. destruct (key_or_not (sp_stack p)) as [E|[E Hk]]; rewrite E; cbn; eauto.
  destruct (wf_get _ _ Hw Hk) as [x Hx]. eauto.
Qed.

Definition negative (t : token) : Prop := match t with TMap n | TArr n | TRaw n => n < 0 | _ => False end.

Lemma step_wf p s : s <> [] -> wf p -> ~ negative (fst (next_token s)) ->
  match step p s with RUndef => False | RCont q _ => wf q | RRet _ _ => True end.
Proof.
  intros Hs Hw Hn. unfold step. destruct (next_token s) as [t s'] eqn:Et. cbn [fst] in Hn.
  destruct t; cbn [negative] in Hn; auto.
  - assert (Hv : match v with JArr _ => False | _ => True end).
    { destruct s as [|b r]; [easy|]. cbn [next_token] in Et.
      repeat match type of Et with
             | (if ?c then _ else _) = _ => destruct c
             | (_, _) = (_, _) => injection Et as Et _ 
             end; try discriminate; try (rewrite <- Et; exact I); try (injection Et as <-; exact I).
      unfold header_token in Et.
      repeat match type of Et with (if ?c then _ else _) = _ => destruct c; [first [discriminate|injection Et as <-; exact I]|] end.
      discriminate. }
    destruct (store_some p v Hw) as [p' Hp']. rewrite Hp'.
    apply (after_wf p p' 0 s' v Hw); auto; [lia|]. destruct v; easy.
  - destruct (store_some p (JObj []) Hw) as [p' Hp']. rewrite Hp'.
    apply (after_wf p p' n s' (JObj []) Hw); auto. lia.
  - destruct (n <? 0) eqn:E; [lia|]. destruct (load_some p Hw) as [x ->]. cbv zeta.
    match goal with |- context [store p _ ?v] => destruct (store_some p v Hw) as [p' Hp']; rewrite Hp'; apply (after_wf p p' n s' v Hw); auto end.
    + lia.
    + unfold len. rewrite arr_resize_length. lia.
  - destruct (n <? 0) eqn:E; [lia|]. destruct (len s' <? n); auto.
    match goal with |- context [store p _ ?v] => destruct (store_some p v Hw) as [p' Hp']; rewrite Hp'; apply (after_wf p p' n _ v Hw); auto end.
    lia.
Qed.

(* Undefined behaviour needs a negative length somewhere in the input. *)
Lemma feed_safe p s : sp_state p = StNormal -> wf p -> feed_all p s = RUndef ->
  exists pre s1, s = pre ++ s1 /\ s1 <> [] /\ negative (fst (next_token s1)).
Proof.
  remember (length s) as m eqn:Em. revert p s Em.
  induction m as [m IH] using (well_founded_induction lt_wf). intros p s Em Hp Hw Hu.
  destruct s as [|b r]; [rewrite feed_all_nil in Hu; discriminate|].
  set (s := b :: r) in *. assert (Hs : s <> []) by discriminate.
  assert (Hdec : negative (fst (next_token s)) \/ ~ negative (fst (next_token s))).
  { destruct (fst (next_token s)); cbn; lia || auto. }
  destruct Hdec as [Hneg|Hneg]; [exists [], s; auto|].
  rewrite feed_step in Hu by auto.
  pose proof (step_wf p s Hs Hw Hneg) as SW. pose proof (step_ok p s Hs Hp) as SO.
  destruct (step_cases p s Hs) as [(p' & s' & E & A & B & C)|[(p' & s' & E & A & B & C)|[[E C]|[[E A]|(n & s' & Ht' & Hn & Hl & Hx & E)]]]].
  - rewrite E in *.
    assert (Hsuf : exists pre, s = pre ++ s').
    { clear - E Hs. unfold step in E. destruct (next_token s) as [t s0] eqn:Et.
      assert (H0 : exists pre, s = pre ++ s0).
      { subst s. clear - Et. cbn [next_token] in Et.
        repeat match type of Et with (if ?c then (_, r) else _) = _ => destruct c; [injection Et as _ <-; exists [b]; reflexivity|] end.
        cbv zeta in Et. destruct (_ =? 0); [injection Et as _ <-; exists []; reflexivity|].
        destruct (_ <? _); [injection Et as _ <-; exists []; reflexivity|].
        set (k := Z.to_nat _) in Et. injection Et as _ <-. exists (b :: firstn k r). cbn [app]. now rewrite firstn_skipn. }
      destruct H0 as [pre0 H0]. 
      destruct t; cbv zeta in E;
      repeat match type of E with
             | (match ?x with Some _ => _ | None => _ end) = _ => destruct x eqn:?; try discriminate
             | (if ?x then _ else _) = _ => destruct x eqn:?; try discriminate
             end; try discriminate.
      all: match type of E with after_value ?p ?l ?n ?s = _ => pose proof (after_value_state p l n s) as Q; rewrite E in Q; destruct Q as [_ Q] end.
      1-3: subst s'; eauto.
      rewrite Q. exists (pre0 ++ firstn (Z.to_nat n) s0). now rewrite <- app_assoc, firstn_skipn. }
    destruct Hsuf as [pre Hpre].
    destruct (IH (length s') ltac:(lia) p' s' eq_refl ltac:(tauto) SW Hu) as (pre1 & s1 & H1 & H2 & H3).
    exists (pre ++ pre1), s1. rewrite <- app_assoc, <- H1. auto.
  - rewrite E in Hu. rewrite feed_all_done in Hu; [discriminate|]. unfold sp_done. destruct A as [->| ->]; auto.
  - rewrite E in SW. easy.
  - rewrite E, feed_all_nil in Hu. discriminate.
  - rewrite E in Hu. unfold raw_body in Hu. replace (len s' <? n) with true in Hu by lia. rewrite feed_all_nil in Hu. discriminate.
Qed.

Lemma to_signed_neg k x : 0 < k -> to_signed k x < 0 -> 0 <= x < 2 ^ k -> 2 ^ (k - 1) <= x.
Proof. intros Hk H Hx. unfold to_signed in H. rewrite Z.mod_small in H by lia. destruct (_ <? _) eqn:E; lia. Qed.

Lemma header_negative b body : negative (header_token b body) -> bytes_ok body -> In b [198; 219; 221; 223] /\ to_signed 32 (be_val body) < 0.
Proof.
  intros H Hb. pose proof (be_val_bound body Hb) as HB. unfold header_token in H.
  repeat match type of H with
         | negative (if ?b =? ?k then _ else _) => destruct (Z.eqb_spec b k); [subst; cbn [negative] in H; try easy; try lia; (split; [cbn [In]; auto|exact H])|]
         | negative (if (?b =? ?k) || (?b =? ?k2) then _ else _) => destruct (Z.eqb_spec b k); [subst|destruct (Z.eqb_spec b k2); [subst|]]; cbn [orb] in H; [cbn [negative] in H; try lia; (split; [cbn [In]; auto|exact H])|cbn [negative] in H; try lia; (split; [cbn [In]; auto|exact H])|]
         end.
  easy.
Qed.
Lemma next_negative s : bytes_ok s -> s <> [] -> negative (fst (next_token s)) -> long_header s.
Proof.
  intros Hb Hs Hn. destruct s as [|b r]; [easy|]. inversion Hb as [|? ? Hb0 Hr]; subst. unfold byte_ok in Hb0.
  cbn [next_token] in Hn. destruct (is_fixint b) eqn:Ef; [easy|]. destruct (b =? 192); [easy|]. destruct (is_bool b); [easy|].
  destruct (is_fixmap b) eqn:E1.
  { exfalso. unfold is_fixmap in E1. destruct (fix_class 128 16 b) as [G|G]; [lia..| |lia]. rewrite G in E1. cbn in Hn. lia. }
  destruct (is_fixarray b) eqn:E2.
  { exfalso. unfold is_fixarray in E2. destruct (fix_class 144 16 b) as [G|G]; [lia..| |lia]. rewrite G in E2. cbn in Hn. lia. }
  destruct (is_fixstr b) eqn:E3.
  { exfalso. unfold is_fixstr in E3. destruct (fix_class 160 32 b) as [G|G]; [lia..| |lia]. rewrite G in E3. cbn in Hn. lia. }
  cbv zeta in Hn. destruct (_ =? 0); [easy|]. destruct (_ <? _) eqn:El; [easy|]. cbn [fst] in Hn.
  destruct (header_negative _ _ Hn) as [Hi Hneg]; [now apply bytes_ok_firstn|].
  exists b, r. repeat split; auto.
  assert (E5 : nth (Z.to_nat (b - 192)) nbytes 0 = 5).
  { cbn [In] in Hi. repeat destruct Hi as [<-|Hi]; try reflexivity. easy. }
  rewrite E5 in *. change (Z.to_nat (5 - 1)) with 4%nat in *.
  apply (to_signed_neg 32); auto; [lia|].
  pose proof (be_val_bound (firstn 4 r) (bytes_ok_firstn 4 r Hr)) as HB.
  unfold len in *. rewrite firstn_length in HB. cbn [length] in El. replace (Nat.min 4 (length r)) with 4%nat in HB by lia.
  exact HB.
Qed.

Lemma decoder_safe p s : bytes_ok s -> consume (sp_reset p) s = RUndef -> exists pre s1, s = pre ++ s1 /\ long_header s1.
Proof.
  intros Hb Hu. rewrite <- feed_is_consume in Hu by auto.
  destruct (feed_safe (sp_reset p) s eq_refl I Hu) as (pre & s1 & -> & Hs & Hn).
  exists pre, s1. split; auto. apply next_negative; auto. apply bytes_ok_app in Hb. tauto.
Qed.
