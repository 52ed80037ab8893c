(* The streaming decoder inverts the encoder: nested values. *)
From Verif Require Import Lib M_Key P_Key M_Msgpack Spec_Msgpack P_Msgpack1 P_Msgpack2 P_Msgpack3.

(* ------------------------------------------------------------------ paths *)
Lemma jget_app p q j : jget (p ++ q) j = match jget p j with Some c => jget q c | None => None end.
Proof.
  revert j. induction p as [|a p IH]; intros j; cbn [app jget]; auto.
  destruct a; auto; destruct j; auto.
  - destruct (nth_error l i); auto.
  - destruct (obj_get k l); auto.
Qed.
Lemma jput_app p q v j : jput (p ++ q) v j =
  match jget p j with
  | Some c => match jput q v c with Some c' => jput p c' j | None => None end
  | None => None end.
Proof.
  revert j. induction p as [|a p IH]; intros j; cbn [app jget jput].
  - now destruct (jput q v j).
  - destruct a; auto; destruct j; auto.
    + destruct (nth_error l i); auto. rewrite IH. destruct (jget p j); auto. destruct (jput q v j0); auto.
    + destruct (obj_get k l); auto. rewrite IH. destruct (jget p j); auto. destruct (jput q v j0); auto.
Qed.
Lemma arr_set_some i v l x : nth_error l i = Some x -> exists l', arr_set i v l = Some l'.
Proof.
  revert i. induction l as [|y l IH]; intros [|i]; cbn; try discriminate; eauto.
  intros H. destruct (IH _ H) as [l' ->]. eauto.
Qed.
Lemma obj_set_some k v l x : obj_get k l = Some x -> exists l', obj_set k v l = Some l'.
Proof.
  induction l as [|[k' y] l IH]; cbn; try discriminate. destruct (bytes_eqb k k'); eauto.
  intros H. destruct (IH H) as [l' ->]. eauto.
Qed.
Lemma jput_some q v j x : jget q j = Some x -> exists j', jput q v j = Some j'.
Proof.
  revert j. induction q as [|a q IH]; intros j; cbn; eauto.
  destruct a; try discriminate; destruct j; try discriminate.
  - destruct (nth_error l i) eqn:E; [|discriminate]. intros H. destruct (IH _ H) as [j' ->].
    destruct (arr_set_some i j' l _ E) as [l' ->]. eauto.
  - destruct (obj_get k l) eqn:E; [|discriminate]. intros H. destruct (IH _ H) as [j' ->].
    destruct (obj_set_some k j' l _ E) as [l' ->]. eauto.
Qed.
Lemma arr_set_spec i v l l' : arr_set i v l = Some l' ->
  nth_error l' i = Some v /\ forall w, arr_set i w l' = arr_set i w l.
Proof.
  revert i l'. induction l as [|y l IH]; intros [|i] l'; cbn; try discriminate.
  - intros [= <-]. auto.
  - destruct (arr_set i v l) eqn:E; [|discriminate]. intros [= <-]. cbn. destruct (IH _ _ E) as [A B].
    split; auto. intros w. now rewrite B.
Qed.
Lemma obj_set_spec k v l l' : obj_set k v l = Some l' ->
  obj_get k l' = Some v /\ forall w, obj_set k w l' = obj_set k w l.
Proof.
  revert l'. induction l as [|[k' y] l IH]; intros l'; cbn; try discriminate.
  destruct (bytes_eqb k k') eqn:Ek.
  - intros [= <-]. cbn. rewrite Ek. auto.
  - destruct (obj_set k v l) eqn:E; [|discriminate]. intros [= <-]. cbn. rewrite Ek.
    destruct (IH _ eq_refl) as [A B]. split; auto. intros w. now rewrite B.
Qed.
Lemma jput_jput q v w j j1 : jput q v j = Some j1 -> jput q w j1 = jput q w j.
Proof.
  revert j j1. induction q as [|a q IH]; intros j j1; cbn [jput]; auto.
  destruct a; try discriminate; destruct j; try discriminate.
  - destruct (nth_error l i) eqn:E; [|discriminate]. destruct (jput q v j) eqn:E1; [|discriminate].
    destruct (arr_set i j0 l) eqn:E2; [|discriminate]. intros [= <-].
    destruct (arr_set_spec _ _ _ _ E2) as [A B]. rewrite A, (IH _ _ E1).
    destruct (jput q w j); auto. now rewrite B.
  - destruct (obj_get k l) eqn:E; [|discriminate]. destruct (jput q v j) eqn:E1; [|discriminate].
    destruct (obj_set k j0 l) eqn:E2; [|discriminate]. intros [= <-].
    destruct (obj_set_spec _ _ _ _ E2) as [A B]. rewrite A, (IH _ _ E1).
    destruct (jput q w j); auto. now rewrite B.
Qed.

Lemma arr_set_mid l1 y l2 v : arr_set (length l1) v (l1 ++ y :: l2) = Some (l1 ++ v :: l2).
Proof. induction l1; cbn; auto. now rewrite IHl1. Qed.
Lemma nth_error_mid {A} (l1 : list A) y l2 : nth_error (l1 ++ y :: l2) (length l1) = Some y.
Proof. induction l1; auto. Qed.
Lemma bytes_eqb_eq a b : bytes_eqb a b = true <-> a = b.
Proof.
  revert b. induction a as [|x a IH]; intros [|y b]; cbn; try (split; congruence).
  rewrite andb_true_iff, IH, Z.eqb_eq. split; [intros [-> ->]; auto|intros [= -> ->]; auto].
Qed.
Lemma obj_get_none k l : ~ In k (map fst l) -> obj_get k l = None.
Proof.
  induction l as [|[k' v] l IH]; cbn; auto. intros H. destruct (bytes_eqb k k') eqn:E.
  - apply bytes_eqb_eq in E. subst. tauto.
  - apply IH. tauto.
Qed.
Lemma obj_get_last k v l : ~ In k (map fst l) -> obj_get k (l ++ [(k, v)]) = Some v.
Proof.
  induction l as [|[k' w] l IH]; cbn.
  - intros _. assert (bytes_eqb k k = true) as -> by now apply bytes_eqb_eq. auto.
  - intros H. destruct (bytes_eqb k k') eqn:E; [apply bytes_eqb_eq in E; subst; tauto|]. apply IH. tauto.
Qed.
Lemma obj_set_last k v w l : ~ In k (map fst l) -> obj_set k w (l ++ [(k, v)]) = Some (l ++ [(k, w)]).
Proof.
  induction l as [|[k' x] l IH]; cbn.
  - intros _. assert (bytes_eqb k k = true) as -> by now apply bytes_eqb_eq. auto.
  - intros H. destruct (bytes_eqb k k') eqn:E; [apply bytes_eqb_eq in E; subst; tauto|]. rewrite IH; tauto.
Qed.

(* ------------------------------------------------------------------ one value *)
Definition normal_at (st : list selem) (r ky : json) : sparser := MkSp StNormal st r ky.

Definition top_not_key (st : list selem) : Prop := match st with e :: _ => se_jp e <> PKey | [] => True end.
Lemma cur_loc_at st : top_not_key st -> cur_loc st = LAt (path_of st).
Proof. destruct st as [|e st]; cbn; auto. destruct (se_jp e); auto. congruence. Qed.

Lemma finish_pop e st r ky u : se_size e = 0 ->
  finish_value (normal_at (e :: st) r ky) u = finish_value (normal_at st r ky) u.
Proof. intros H. unfold finish_value. cbn [sp_stack normal_at pop_done]. now rewrite H. Qed.

Definition decodes (j : json) : Prop :=
  forall st r ky old u, top_not_key st -> jget (path_of st) r = Some old ->
  exists r' ky', jput (path_of st) (norm j) r = Some r' /\
    feed_all (normal_at st r ky) (unparse j ++ u) = resume (finish_value (normal_at st r' ky') u).

Lemma decodes_scalar j v : (forall u, next_token (unparse j ++ u) = (TVal v, u)) -> (exists b w, unparse j = b :: w) ->
  norm j = v -> (match v with JArr _ | JObj _ => False | _ => True end) -> decodes j.
Proof.
  intros Ht [b [w Hb]] Hn Hv st r ky old u Hst Hg.
  destruct (jput_some _ v _ _ Hg) as [r' Hr']. exists r', ky. rewrite Hn. split; auto.
  rewrite feed_step by (auto; rewrite Hb; discriminate). unfold step. rewrite Ht. cbn [sp_stack normal_at].
  rewrite cur_loc_at by auto. cbn [store sp_json normal_at]. rewrite Hr'.
  unfold after_value. cbn [sp_json set_json]. rewrite (jput_get _ _ _ _ Hr'). destruct v; easy.
Qed.

Lemma firstn_len_app (s u : list Z) : firstn (Z.to_nat (len s)) (s ++ u) = s.
Proof. unfold len. rewrite Nat2Z.id, firstn_app, Nat.sub_diag, firstn_all. cbn. apply app_nil_r. Qed.
Lemma skipn_len_app (s u : list Z) : skipn (Z.to_nat (len s)) (s ++ u) = u.
Proof. unfold len. rewrite Nat2Z.id, skipn_app, Nat.sub_diag, skipn_all. reflexivity. Qed.

Lemma write_string_cons s : exists b w, write_string s = b :: w.
Proof. unfold write_string. destruct (_ <? _); [|destruct (_ <? _); [|destruct (_ <? _)]]; cbn; eauto. Qed.

Lemma step_string st r ky s u l : len s < 2 ^ 31 -> cur_loc st = l ->
  step (normal_at st r ky) (write_string s ++ u)
  = match store (normal_at st r ky) l (JStr s) with
    | Some p' => after_value p' l (len s) u
    | None => RUndef end.
Proof.
  intros Hs <-. erewrite step_raw by (apply token_string; auto). pose proof (len_nonneg s).
  replace (len s <? 0) with false by lia. unfold raw_body. rewrite len_app. pose proof (len_nonneg u).
  replace (len s + len u <? len s) with false by lia. now rewrite firstn_len_app, skipn_len_app.
Qed.

Lemma decodes_string s : len s < 2 ^ 31 -> decodes (JStr s).
Proof.
  intros Hs st r ky old u Hst Hg. cbn [norm unparse].
  destruct (jput_some _ (JStr s) _ _ Hg) as [r' Hr']. exists r', ky. split; auto.
  destruct (write_string_cons s) as [b [w Hb]].
  rewrite feed_step by (auto; rewrite Hb; discriminate).
  rewrite (step_string _ _ _ _ _ (LAt (path_of st))) by (auto using cur_loc_at).
  cbn [store sp_json normal_at]. rewrite Hr'. unfold after_value. cbn [sp_json set_json].
  now rewrite (jput_get _ _ _ _ Hr').
Qed.

(* ------------------------------------------------------------------ arrays *)
Lemma path_of_cons e st : path_of (e :: st) = path_of st ++ [se_jp e].
Proof. reflexivity. Qed.

Lemma finish_idx st r ky i k u A : 0 < k < 2 ^ 31 -> jget (path_of st) r = Some (JArr A) ->
  finish_value (normal_at (MkSelem (PIdx i) k :: st) r ky) u = RCont (normal_at (MkSelem (PIdx (S i)) (k - 1) :: st) r ky) u.
Proof.
  intros Hk Hg. unfold finish_value. cbn [sp_stack normal_at pop_done se_size].
  destruct (k =? 0) eqn:E; [lia|]. cbn [se_size]. destruct (k =? - 2 ^ 31) eqn:E2; [lia|].
  cbn [sp_json normal_at]. rewrite Hg. reflexivity.
Qed.

Lemma decodes_elements l2 : Forall decodes l2 -> len l2 < 2 ^ 31 -> l2 <> [] ->
  forall l1 olds st r0 r ky u, top_not_key st ->
  jput (path_of st) (JArr (l1 ++ olds)) r0 = Some r -> length olds = length l2 ->
  exists r' ky', jput (path_of st) (JArr (l1 ++ map norm l2)) r0 = Some r' /\
    feed_all (normal_at (MkSelem (PIdx (length l1)) (len l2 - 1) :: st) r ky) (flat_map unparse l2 ++ u)
    = resume (finish_value (normal_at st r' ky') u).
Proof.
  induction l2 as [|x l2 IH]; [easy|]. intros Hd Hl _ l1 olds st r0 r ky u Hst Hr Ho.
  inversion Hd as [|? ? Hx Hl2]; subst. destruct olds as [|o olds]; [discriminate|]. cbn in Ho.
  set (e := MkSelem (PIdx (length l1)) (len (x :: l2) - 1)).
  assert (Hg : jget (path_of (e :: st)) r = Some o).
  { rewrite path_of_cons, jget_app, (jput_get _ _ _ _ Hr). cbn. now rewrite nth_error_mid. }
  cbn [flat_map]. rewrite <- app_assoc.
  destruct (Hx (e :: st) r ky o (flat_map unparse l2 ++ u) ltac:(discriminate) Hg) as (r1 & ky1 & Hr1 & ->).
  assert (Hr1' : jput (path_of st) (JArr (l1 ++ norm x :: olds)) r0 = Some r1).
  { rewrite path_of_cons, jput_app, (jput_get _ _ _ _ Hr) in Hr1. cbn in Hr1.
    rewrite nth_error_mid, arr_set_mid in Hr1. now rewrite (jput_jput _ _ _ _ _ Hr) in Hr1. }
  rewrite len_cons in Hl. destruct l2 as [|y l2].
  - destruct olds; [|discriminate]. exists r1, ky1. cbn [map]. split; auto.
  - set (l := y :: l2) in *. assert (0 < len l) by (unfold l; rewrite len_cons; pose proof (len_nonneg l2); lia).
    assert (El : len (x :: l) - 1 = len l) by (rewrite len_cons; lia). unfold e. rewrite El, (finish_idx _ _ _ _ _ _ (l1 ++ norm x :: olds)); [|lia|exact (jput_get _ _ _ _ Hr1')].
    cbn [resume].
    destruct (IH Hl2 ltac:(lia) ltac:(discriminate) (l1 ++ [norm x]) olds st r0 r1 ky1 u Hst) as (r2 & ky2 & Hr2 & E2).
    + now rewrite <- app_assoc.
    + lia.
    + exists r2, ky2. rewrite <- app_assoc in Hr2. cbn [app] in Hr2. cbn [map]. split; auto.
      rewrite <- E2. rewrite app_length. cbn [length]. replace (length l1 + 1)%nat with (S (length l1)) by lia.
      reflexivity.
Qed.

Lemma arr_resize_length n l : length (arr_resize n l) = n.
Proof. unfold arr_resize. rewrite app_length, firstn_length, repeat_length. lia. Qed.

Lemma write_array_cons n : exists b w, write_array_header n = b :: w.
Proof. unfold write_array_header. destruct (_ <? _); [|destruct (_ <? _)]; eauto. Qed.
Lemma write_map_cons n : exists b w, write_map_header n = b :: w.
Proof. unfold write_map_header. destruct (_ <? _); [|destruct (_ <? _)]; eauto. Qed.

Lemma decodes_array l : len l < 2 ^ 31 -> Forall decodes l -> decodes (JArr l).
Proof.
  intros Hl Hd st r ky old u Hst Hg. cbn [norm unparse]. rewrite <- app_assoc.
  destruct (write_array_cons (len l)) as [b [w Hb]].
  rewrite feed_step by (auto; rewrite Hb; discriminate). unfold step.
  rewrite token_array by (pose proof (len_nonneg l); lia). cbn [sp_stack normal_at].
  rewrite cur_loc_at by auto. cbn [load sp_json normal_at]. rewrite Hg.
  replace (len l <? 0) with false by (pose proof (len_nonneg l); lia). cbv zeta.
  set (A := arr_resize _ _). assert (HA : length A = length l) by (unfold A, len; rewrite arr_resize_length; lia).
  clearbody A. cbn [store sp_json normal_at].
  destruct (jput_some _ (JArr A) _ _ Hg) as [r1 Hr1]. rewrite Hr1.
  unfold after_value. cbn [sp_json set_json]. rewrite (jput_get _ _ _ _ Hr1).
  destruct l as [|x l].
  - cbn. destruct A; [|discriminate]. exists r1, ky. split; auto.
  - destruct (len (x :: l) =? 0) eqn:E; [rewrite len_cons in E; pose proof (len_nonneg l); lia|].
    cbn [set_stack set_json sp_stack sp_state sp_json sp_jokey normal_at].
    destruct (decodes_elements (x :: l) Hd Hl ltac:(discriminate) [] A st r r1 ky u Hst Hr1 HA) as (r2 & ky2 & H1 & H2).
    exists r2, ky2. cbn [app length] in H1, H2. split; auto.
Qed.

(* ------------------------------------------------------------------ objects *)
Definition norm_kv (kv : list Z * json) := (fst kv, norm (snd kv)).
Lemma finish_key st r ky jp k u A : 0 < k < 2 ^ 31 -> jget (path_of st) r = Some (JObj A) ->
  finish_value (normal_at (MkSelem jp k :: st) r ky) u = RCont (normal_at (MkSelem PKey (k - 1) :: st) r ky) u.
Proof.
  intros Hk Hg. unfold finish_value. cbn [sp_stack normal_at pop_done se_size].
  destruct (k =? 0) eqn:E; [lia|]. cbn [se_size]. destruct (k =? - 2 ^ 31) eqn:E2; [lia|].
  cbn [sp_json normal_at]. rewrite Hg. reflexivity.
Qed.

Lemma decodes_members l2 : Forall (fun kv => decodes (snd kv) /\ len (fst kv) < 2 ^ 31) l2 -> len l2 < 2 ^ 31 -> l2 <> [] ->
  forall l1 st r0 r ky u, top_not_key st ->
  jput (path_of st) (JObj l1) r0 = Some r -> NoDup (map fst (l1 ++ l2)) ->
  exists r' ky', jput (path_of st) (JObj (l1 ++ map norm_kv l2)) r0 = Some r' /\
    feed_all (normal_at (MkSelem PKey (len l2 - 1) :: st) r ky)
             (flat_map (fun kv => write_string (fst kv) ++ unparse (snd kv)) l2 ++ u)
    = resume (finish_value (normal_at st r' ky') u).
Proof.
  induction l2 as [|[k x] l2 IH]; [easy|]. intros Hd Hl _ l1 st r0 r ky u Hst Hr Hnd.
  inversion Hd as [|? ? [Hx Hk] Hl2]; subst. cbn [fst snd] in *.
  cbn [flat_map fst snd]. rewrite <- !app_assoc.
  destruct (write_string_cons k) as [b [w Hb]].
  rewrite feed_step by (auto; rewrite Hb; discriminate).
  rewrite (step_string _ _ _ _ _ LKey) by auto. cbn [store normal_at set_jokey sp_state sp_stack sp_json sp_jokey after_value].
  rewrite (jput_get _ _ _ _ Hr). rewrite (jput_jput _ _ _ _ _ Hr).
  assert (Hni : ~ In k (map fst l1)).
  { rewrite map_app in Hnd. cbn in Hnd. apply NoDup_remove_2 in Hnd. intros H. apply Hnd. apply in_or_app. auto. }
  assert (Hog : obj_get_insert k l1 = l1 ++ [(k, JNull)]) by (unfold obj_get_insert; now rewrite obj_get_none).
  rewrite Hog.
  assert (Hgb : exists o, jget (path_of st) r0 = Some o).
  { destruct (jget (path_of st) r0) eqn:E; eauto. exfalso. 
    pose proof (jput_app (path_of st) [] (JObj l1) r0) as A. rewrite app_nil_r, E, Hr in A. discriminate. }
  destruct Hgb as [o0 Hgb].
  destruct (jput_some _ (JObj (l1 ++ [(k, JNull)])) _ _ Hgb) as [r1 Hr1]. rewrite Hr1.
  cbn [resume set_stack set_json sp_state sp_stack sp_json sp_jokey se_size].
  set (e := MkSelem (PMem k) (len ((k, x) :: l2) - 1)).
  change (set_stack _ (e :: st)) with (normal_at (e :: st) r1 (JStr k)).
  assert (Hg : jget (path_of (e :: st)) r1 = Some JNull).
  { rewrite path_of_cons, jget_app, (jput_get _ _ _ _ Hr1). cbn. now rewrite obj_get_last. }
  match goal with |- context [unparse x ++ ?rest] =>
    destruct (Hx (e :: st) r1 (JStr k) JNull rest ltac:(discriminate) Hg) as (r2 & ky2 & Hr2 & E2) end.
  rewrite E2. clear E2.
  assert (Hr2' : jput (path_of st) (JObj (l1 ++ [(k, norm x)])) r0 = Some r2).
  { rewrite path_of_cons, jput_app, (jput_get _ _ _ _ Hr1) in Hr2. cbn in Hr2.
    rewrite obj_get_last, obj_set_last in Hr2 by auto. now rewrite (jput_jput _ _ _ _ _ Hr1) in Hr2. }
  rewrite len_cons in Hl. destruct l2 as [|y l2].
  - exists r2, ky2. cbn [map]. split; auto.
  - set (l := y :: l2) in *. assert (0 < len l) by (unfold l; rewrite len_cons; pose proof (len_nonneg l2); lia).
    assert (El : len ((k, x) :: l) - 1 = len l) by (rewrite len_cons; lia). unfold e. rewrite El, (finish_key _ _ _ _ _ _ (l1 ++ [(k, norm x)])); [|lia|exact (jput_get _ _ _ _ Hr2')].
    cbn [resume].
    destruct (IH Hl2 ltac:(lia) ltac:(discriminate) (l1 ++ [(k, norm x)]) st r0 r2 ky2 u Hst Hr2') as (r3 & ky3 & Hr3 & E3).
    + rewrite <- app_assoc. cbn [app]. rewrite map_app in *. exact Hnd.
    + exists r3, ky3. rewrite <- app_assoc in Hr3. cbn [app] in Hr3. cbn [map norm_kv fst snd]. split; auto.
Qed.

Lemma decodes_object l : len l < 2 ^ 31 -> NoDup (map fst l) ->
  Forall (fun kv => decodes (snd kv) /\ len (fst kv) < 2 ^ 31) l -> decodes (JObj l).
Proof.
  intros Hl Hnd Hd st r ky old u Hst Hg. cbn [norm unparse]. rewrite <- app_assoc.
  destruct (write_map_cons (len l)) as [b [w Hb]].
  rewrite feed_step by (auto; rewrite Hb; discriminate). unfold step.
  rewrite token_map by (pose proof (len_nonneg l); lia). cbn [sp_stack normal_at].
  rewrite cur_loc_at by auto. cbn [store sp_json normal_at].
  destruct (jput_some _ (JObj []) _ _ Hg) as [r1 Hr1]. rewrite Hr1.
  unfold after_value. cbn [sp_json set_json]. rewrite (jput_get _ _ _ _ Hr1).
  destruct l as [|x l].
  - exists r1, ky. split; auto.
  - destruct (len (x :: l) =? 0) eqn:E; [rewrite len_cons in E; pose proof (len_nonneg l); lia|].
    destruct (len (x :: l) =? - 2 ^ 31) eqn:E2; [pose proof (len_nonneg (x :: l)); lia|].
    cbn [set_stack set_json sp_stack sp_state sp_json sp_jokey normal_at].
    destruct (decodes_members (x :: l) Hd Hl ltac:(discriminate) [] st r r1 ky u Hst Hr1 Hnd) as (r2 & ky2 & H1 & H2).
    exists r2, ky2. cbn [app] in H1. split; auto.
Qed.

Lemma decodes_all j : json_ok j -> decodes j.
Proof.
  induction j using json_ind2; intros Hok; inversion Hok; subst.
  - eapply decodes_scalar; [intros; reflexivity|cbn; unfold write_null; eauto|reflexivity|easy].
  - eapply decodes_scalar; [apply token_bool|cbn; unfold write_bool; eauto|reflexivity|easy].
  - eapply decodes_scalar; [intros; apply token_signed8; auto| |reflexivity|easy].
    cbn. unfold write_signed8, write_signed4. destruct (_ <? _); eauto. destruct (_ <? _); eauto. destruct (_ <? _); eauto. destruct (_ <? _); eauto.
  - eapply decodes_scalar; [intros; apply token_unsigned8; auto| |reflexivity|].
    + cbn. unfold write_unsigned8, write_unsigned4. destruct (_ <? _); eauto. destruct (_ <? _); eauto. destruct (_ <? _); eauto. destruct (_ <? _); eauto.
    + cbn. destruct (_ <? _); auto.
  - eapply decodes_scalar; [intros; apply token_double; auto|cbn; unfold write_double; eauto|reflexivity|easy].
  - now apply decodes_string.
  - apply decodes_array; auto. clear Hok. rewrite Forall_forall in *. auto.
  - apply decodes_object; auto. clear Hok. rewrite Forall_forall in *. intros kv Hkv.
    match goal with HF : forall x, In x l -> bytes_ok _ /\ _ |- _ => destruct (HF kv Hkv) as (A & B & C) end. auto.
Qed.

(* Decoding an encoded value from a reset parser. *)
Lemma feed_is_consume p s : sp_state p = StNormal -> feed_all p s = consume p s.
Proof.
  intros Hp. rewrite feed_run by auto. unfold consume. rewrite Hp.
  pose proof (run_all_ok p s Hp) as R. destruct (run_all p s); auto.
  destruct R as (_ & _ & _ & [D| ->]); [now apply feed_all_done|apply feed_all_nil].
Qed.

Lemma roundtrip j p u : json_ok j ->
  exists p', consume (sp_reset p) (unparse j ++ u) = RRet p' u /\ sp_success p' = true /\ jsame j (sp_json p').
Proof.
  intros Hok. destruct (decodes_all j Hok [] (sp_json p) (sp_jokey p) (sp_json p) u I eq_refl) as (r' & ky' & H1 & H2).
  cbn in H1. injection H1 as <-.
  exists (MkSp StFinal [] (norm j) ky'). repeat split; [|apply norm_same].
  rewrite <- feed_is_consume by auto. etransitivity; [exact H2|]. apply (feed_all_done (MkSp StFinal [] (norm j) ky') u eq_refl).
Qed.
