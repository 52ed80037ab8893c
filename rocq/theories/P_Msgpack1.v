(* Proofs about the streaming decoder: progress, and independence of the division into pieces. *)
From Verif Require Import Lib M_Key M_Msgpack.

Lemma skipn_length' {A} n (l : list A) : length (skipn n l) = (length l - n)%nat.
Proof. apply skipn_length. Qed.

Lemma nbytes_bound i : nth i nbytes 0 = 0 \/ 2 <= nth i nbytes 0 <= 9.
Proof.
  do 33 (destruct i as [|i]; [cbn; lia|]). left. cbn. now destruct i.
Qed.

(* What next_token does, as a small relation. *)
Lemma next_token_cases s t s' : next_token s = (t, s') ->
  (t = TShort /\ s' = s) \/ (t = TErr /\ s' = s /\ s <> [])
  \/ (t <> TShort /\ (length s' < length s)%nat /\ forall u, next_token (s ++ u) = (t, s' ++ u)).
Proof.
  destruct s as [|b r]; [cbn; intros [= <- <-]; auto|].
  cbn [next_token app].
  destruct (is_fixint b); [intros [= <- <-]; right; right; cbn; repeat split; auto; discriminate|].
  destruct (b =? 192); [intros [= <- <-]; right; right; cbn; repeat split; auto; discriminate|].
  destruct (is_bool b); [intros [= <- <-]; right; right; cbn; repeat split; auto; discriminate|].
  destruct (is_fixmap b); [intros [= <- <-]; right; right; cbn; repeat split; auto; discriminate|].
  destruct (is_fixarray b); [intros [= <- <-]; right; right; cbn; repeat split; auto; discriminate|].
  destruct (is_fixstr b); [intros [= <- <-]; right; right; cbn; repeat split; auto; discriminate|].
  cbv zeta. set (nb := nth (Z.to_nat (b - 192)) nbytes 0).
  destruct (nb =? 0) eqn:E0.
  { intros [= <- <-]. right; left. repeat split; auto. discriminate. }
  destruct (len (b :: r) <? nb) eqn:E1; [intros [= <- <-]; auto|].
  assert (Hl : (Z.to_nat (nb - 1) <= length r)%nat) by (unfold len in E1; cbn [length] in E1; lia).
  assert (E2 : forall u, (len (b :: r ++ u) <? nb) = false).
  { intros u. unfold len in *. cbn [length] in *. rewrite app_length. lia. }
  intros [= <- <-]. 
  destruct (header_token b (firstn (Z.to_nat (nb - 1)) r)) eqn:Et.
  5:{ exfalso. unfold header_token in Et.
      repeat match type of Et with (if ?c then _ else _) = _ => destruct c; try discriminate end. }
  all: right; right; split; [discriminate|]; split; [rewrite skipn_length'; cbn [length]; lia|];
    intros u; cbn [next_token]; rewrite E2, firstn_app, skipn_app;
    replace (Z.to_nat (nb - 1) - length r)%nat with O by lia; cbn [firstn skipn]; rewrite app_nil_r, Et; reflexivity.
Qed.

Lemma next_token_short_len b r : next_token (b :: r) = (TShort, b :: r) ->
  len (b :: r) < nth (Z.to_nat (b - 192)) nbytes 0.
Proof.
  cbn [next_token].
  repeat match goal with |- context [if ?c then (TVal _, _) else _] => destruct c; [discriminate|] end.
  destruct (is_fixmap b); [discriminate|]. destruct (is_fixarray b); [discriminate|]. destruct (is_fixstr b); [discriminate|].
  cbv zeta. destruct (_ =? 0); [discriminate|]. destruct (_ <? _) eqn:E; [lia|]. intros H.
  exfalso. injection H as H _. unfold header_token in H.
  repeat match type of H with (if ?c then _ else _) = _ => destruct c; try discriminate end.
Qed.

(* A short header extended by u: still short, or complete. *)
Lemma next_token_extend b r u : next_token (b :: r) = (TShort, b :: r) ->
  let nb := nth (Z.to_nat (b - 192)) nbytes 0 in
  let k := nb - len (b :: r) in
  0 < k /\
  (len u < k -> next_token ((b :: r) ++ u) = (TShort, (b :: r) ++ u)) /\
  (k <= len u -> exists t, t <> TShort /\ t <> TErr /\ next_token ((b :: r) ++ firstn (Z.to_nat k) u) = (t, [])).
Proof.
  intros H. pose proof (next_token_short_len _ _ H) as Hl. intros nb k.
  split; [unfold k, nb; lia|].
  cbn [next_token] in H. cbn [next_token app].
  repeat match goal with |- context [if ?c then (TVal _, _) else _] => destruct c; [discriminate H|] end.
  destruct (is_fixmap b); [discriminate|]. destruct (is_fixarray b); [discriminate|]. destruct (is_fixstr b); [discriminate|].
  cbv zeta in *. fold nb in H |- *. fold nb in Hl. destruct (nb =? 0) eqn:E0; [discriminate|].
  clear H. unfold len in *; cbn [length] in *. subst k. split.
  - intros Hu. rewrite app_length. destruct (_ <? _) eqn:E; [auto|lia].
  - intros Hu. rewrite app_length, firstn_length. destruct (_ <? _) eqn:E; [lia|].
    eexists. split; [|split; [|f_equal; apply skipn_all2; rewrite app_length, firstn_length; lia]].
    + unfold header_token. repeat match goal with |- (if ?c then _ else _) <> _ => destruct c; try discriminate end.
    + unfold header_token.
      assert (Hb : 192 <= b < 224).
      { destruct (nbytes_bound (Z.to_nat (b - 192))) as [Hn|Hn]; fold nb in Hn; [lia|].
        assert (Z.to_nat (b - 192) < 32)%nat.
        { destruct (Nat.lt_ge_cases (Z.to_nat (b - 192)) 32); auto. exfalso.
          unfold nb in Hn. rewrite nth_overflow in Hn by (cbn; lia). lia. }
        destruct (Z.leb_spec 192 b); [lia|].
        exfalso. unfold nb in Hn. replace (Z.to_nat (b - 192)) with O in Hn by lia. cbn in Hn. lia. }
      unfold nb in E0. clear - E0 Hb.
      assert (Hc : In b (map (fun i => 192 + Z.of_nat i) (seq 0 32))).
      { apply in_map_iff. exists (Z.to_nat (b - 192)). split; [lia|]. apply in_seq. lia. }
      cbn in Hc. repeat (destruct Hc as [<-|Hc]; [cbn in E0; try discriminate E0; discriminate|]). destruct Hc.
Qed.

(* ------------------------------------------------------------------ state bookkeeping *)
Definition pres_state (r : pres) : option pstate :=
  match r with RCont p _ | RRet p _ => Some (sp_state p) | RUndef => None end.

Definition pres_app (r : pres) (u : list Z) : pres :=
  match r with RCont p s => RCont p (s ++ u) | RRet p s => RRet p (s ++ u) | RUndef => RUndef end.

Definition is_done (st : pstate) : Prop := st = StFinal \/ st = StError.

Lemma finish_value_app p s u : finish_value p (s ++ u) = pres_app (finish_value p s) u.
Proof.
  unfold finish_value. destruct (pop_done _) as [|e st]; cbn; auto.
  destruct (_ =? _); cbn; auto. destruct (jget _ _) as [[]|]; cbn; auto. destruct (se_jp e); auto.
Qed.
Lemma after_value_app p l n s u : after_value p l n (s ++ u) = pres_app (after_value p l n s) u.
Proof.
  unfold after_value. destruct l.
  - destruct (sp_jokey p); cbn [pres_app]; auto; destruct (sp_stack p); auto;
      destruct (jget _ _) as [[]|]; auto; destruct (jput _ _ _); auto.
  - destruct (jget _ _) as [[]|]; try apply finish_value_app; auto.
    + destruct (n =? 0); auto using finish_value_app.
    + destruct (n =? 0); auto using finish_value_app. destruct (n =? _); auto.
Qed.

Lemma finish_value_state p s : match finish_value p s with
  | RCont p' s' => sp_state p' = sp_state p /\ s' = s
  | RRet p' s' => sp_state p' = StFinal /\ s' = s
  | RUndef => True end.
Proof.
  unfold finish_value. destruct (pop_done _) as [|e st]; cbn; auto.
  destruct (_ =? _); cbn; auto. destruct (jget _ _) as [[]|]; cbn; auto. destruct (se_jp e); cbn; auto.
Qed.
Lemma after_value_state p l n s : match after_value p l n s with
  | RCont p' s' => sp_state p' = sp_state p /\ s' = s
  | RRet p' s' => is_done (sp_state p') /\ s' = s
  | RUndef => True end.
Proof.
  assert (G : match finish_value p s with
    | RCont p' s' => sp_state p' = sp_state p /\ s' = s
    | RRet p' s' => is_done (sp_state p') /\ s' = s
    | RUndef => True end).
  { pose proof (finish_value_state p s). destruct (finish_value p s); auto. unfold is_done; intuition. }
  unfold after_value. destruct l.
  - destruct (sp_jokey p); cbn; unfold is_done; auto; destruct (sp_stack p); cbn; auto;
      destruct (jget _ _) as [[]|]; cbn; auto; destruct (jput _ _ _); cbn; auto.
  - destruct (jget _ _) as [[]|]; auto.
    + destruct (n =? 0); cbn; auto.
    + destruct (n =? 0); cbn; auto. destruct (n =? _); cbn; auto.
Qed.
Lemma store_state p l v p' : store p l v = Some p' -> sp_state p' = sp_state p /\ sp_stack p' = sp_stack p.
Proof. destruct l; cbn; [intros [= <-]; auto|]. destruct (jput _ _ _); [intros [= <-]; auto|discriminate]. Qed.

(* The body of the string case, msgpack.cc:79-94. *)
Definition raw_body (p : sparser) (n : Z) (s' : list Z) : pres :=
  if len s' <? n then
    RRet (MkSp (StString s') (MkSelem PNull n :: sp_stack p) (sp_json p) (sp_jokey p)) []
  else match store p (cur_loc (sp_stack p)) (JStr (firstn (Z.to_nat n) s')) with
       | Some p' => after_value p' (cur_loc (sp_stack p)) n (skipn (Z.to_nat n) s')
       | None => RUndef
       end.

(* A non-zero n is irrelevant to after_value when the value stored is a string. *)
Lemma jput_get q v j j' : jput q v j = Some j' -> jget q j' = Some v.
Proof.
  revert j j'. induction q as [|a q IH]; intros j j'; cbn; [congruence|].
  destruct a; try discriminate.
  - destruct j as [| | | | | |l|l]; try discriminate. destruct (nth_error l i) eqn:E; [|discriminate].
    destruct (jput q v j) eqn:E1; [|discriminate]. destruct (arr_set i j0 l) eqn:E2; [|discriminate].
    intros [= <-]. apply IH in E1. 
    assert (nth_error l0 i = Some j0) as ->; auto.
    clear - E2. revert i l0 E2. induction l as [|x l IH]; intros [|i] l0; cbn; try discriminate.
    + intros [= <-]. reflexivity.
    + destruct (arr_set i j0 l) eqn:E; [|discriminate]. intros [= <-]. cbn. eauto.
  - destruct j as [| | | | | |l|l]; try discriminate. destruct (obj_get k l) eqn:E; [|discriminate].
    destruct (jput q v j) eqn:E1; [|discriminate]. destruct (obj_set k j0 l) eqn:E2; [|discriminate].
    intros [= <-]. apply IH in E1.
    assert (obj_get k l0 = Some j0) as ->; auto.
    clear - E2. revert l0 E2. induction l as [|[k' x] l IH]; intros l0; cbn; try discriminate.
    destruct (bytes_eqb k k') eqn:Ek.
    + intros [= <-]. cbn. now rewrite Ek.
    + destruct (obj_set k j0 l) eqn:E; [|discriminate]. intros [= <-]. cbn. rewrite Ek. eauto.
Qed.
Lemma after_str_n p l n m s str p' : store p l (JStr str) = Some p' -> after_value p' l n s = after_value p' l m s.
Proof.
  destruct l; cbn.
  - intros [= <-]. reflexivity.
  - destruct (jput p0 _ _) eqn:E; [|discriminate]. intros [= <-]. unfold after_value, set_json. cbn.
    now rewrite (jput_get _ _ _ _ E).
Qed.

Lemma step_raw p s n s' : next_token s = (TRaw n, s') -> step p s = if n <? 0 then RUndef else raw_body p n s'.
Proof. intros H. unfold step. rewrite H. reflexivity. Qed.

(* Results of one step. *)
Lemma step_cases p s : s <> [] ->
  (exists p' s', step p s = RCont p' s' /\ sp_state p' = sp_state p /\ (length s' < length s)%nat
     /\ forall u, step p (s ++ u) = RCont p' (s' ++ u))
  \/ (exists p' s', step p s = RRet p' s' /\ is_done (sp_state p') /\ (length s' <= length s)%nat
     /\ forall u, step p (s ++ u) = RRet p' (s' ++ u))
  \/ (step p s = RUndef /\ forall u, step p (s ++ u) = RUndef)
  \/ (step p s = RRet (set_state p (StPartial s)) [] /\ next_token s = (TShort, s))
  \/ (exists n s', next_token s = (TRaw n, s') /\ 0 <= n /\ len s' < n
        /\ (forall u, next_token (s ++ u) = (TRaw n, s' ++ u)) /\ step p s = raw_body p n s').
Proof.
  intros Hs. destruct (next_token s) as [t s'] eqn:Et.
  destruct (next_token_cases _ _ _ Et) as [[-> ->]|[[-> [-> _]]|[Ht [Hl Hu]]]].
  - right; right; right; left. split; auto. unfold step. now rewrite Et.
  - right; left. exists (set_state p StError), s. unfold step. rewrite Et. repeat split; auto.
    + now right.
    + intros u. destruct s as [|b r]; [easy|]. cbn [app next_token] in *.
      repeat match type of Et with context [if ?c then (TVal _, _) else _] => destruct c; [discriminate|] end.
      destruct (is_fixmap b); [discriminate|]. destruct (is_fixarray b); [discriminate|].
      destruct (is_fixstr b); [discriminate|]. cbv zeta in *.
      destruct (nth _ _ _ =? 0); auto. destruct (_ <? _) eqn:E1; [discriminate|].
      exfalso. apply (f_equal snd) in Et. cbn [snd] in Et. apply (f_equal (@length Z)) in Et.
      rewrite skipn_length' in Et. cbn [length] in Et. lia.
  - assert (AV : forall p0 l n, sp_state p0 = sp_state p ->
       (exists p' s'', after_value p0 l n s' = RCont p' s'' /\ sp_state p' = sp_state p /\ (length s'' < length s)%nat
           /\ forall u, after_value p0 l n (s' ++ u) = RCont p' (s'' ++ u))
       \/ (exists p' s'', after_value p0 l n s' = RRet p' s'' /\ is_done (sp_state p') /\ (length s'' <= length s)%nat
           /\ forall u, after_value p0 l n (s' ++ u) = RRet p' (s'' ++ u))
       \/ (after_value p0 l n s' = RUndef /\ forall u, after_value p0 l n (s' ++ u) = RUndef)).
    { intros p0 l n Hp. pose proof (after_value_state p0 l n s') as A.
      destruct (after_value p0 l n s') as [q r|q r|] eqn:E.
      - left. exists q, r. destruct A as [A ->]. repeat split; [congruence|lia|].
        intros u. now rewrite after_value_app, E.
      - right; left. exists q, r. destruct A as [A ->]. repeat split; [auto|lia|].
        intros u. now rewrite after_value_app, E.
      - right; right. split; auto. intros u. now rewrite after_value_app, E. }
    destruct t as [v|n|n|n| |]; try congruence.
    + unfold step. rewrite Et. setoid_rewrite Hu. destruct (store p _ v) eqn:Es.
      * destruct (AV s0 (cur_loc (sp_stack p)) 0) as [H|[H|H]]; [now apply store_state in Es|auto..].
      * right; right; left; auto.
    + unfold step. rewrite Et. setoid_rewrite Hu. destruct (store p _ (JObj [])) eqn:Es.
      * destruct (AV s0 (cur_loc (sp_stack p)) n) as [H|[H|H]]; [now apply store_state in Es|auto..].
      * right; right; left; auto.
    + unfold step. rewrite Et. setoid_rewrite Hu. destruct (n <? 0); [right; right; left; auto|].
      destruct (load p _); [|right; right; left; auto]. cbv zeta.
      destruct (store p _ _) eqn:Es.
      * destruct (AV s0 (cur_loc (sp_stack p)) n) as [H|[H|H]]; [now apply store_state in Es|auto..].
      * right; right; left; auto.
    + destruct (n <? 0) eqn:En.
      { right; right; left. split; [|intros u]; erewrite step_raw by eauto; now rewrite En. }
      destruct (len s' <? n) eqn:El.
      { right; right; right; right. exists n, s'. repeat split; auto; [lia..|].
        erewrite step_raw by eauto. now rewrite En. }
      assert (Hfs : forall u, firstn (Z.to_nat n) (s' ++ u) = firstn (Z.to_nat n) s' /\ skipn (Z.to_nat n) (s' ++ u) = skipn (Z.to_nat n) s' ++ u).
      { intros u. unfold len in El. rewrite firstn_app, skipn_app. replace (Z.to_nat n - length s')%nat with O by lia.
        cbn. now rewrite app_nil_r. }
      assert (Hr : forall u, step p (s ++ u) = match store p (cur_loc (sp_stack p)) (JStr (firstn (Z.to_nat n) s')) with
         | Some p' => pres_app (after_value p' (cur_loc (sp_stack p)) n (skipn (Z.to_nat n) s')) u
         | None => RUndef end).
      { intros u. erewrite step_raw by eauto. rewrite En. unfold raw_body.
        replace (len (s' ++ u) <? n) with false by (rewrite len_app; pose proof (len_nonneg u); lia).
        destruct (Hfs u) as [-> ->]. destruct (store _ _ _); auto using after_value_app. }
      assert (Hr0 : step p s = match store p (cur_loc (sp_stack p)) (JStr (firstn (Z.to_nat n) s')) with
         | Some p' => after_value p' (cur_loc (sp_stack p)) n (skipn (Z.to_nat n) s')
         | None => RUndef end).
      { erewrite step_raw by eauto. rewrite En. unfold raw_body. now rewrite El. }
      rewrite Hr0. setoid_rewrite Hr. destruct (store _ _ _) as [p0|] eqn:Es; [|right; right; left; auto].
      pose proof (after_value_state p0 (cur_loc (sp_stack p)) n (skipn (Z.to_nat n) s')) as A.
      apply store_state in Es.
      assert (length (skipn (Z.to_nat n) s') <= length s')%nat by (rewrite skipn_length'; lia).
      destruct (after_value p0 _ n _) as [q r|q r|] eqn:E.
      * left. exists q, r. destruct A as [A ->]. repeat split; [destruct Es; congruence|lia].
      * right; left. exists q, r. destruct A as [A ->]. repeat split; [auto|lia].
      * right; right; left. split; auto.
    + right; left. exists (set_state p StError), s'. unfold step. rewrite Et. setoid_rewrite Hu.
      repeat split; auto; [now right|lia].
Qed.

(* ------------------------------------------------------------------ well-formed parser states *)
Definition sp_ok (p : sparser) : Prop :=
  match sp_state p with
  | StPartial str => str <> [] /\ next_token str = (TShort, str)
  | StString str => exists n below, sp_stack p = MkSelem PNull n :: below /\ len str < n
  | _ => True
  end.

Lemma raw_body_ok p n s : sp_state p = StNormal ->
  match raw_body p n s with
  | RCont p' s' => sp_state p' = StNormal /\ (length s' <= length s)%nat
  | RRet p' s' => sp_ok p' /\ sp_state p' <> StNormal /\ (length s' <= length s)%nat
  | RUndef => True end.
Proof.
  intros Hp. unfold raw_body. destruct (len s <? n) eqn:E.
  - unfold sp_ok; cbn. repeat split; [|discriminate|lia]. do 2 eexists. split; eauto. lia.
  - destruct (store _ _ _) eqn:Es; [|auto]. apply store_state in Es.
    pose proof (after_value_state s0 (cur_loc (sp_stack p)) n (skipn (Z.to_nat n) s)) as A.
    destruct (after_value s0 _ n _); auto.
    + destruct A as [A ->]. rewrite skipn_length'. split; [destruct Es; congruence|lia].
    + destruct A as [A ->]. rewrite skipn_length'. unfold sp_ok.
      destruct A as [A|A]; rewrite A; repeat split; auto; try discriminate; lia.
Qed.

Lemma step_ok p s : s <> [] -> sp_state p = StNormal ->
  match step p s with
  | RCont p' s' => sp_state p' = StNormal /\ (length s' < length s)%nat
  | RRet p' s' => sp_ok p' /\ sp_state p' <> StNormal /\ (length s' < length s \/ sp_done p' = true)%nat /\ (length s' <= length s)%nat
  | RUndef => True end.
Proof.
  intros Hs Hp. destruct (step_cases p s Hs) as [(p' & s' & -> & A & B & _)|[(p' & s' & -> & A & B & _)|[[-> _]|[[-> A]|(n & s' & Ht & Hn & Hl & Hu & ->)]]]]; auto.
  - split; congruence.
  - unfold sp_ok, sp_done. destruct A as [A|A]; rewrite A; repeat split; auto; discriminate.
  - unfold sp_ok; cbn. repeat split; auto; try discriminate.
    all: destruct s; [easy|cbn; lia].
  - destruct (next_token_cases _ _ _ Ht) as [[? _]|[[? _]|[_ [Hlt _]]]]; try discriminate.
    pose proof (raw_body_ok p n s' Hp) as R. destruct (raw_body p n s'); auto.
    + split; [tauto|lia].
    + repeat split; try tauto; lia.
Qed.

(* ------------------------------------------------------------------ fuel *)
Lemma run_fuel f p s : sp_state p = StNormal -> (length s <= f)%nat -> run f p s = run_all p s.
Proof.
  intros Hp Hf. unfold run_all.
  remember (length s) as m eqn:Em.
  assert (Hm : (length s <= m)%nat) by lia. clear Em. revert f p s Hp Hf Hm.
  induction m as [|m IH]; intros f p s Hp Hf Hm.
  - destruct s; [|cbn in Hm; lia]. now destruct f.
  - destruct s as [|b r]; [now destruct f|]. destruct f; [lia|]. cbn [run].
    pose proof (step_ok p (b :: r) ltac:(discriminate) Hp) as S1.
    destruct (step p (b :: r)); auto. destruct S1 as [A B]. cbn [length] in *.
    rewrite IH by (auto; lia). apply eq_sym. apply IH; auto; lia.
Qed.

Lemma set_state_normal p : sp_state p = StNormal -> set_state p StNormal = p.
Proof. destruct p; cbn. intros ->. reflexivity. Qed.
Lemma set_state_set p a b : set_state (set_state p a) b = set_state p b.
Proof. reflexivity. Qed.

Lemma run_all_cons p s : s <> [] -> sp_state p = StNormal ->
  run_all p s = match step p s with RCont p' s' => run_all p' s' | r => r end.
Proof.
  intros Hs Hp. destruct s as [|b r]; [easy|]. unfold run_all at 1. cbn [length run].
  pose proof (step_ok p (b :: r) Hs Hp) as S1. destruct (step p (b :: r)); auto.
  apply run_fuel; [tauto|]. cbn in S1. lia.
Qed.
Lemma run_all_nil p : sp_state p = StNormal -> run_all p [] = RRet p [].
Proof. intros. cbn. now rewrite set_state_normal. Qed.

Lemma run_all_ok p s : sp_state p = StNormal ->
  match run_all p s with
  | RCont _ _ => False
  | RRet p' s' => sp_ok p' /\ (length s' <= length s)%nat /\ (s <> [] -> (length s' < length s)%nat \/ sp_done p' = true)
                  /\ (sp_done p' = true \/ s' = [])
  | RUndef => True end.
Proof.
  remember (length s) as m eqn:Em. revert p s Em.
  induction m as [m IH] using (well_founded_induction lt_wf). intros p s Em Hp.
  destruct s as [|b r].
  { rewrite run_all_nil by auto. unfold sp_ok. rewrite Hp. split; [auto|]. split; [lia|]. split; [easy|auto]. }
  rewrite run_all_cons by (auto; discriminate).
  pose proof (step_ok p (b :: r) ltac:(discriminate) Hp) as S1.
  destruct (step p (b :: r)) as [p' s'|p' s'|] eqn:Es; auto.
  - destruct S1 as [A B]. specialize (IH (length s') ltac:(lia) p' s' eq_refl A).
    destruct (run_all p' s'); auto. destruct IH as (I1 & I2 & I3 & I4).
    split; [auto|]. split; [lia|]. split; [|auto]. intros _. left. lia.
  - destruct S1 as (A & B & C & D). split; [auto|]. split; [lia|]. split; [intros _; rewrite Em; auto|].
    destruct (step_cases p (b :: r) ltac:(discriminate)) as [(q & s1 & E1 & _)|[(q & s1 & E1 & [E2|E2] & _)|[[E1 _]|[[E1 _]|(n & s1 & Ht & Hn & Hl & Hu & E1)]]]];
      rewrite Es in E1; try discriminate.
    + injection E1 as -> ->. left. unfold sp_done. now rewrite E2.
    + injection E1 as -> ->. left. unfold sp_done. now rewrite E2.
    + injection E1 as -> ->. now right.
    + unfold raw_body in E1. replace (len s1 <? n) with true in E1 by lia. injection E1 as -> ->. now right.
Qed.
