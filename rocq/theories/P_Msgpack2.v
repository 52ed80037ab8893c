(* Independence of the streaming decoder from the division of its input. *)
From Verif Require Import Lib M_Key M_Msgpack P_Msgpack1.


Lemma skipn_lt (k : Z) (s : list Z) : 0 < k -> s <> [] -> (length (skipn (Z.to_nat k) s) < length s)%nat.
Proof. intros Hk Hs. rewrite skipn_length. destruct s; [easy|]. cbn [length]. lia. Qed.

(* consume makes progress and keeps states well-formed. *)
Lemma consume_ok p s : sp_ok p -> sp_done p = false -> s <> [] ->
  match consume p s with
  | RCont _ _ => False
  | RRet p' s' => sp_ok p' /\ (length s' <= length s)%nat /\ ((length s' < length s)%nat \/ sp_done p' = true)
  | RUndef => True end.
Proof.
  intros Hok Hd Hs. unfold consume. unfold sp_ok in Hok. destruct (sp_state p) as [| | |str|str] eqn:Ep;
    try (unfold sp_done in Hd; rewrite Ep in Hd; discriminate).
  - pose proof (run_all_ok p s Ep) as R. destruct (run_all p s); auto. destruct R as (A & B & C & _). auto.
  - destruct Hok as [Hstr Hsh]. destruct str as [|b r]; [easy|]. cbv zeta. cbn [nth].
    destruct (next_token_extend b r s Hsh) as [Hk [Hlt Hge]]. cbv zeta in *.
    set (k := nth (Z.to_nat (b - 192)) nbytes 0 - len (b :: r)) in *.
    destruct (len s <? k) eqn:El.
    + repeat split.
      * discriminate.
      * apply Hlt. lia.
      * cbn; lia.
      * left. destruct s; [easy|cbn; lia].
    + assert (Hsk : (length (skipn (Z.to_nat k) s) < length s)%nat) by (apply skipn_lt; auto; lia).
      pose proof (run_all_ok (set_state p StNormal) ((b :: r) ++ firstn (Z.to_nat k) s) eq_refl) as R.
      destruct (run_all (set_state p StNormal) _) as [| p' s'|]; auto. destruct R as (A & B & C & D).
      destruct (sp_state p') eqn:Ep'.
      3:{ pose proof (run_all_ok p' (skipn (Z.to_nat k) s) Ep') as R2. destruct (run_all p' _); auto.
          destruct R2 as (A2 & B2 & C2 & D2). repeat split; auto; lia. }
      all: repeat split; auto; lia.
  - destruct Hok as (n & below & Hst & Hl). rewrite Hst. cbv zeta. cbn [se_size].
    destruct (len s <? n - len str) eqn:El.
    + unfold sp_ok; cbn. repeat split; try lia.
      * exists n, below. split; auto. rewrite len_app. lia.
      * left. destruct s; [easy|cbn; lia].
    + destruct (store _ _ _) eqn:Es; auto. apply store_state in Es. cbn in Es.
      assert (Hsk : (length (skipn (Z.to_nat (n - len str)) s) < length s)%nat) by (apply skipn_lt; auto; lia).
      pose proof (after_value_state s0 (cur_loc below) 0 (skipn (Z.to_nat (n - len str)) s)) as A.
      destruct (after_value s0 _ 0 _) as [p' s'|p' s'|]; auto.
      * destruct A as [A ->]. pose proof (run_all_ok p' (skipn (Z.to_nat (n - len str)) s) ltac:(destruct Es; congruence)) as R.
        destruct (run_all p' _); auto. destruct R as (A2 & B2 & C2 & D2). repeat split; auto; lia.
      * destruct A as [A ->]. unfold sp_ok, sp_done. destruct A as [A|A]; rewrite A; repeat split; auto; lia.
Qed.

Lemma feed_done f p s : sp_done p = true -> feed f p s = RRet p s.
Proof. intros H. destruct f; cbn; now rewrite H. Qed.
Lemma feed_nil f p : feed f p [] = RRet p [].
Proof. destruct f; cbn; now destruct (sp_done p). Qed.

Lemma feed_fuel f p s : sp_ok p -> (length s <= f)%nat -> feed f p s = feed_all p s.
Proof.
  unfold feed_all. remember (length s) as m eqn:Em.
  intros Hok Hf. assert (Hm : (length s <= m)%nat) by lia. clear Em. revert f p s Hok Hf Hm.
  induction m as [|m IH]; intros f p s Hok Hf Hm.
  - destruct s; [|cbn in Hm; lia]. now rewrite !feed_nil.
  - destruct s as [|b r]; [now rewrite !feed_nil|]. destruct f; [lia|]. cbn [feed].
    destruct (sp_done p) eqn:Hd; auto.
    pose proof (consume_ok p (b :: r) Hok Hd ltac:(discriminate)) as C.
    destruct (consume p (b :: r)) as [|p' s'|]; auto. destruct C as (A & B & [C|C]).
    + cbn [length] in *. rewrite IH by (auto; lia). apply eq_sym. apply IH; auto; lia.
    + now rewrite !feed_done.
Qed.

Lemma feed_all_done p s : sp_done p = true -> feed_all p s = RRet p s.
Proof. apply feed_done. Qed.
Lemma feed_all_nil p : feed_all p [] = RRet p [].
Proof. apply feed_nil. Qed.

Lemma feed_all_consume p s : sp_ok p -> sp_done p = false -> s <> [] ->
  feed_all p s = match consume p s with RRet p' s' => feed_all p' s' | r => r end.
Proof.
  intros Hok Hd Hs. pose proof (consume_ok p s Hok Hd Hs) as C.
  destruct s as [|b r]; [easy|]. unfold feed_all at 1. cbn [length feed]. rewrite Hd.
  destruct (consume p (b :: r)) as [|p' s'|]; auto. destruct C as (A & B & [C|C]).
  - apply feed_fuel; auto. cbn in C. lia.
  - now rewrite feed_done, feed_all_done.
Qed.

Lemma normal_not_done p : sp_state p = StNormal -> sp_done p = false.
Proof. unfold sp_done. now intros ->. Qed.
Lemma normal_ok p : sp_state p = StNormal -> sp_ok p.
Proof. unfold sp_ok. now intros ->. Qed.

Lemma feed_run p s : sp_state p = StNormal ->
  feed_all p s = match run_all p s with RRet p' s' => feed_all p' s' | r => r end.
Proof.
  intros Hp. destruct s as [|b r].
  - rewrite run_all_nil by auto. now rewrite feed_all_nil.
  - rewrite feed_all_consume by (auto using normal_ok, normal_not_done; discriminate).
    unfold consume. now rewrite Hp.
Qed.

(* In the normal state the decoder is a sequence of steps. *)
Lemma feed_step p s : sp_state p = StNormal -> s <> [] ->
  feed_all p s = match step p s with RCont p' s' | RRet p' s' => feed_all p' s' | RUndef => RUndef end.
Proof.
  intros Hp Hs. rewrite feed_run, run_all_cons by auto.
  pose proof (step_ok p s Hs Hp) as S1. destruct (step p s) as [p' s'|p' s'|]; auto.
  symmetry. apply feed_run. tauto.
Qed.

Definition resume (r : pres) : pres :=
  match r with RCont p' s' | RRet p' s' => feed_all p' s' | RUndef => RUndef end.

(* Resuming inside a string. *)
Lemma resume_string p n s u : sp_state p = StNormal -> len s < n ->
  feed_all (MkSp (StString s) (MkSelem PNull n :: sp_stack p) (sp_json p) (sp_jokey p)) u
  = resume (raw_body p n (s ++ u)).
Proof.
  intros Hp Hl. set (q := MkSp _ _ _ _).
  destruct u as [|b r].
  { rewrite feed_all_nil, app_nil_r. unfold raw_body. replace (len s <? n) with true by lia.
    cbn [resume]. now rewrite feed_all_nil. }
  assert (Hq : sp_ok q) by (unfold sp_ok, q; cbn; eauto).
  rewrite feed_all_consume by (auto; discriminate). unfold consume. cbn [q sp_state sp_stack se_size].
  unfold raw_body. rewrite len_app. set (u := b :: r) in *.
  destruct (len u <? n - len s) eqn:El.
  - replace (len s + len u <? n) with true by lia. reflexivity.
  - replace (len s + len u <? n) with false by lia.
    assert (Hz : s ++ firstn (Z.to_nat (n - len s)) u = firstn (Z.to_nat n) (s ++ u) /\ skipn (Z.to_nat (n - len s)) u = skipn (Z.to_nat n) (s ++ u)).
    { rewrite firstn_app, skipn_app. unfold len in *.
      replace (Z.to_nat n - length s)%nat with (Z.to_nat (n - Z.of_nat (length s))) by lia.
      rewrite (firstn_all2 s), (skipn_all2 s) by lia. auto. }
    destruct Hz as [-> ->].
    replace (set_state (set_stack q (sp_stack p)) StNormal) with p by (destruct p; cbn in *; subst; reflexivity).
    destruct (store p _ _) as [p1|] eqn:Es; auto.
    rewrite (after_str_n p _ n 0 _ _ _ Es). apply store_state in Es.
    pose proof (after_value_state p1 (cur_loc (sp_stack p)) 0 (skipn (Z.to_nat n) (s ++ u))) as A.
    destruct (after_value p1 _ 0 _) as [p' s'|p' s'|]; cbn [resume]; auto.
    destruct A as [A ->]. assert (Hn : sp_state p' = StNormal) by (destruct Es; congruence).
    symmetry. exact (feed_run p' _ Hn).
Qed.

Lemma raw_body_app p n s u : sp_state p = StNormal -> resume (raw_body p n (s ++ u)) =
  match raw_body p n s with
  | RCont p' s' => resume (RCont p' (s' ++ u))
  | RRet p' s' => if sp_done p' then RRet p' (s' ++ u) else feed_all p' u
  | RUndef => RUndef end.
Proof.
  intros Hp. destruct (len s <? n) eqn:E.
  - unfold raw_body at 2. rewrite E. cbn [sp_done sp_state]. symmetry. apply resume_string; auto. lia.
  - unfold raw_body. rewrite E. rewrite len_app. pose proof (len_nonneg u).
    replace (len s + len u <? n) with false by lia.
    assert (Hz : firstn (Z.to_nat n) (s ++ u) = firstn (Z.to_nat n) s /\ skipn (Z.to_nat n) (s ++ u) = skipn (Z.to_nat n) s ++ u).
    { rewrite firstn_app, skipn_app. unfold len in *.
      replace (Z.to_nat n - length s)%nat with O by lia. cbn. now rewrite app_nil_r. }
    destruct Hz as [-> ->]. destruct (store _ _ _); auto. rewrite after_value_app.
    pose proof (after_value_state s0 (cur_loc (sp_stack p)) n (skipn (Z.to_nat n) s)) as A.
    destruct (after_value _ _ _ _); cbn [pres_app resume]; auto.
    destruct A as [A ->]. assert (sp_done p0 = true) as -> by (unfold sp_done; destruct A as [->| ->]; auto).
    apply feed_all_done. unfold sp_done. destruct A as [->| ->]; auto.
Qed.

(* Resuming inside a header. *)
Lemma resume_partial p s u : sp_state p = StNormal -> s <> [] -> next_token s = (TShort, s) ->
  feed_all (set_state p (StPartial s)) u = feed_all p (s ++ u).
Proof.
  intros Hp Hs Hsh.
  assert (Hstep : step p s = RRet (set_state p (StPartial s)) []) by (unfold step; now rewrite Hsh).
  assert (Hfs : feed_all p s = RRet (set_state p (StPartial s)) []).
  { rewrite feed_step, Hstep by auto. apply feed_all_nil. }
  destruct u as [|c u']; [rewrite app_nil_r, feed_all_nil; auto|]. set (u := c :: u').
  assert (Hq : sp_ok (set_state p (StPartial s))) by (unfold sp_ok; cbn; auto).
  rewrite feed_all_consume by (auto; discriminate). unfold consume. cbn [set_state sp_state sp_stack].
  destruct s as [|b r]; [easy|]. cbn [nth].
  destruct (next_token_extend b r u Hsh) as [Hk [Hlt Hge]]. cbv zeta in *.
  set (k := nth (Z.to_nat (b - 192)) nbytes 0 - len (b :: r)) in *. fold k.
  destruct (len u <? k) eqn:El.
  - rewrite (feed_step p) by (auto; discriminate). unfold step. rewrite Hlt by lia. reflexivity.
  - destruct Hge as (t & Ht1 & Ht2 & Ht); [lia|].
    set (h := (b :: r) ++ firstn (Z.to_nat k) u) in *. set (v := skipn (Z.to_nat k) u).
    assert (Huv : (b :: r) ++ u = h ++ v) by (unfold h, v; now rewrite <- app_assoc, firstn_skipn).
    rewrite Huv. assert (Hh : h <> []) by (unfold h; discriminate).
    assert (Hhv : h ++ v <> []) by (unfold h; discriminate).
    rewrite set_state_set, (set_state_normal p Hp).
    rewrite run_all_cons by auto. rewrite (feed_step p (h ++ v)) by auto.
    pose proof (step_ok p h Hh Hp) as S1.
    destruct (step_cases p h Hh) as [(p' & s' & E & A & B & C)|[(p' & s' & E & A & B & C)|[[E C]|[[E A]|(n & s' & Ht' & Hn & Hl & Hu & E)]]]].
    + rewrite C. rewrite E in S1 |- *.
      assert (s' = []) as ->.
      { unfold step in E. rewrite Ht in E. destruct t; try congruence.
        all: repeat match type of E with
             | (match ?x with Some _ => _ | None => _ end) = _ => destruct x eqn:?; try discriminate
             | (if ?x then _ else _) = _ => destruct x eqn:?; try discriminate
             | context [let _ := _ in _] => cbv zeta in E
             end.
        all: match type of E with after_value ?p ?l ?n ?s = _ => pose proof (after_value_state p l n s) as Q; rewrite E in Q; destruct Q as [_ Q]; try exact Q end.
        rewrite Q. apply skipn_nil. }
      destruct S1 as [S1 _]. rewrite run_all_nil by auto. rewrite S1. cbn [app].
      symmetry. apply feed_run. auto.
    + rewrite C. rewrite E in S1 |- *.
      assert (s' = []) as ->.
      { unfold step in E. rewrite Ht in E. destruct t; try congruence.
        all: repeat match type of E with
             | (match ?x with Some _ => _ | None => _ end) = _ => destruct x eqn:?; try discriminate
             | (if ?x then _ else _) = _ => destruct x eqn:?; try discriminate
             | context [let _ := _ in _] => cbv zeta in E
             end.
        all: try match type of E with after_value ?p ?l ?n ?s = _ => pose proof (after_value_state p l n s) as Q; rewrite E in Q; destruct Q as [_ Q]; try exact Q end.
        - now injection E.
        - rewrite Q. apply skipn_nil. }
      cbn [app]. destruct A as [A|A]; rewrite A; reflexivity.
    + rewrite C, E. reflexivity.
    + rewrite Ht in A. congruence.
    + rewrite Ht in Ht'. injection Ht' as -> <-.
      erewrite (step_raw p (h ++ v)) by eauto. replace (n <? 0) with false by lia. rewrite E.
      change (feed_all ?a ?b) with (resume (RRet a b)). 
      unfold raw_body at 1. replace (len [] <? n) with true by lia. cbn [sp_state resume].
      rewrite resume_string by auto. unfold resume. cbn [app]. reflexivity.
Qed.

(* Splitting the input of the normal state. *)
Definition then_feed (r : pres) (u : list Z) : pres :=
  match r with
  | RRet p' s' => if sp_done p' then RRet p' (s' ++ u) else feed_all p' (s' ++ u)
  | r => r end.

Lemma feed_all_rest p s : sp_ok p -> match feed_all p s with
  | RCont _ _ => False | RRet p' s' => sp_ok p' /\ (sp_done p' = true \/ s' = []) | RUndef => True end.
Proof.
  remember (length s) as m eqn:Em. revert p s Em.
  induction m as [m IH] using (well_founded_induction lt_wf). intros p s Em Hok.
  destruct (sp_done p) eqn:Hd; [rewrite feed_all_done by auto; auto|].
  destruct s as [|b r]; [rewrite feed_all_nil; auto|].
  rewrite feed_all_consume by (auto; discriminate).
  pose proof (consume_ok p (b :: r) Hok Hd ltac:(discriminate)) as C.
  destruct (consume p (b :: r)) as [|p' s'|]; auto. destruct C as (A & B & [C|C]).
  - apply (IH (length s')); auto; lia.
  - rewrite feed_all_done; auto.
Qed.

Lemma feed_app_normal p a b : sp_state p = StNormal -> feed_all p (a ++ b) = then_feed (feed_all p a) b.
Proof.
  remember (length a) as m eqn:Em. revert p a Em.
  induction m as [m IH] using (well_founded_induction lt_wf). intros p a Em Hp.
  destruct a as [|c a']; [rewrite feed_all_nil; cbn [then_feed]; now rewrite normal_not_done|].
  set (a := c :: a') in *. assert (Ha : a <> []) by discriminate. assert (Hab : a ++ b <> []) by discriminate.
  rewrite !feed_step by auto. pose proof (step_ok p a Ha Hp) as S1.
  destruct (step_cases p a Ha) as [(p' & s' & E & A & B & C)|[(p' & s' & E & A & B & C)|[[E C]|[[E A]|(n & s' & Ht & Hn & Hl & Hu & E)]]]].
  - rewrite C, E. rewrite E in S1. apply (IH (length s')); auto; [lia|tauto].
  - rewrite C, E. assert (Hd : sp_done p' = true) by (unfold sp_done; destruct A as [->| ->]; auto).
    rewrite !feed_all_done by auto. cbn [then_feed]. now rewrite Hd.
  - now rewrite C, E.
  - rewrite E. rewrite feed_all_nil. cbn [then_feed sp_done set_state sp_state app].
    rewrite <- (feed_step p (a ++ b)) by auto. symmetry. apply resume_partial; auto.
  - erewrite (step_raw p (a ++ b)) by eauto. replace (n <? 0) with false by lia. rewrite E.
    change (resume (raw_body p n (s' ++ b)) = then_feed (resume (raw_body p n s')) b).
    rewrite raw_body_app by auto.
    unfold raw_body. replace (len s' <? n) with true by lia. cbn [resume sp_done sp_state].
    rewrite feed_all_nil. reflexivity.
Qed.

(* Every well-formed state is what the decoder reaches from a normal state on some input. *)
Lemma ok_from_normal p : sp_ok p -> sp_done p = false ->
  exists p0 s0 f, sp_state p0 = StNormal /\ (forall u, feed_all p u = f (s0 ++ u)) /\
    (forall u v, f (u ++ v) = then_feed (f u) v \/ (length u < length s0)%nat).
Proof.
  intros Hok Hd. unfold sp_ok in Hok. destruct (sp_state p) as [| | |str|str] eqn:Ep;
    try (unfold sp_done in Hd; rewrite Ep in Hd; discriminate).
  - exists p, [], (feed_all p). repeat split; auto. intros. left. now apply feed_app_normal.
  - destruct Hok as [Hs Hsh]. exists (set_state p StNormal), str, (feed_all (set_state p StNormal)).
    repeat split; auto.
    + intros u. rewrite <- resume_partial by auto. rewrite set_state_set. f_equal. destruct p; cbn in *; subst; reflexivity.
    + intros. left. now apply feed_app_normal.
  - destruct Hok as (n & below & Hst & Hl).
    set (p0 := MkSp StNormal below (sp_json p) (sp_jokey p)).
    exists p0, str, (fun s => resume (raw_body p0 n s)). repeat split; auto.
    + intros u. rewrite <- resume_string by auto. f_equal. destruct p; cbn in *; subst; reflexivity.
    + intros u v. left. rewrite raw_body_app by auto.
      pose proof (raw_body_ok p0 n u eq_refl) as R.
      destruct (raw_body p0 n u) as [p' s'|p' s'|] eqn:E; cbn [resume]; auto.
      * apply feed_app_normal. tauto.
      * destruct (sp_done p') eqn:Hd'.
        { rewrite feed_all_done by auto. cbn. now rewrite Hd'. }
        assert (s' = []) as ->.
        { unfold raw_body in E. destruct (len u <? n); [now injection E|].
          destruct (store _ _ _); [|discriminate].
          pose proof (after_value_state s (cur_loc (sp_stack p0)) n (skipn (Z.to_nat n) u)) as Q. rewrite E in Q.
          destruct Q as [Q _]. unfold sp_done in Hd'. destruct Q as [Q|Q]; rewrite Q in Hd'; discriminate. }
        rewrite feed_all_nil. cbn [then_feed app]. now rewrite Hd'.
Qed.

Lemma feed_app p a b : sp_ok p -> feed_all p (a ++ b) = then_feed (feed_all p a) b.
Proof.
  intros Hok. destruct (sp_done p) eqn:Hd.
  { rewrite !feed_all_done by auto. cbn. now rewrite Hd. }
  destruct (ok_from_normal p Hok Hd) as (p0 & s0 & f & Hp0 & F1 & F2).
  rewrite !F1. rewrite app_assoc. destruct (F2 (s0 ++ a) b) as [H|H]; auto.
  rewrite app_length in H. lia.
Qed.

(* Any division into pieces gives what the whole gives. *)
Lemma feed_pieces_all p pieces : sp_ok p -> sp_done p = false -> feed_pieces p pieces = feed_all p (concat pieces).
Proof.
  revert p. induction pieces as [|s pieces IH]; intros p Hok Hd; cbn [feed_pieces concat].
  - now rewrite feed_all_nil.
  - rewrite feed_app by auto. pose proof (feed_all_rest p s Hok) as R.
    destruct (feed_all p s) as [|p' s'|]; try easy. destruct R as [Hok' R]. cbn [then_feed].
    destruct (sp_done p') eqn:Hd'; auto. destruct R as [R| ->]; [discriminate|]. apply IH; auto.
Qed.

Lemma read_windows_all f p s : sp_ok p -> (length s <= f)%nat -> read_windows f p s = feed_all p s.
Proof.
  revert p s. induction f as [|f IH]; intros p s Hok Hf.
  - destruct s; [|cbn in Hf; lia]. rewrite feed_all_nil. cbn. now destruct (sp_done p).
  - cbn [read_windows]. destruct (sp_done p) eqn:Hd; [now rewrite feed_all_done|].
    destruct s as [|b r]; [now rewrite feed_all_nil|]. set (s := b :: r) in *.
    assert (Hw : firstn window s <> []) by (unfold window; discriminate).
    pose proof (consume_ok p (firstn window s) Hok Hd Hw) as C.
    pose proof (feed_app p (firstn window s) (skipn window s) Hok) as A. rewrite firstn_skipn in A.
    rewrite (feed_all_consume p (firstn window s)) in A by auto. rewrite A.
    destruct (consume p (firstn window s)) as [|p' s'|]; auto.
    destruct C as (A1 & B1 & C1).
    assert (Hlen : (length (firstn window s) + length (skipn window s) = length s)%nat) by (rewrite <- app_length, firstn_skipn; auto).
    destruct (sp_done p') eqn:Hd'.
    { rewrite feed_all_done by auto. cbn [then_feed]. rewrite Hd'. destruct f; cbn; now rewrite Hd'. }
    destruct C1 as [C1|C1]; [|congruence].
    rewrite IH; [|auto|rewrite app_length; lia].
    apply feed_app; auto.
Qed.
