(* Gets see the value of one moment. *)
From Verif Require Import Lib M_Rowver Spec_Rowver P_Rowver1.

Lemma vset_same {A} (f : nat -> A) i v : vset f i v i = v. Proof. unfold vset. now rewrite Nat.eqb_refl. Qed.
Lemma vset_other {A} (f : nat -> A) i v j : j <> i -> vset f i v j = f j.
Proof. unfold vset. intros H. destruct (Nat.eqb_spec j i); congruence. Qed.

Lemma vrun_app : forall a b s, vrun s (a ++ b) = match vrun s a with Some s' => vrun s' b | None => None end.
Proof. induction a as [|e a IH]; intros b s; cbn [vrun app]; auto. destruct (vstep s e); auto. Qed.
Lemma begun_app a b : begun (a ++ b) = begun a ++ begun b. Proof. apply flat_map_app. Qed.

Definition starts (t : nat) (e : vev) : bool := match e with EGet u _ | EGet1 u _ => Nat.eqb u t | _ => false end.
Definition is_begin (e : vev) : Z := match e with EBegin _ => 1 | _ => 0 end.
Lemma since_snoc t e : forall es, since t (es ++ [e]) = if starts t e then 0 else since t es + is_begin e.
Proof.
  induction es as [|x es IH]; cbn [app since].
  - destruct e; cbn; auto; destruct (Nat.eqb t0 t); auto.
  - rewrite existsb_app. cbn [existsb]. change (match e with EGet u _ | EGet1 u _ => Nat.eqb u t | _ => false end) with (starts t e). rewrite orb_false_r.
    destruct (starts t e); [rewrite orb_true_r; exact IH|]. rewrite orb_false_r.
    destruct (existsb _ es); rewrite IH; lia.
Qed.
Lemma since_nonneg t : forall es, 0 <= since t es.
Proof. induction es as [|e es IH]; cbn [since]; [lia|]. destruct (existsb _ es); auto. destruct e; lia. Qed.
Lemma no_start_snoc t es e : starts t e = false -> no_start t es -> no_start t (es ++ [e]).
Proof.
  intros S N x Hx. apply in_app_iff in Hx. destruct Hx as [Hx|[<-|[]]]; [apply N; auto|].
  destruct e; cbn in S; auto; apply Nat.eqb_neq in S; auto.
Qed.
Lemma was_snoc cols0 es t f v e : starts t e = false -> was_value cols0 es t f v -> was_value cols0 (es ++ [e]) t f v.
Proof.
  intros S (a & b & c & s & E & N & R & V). exists a, b, (c ++ [e]), s. split; [|split; [|auto]].
  - rewrite E. rewrite <- !app_assoc. cbn [app]. rewrite <- !app_assoc. reflexivity.
  - rewrite app_assoc. apply no_start_snoc; auto.
Qed.

Definition pc_f (p : rpc) : option (list nat) :=
  match p with RStart f | RFirst f _ _ | RCopy f _ _ _ _ _ | RDone f _ | RBad f => Some f | _ => None end.
Definition rowpc (p : rpc) : option (list nat * nat * nat) :=
  match p with RFirst f r n | RCopy f r n _ _ _ => Some (f, r, n) | _ => None end.
Definition pend (s : vstate) : Z := match v_w s with None => 0 | Some _ => 1 end.
Definition calm (s : vstate) : Prop := match v_w s with Some (WStore _) => False | _ => True end.
Definition cols_of (s : vstate) (r : nat) : list Z := vr_cols (v_rows s r).
Definition ver_of (s : vstate) (r : nat) : Z := vr_ver (v_rows s r).

Section J.
Context (cols0 : list Z).
Notation was := (was_value cols0).

Definition val_inv (es : list vev) (s : vstate) : Prop :=
  match v_w s with
  | None => cols_of s (v_cur s) = value cols0 (begun es)
  | Some (WBegin o) => wop_ok o /\ exists os, begun es = os ++ [o] /\ cols_of s (v_cur s) = value cols0 os
  | Some (WStore ch) => exists os ch0 done, begun es = os ++ [WPut ch0] /\ ch0 = done ++ ch /\
      cols_of s (v_cur s) = puts (value cols0 os) done /\ (forall x, In x ch -> (fst x < length (cols_of s (v_cur s)))%nat)
  end.

Definition copy_inv (es : list vev) (s : vstate) (t : nat) (p : rpc) : Prop :=
  match p with
  | RCopy f r n v1 todo st =>
    rv_dirty v1 = false /\ 0 <= v1 < 2 ^ 32 /\ (exists v, was es t f v /\ length v = n) /\ (forall i, In i todo -> In i (copied f n)) /\
    exists k, 0 <= k /\ k + pend s <= since t es + 1 /\ rv_ctr (ver_of s r) = (rv_ctr v1 + k) mod 2 ^ 31 /\
      (k = 0 -> rv_dirty (ver_of s r) = false -> was es t f (cols_of s r) /\
         forall i, In i (copied f n) -> ~ In i todo -> st i = nth i (cols_of s r) 0)
  | RDone f res => since t es + 1 < 2 ^ 31 -> exists v, was es t f v /\ res = answer f v
  | RBad f => exists v i, was es t f v /\ f = [i] /\ (length v <= i)%nat
  | _ => True
  end.
Definition row_inv (es : list vev) (s : vstate) (t : nat) (p : rpc) : Prop :=
  match rowpc p with
  | Some (f, r, n) => (r < v_next s)%nat /\ n = length (cols_of s r) /\ (r = v_cur s \/ was es t f (cols_of s r))
  | None => True
  end.
Definition act_inv (es : list vev) (t : nat) (p : rpc) : Prop :=
  match pc_f p with Some f => exists a b, es = a ++ EGet t f :: b /\ no_start t b | None => True end.

Record J (es : list vev) (s : vstate) : Prop := {
  j_run : vrun (v_init cols0) es = Some s;
  j_val : val_inv es s;
  j_cur : (v_cur s < v_next s)%nat;
  j_ver : forall r, (r < v_next s)%nat -> 0 <= ver_of s r < 2 ^ 32 /\
            (rv_dirty (ver_of s r) = true <-> r = v_cur s /\ exists ch, v_w s = Some (WStore ch));
  j_act : forall t, act_inv es t (v_rd s t);
  j_row : forall t, row_inv es s t (v_rd s t);
  j_copy : forall t, copy_inv es s t (v_rd s t)
}.

Lemma calm_ended es s : val_inv es s -> calm s -> cols_of s (v_cur s) = value cols0 (ended es s).
Proof.
  unfold val_inv, calm, ended. destruct (v_w s) as [[o|ch]|]; [|tauto|auto].
  intros (_ & os & E & V) _. rewrite E, removelast_last. auto.
Qed.
(* The present value, for a get that is under way. *)
Lemma was_now es s t f : J es s -> pc_f (v_rd s t) = Some f -> calm s -> was es t f (cols_of s (v_cur s)).
Proof.
  intros I P C. pose proof (j_act _ _ I t) as A. unfold act_inv in A. rewrite P in A. destruct A as (a & b & E & N).
  exists a, b, [], s. rewrite app_nil_r. rewrite <- E. split; auto. split; auto. split; [apply (j_run _ _ I)|].
  apply calm_ended; auto. apply (j_val _ _ I).
Qed.
Lemma clean_calm es s : J es s -> rv_dirty (ver_of s (v_cur s)) = false -> calm s.
Proof.
  intros I D. unfold calm. destruct (v_w s) as [[o|ch]|] eqn:W; auto.
  destruct (j_ver _ _ I (v_cur s) (j_cur _ _ I)) as [_ E]. rewrite (proj2 E) in D; [discriminate|]. eauto.
Qed.
Lemma clean_was es s t f r n : J es s -> pc_f (v_rd s t) = Some f -> rowpc (v_rd s t) = Some (f, r, n) -> rv_dirty (ver_of s r) = false -> was es t f (cols_of s r).
Proof.
  intros I P R D. pose proof (j_row _ _ I t) as A. unfold row_inv in A. rewrite R in A. destruct A as (_ & _ & [->|A]); auto.
  apply was_now with (s := s); auto. eapply clean_calm; eauto.
Qed.

(* Readers other than the one that moves. *)
Lemma act_keep es t p e : starts t e = false -> act_inv es t p -> act_inv (es ++ [e]) t p.
Proof.
  unfold act_inv. destruct (pc_f p); auto. intros S (a & b & E & N). exists a, (b ++ [e]). split; [rewrite E, <- app_assoc; reflexivity|].
  apply no_start_snoc; auto.
Qed.
Lemma row_keep es s s' t p e : starts t e = false -> v_rows s' = v_rows s -> v_next s' = v_next s -> v_cur s' = v_cur s ->
  row_inv es s t p -> row_inv (es ++ [e]) s' t p.
Proof.
  intros S R N C. unfold row_inv, cols_of. rewrite R, N, C. destruct (rowpc p) as [[[f r] n]|]; auto.
  intros (A & B & D). repeat split; auto. destruct D; auto. right. apply was_snoc; auto.
Qed.
Lemma copy_keep es s s' t p e : starts t e = false -> v_rows s' = v_rows s -> pend s' <= pend s + is_begin e ->
  copy_inv es s t p -> copy_inv (es ++ [e]) s' t p.
Proof.
  intros S R P. unfold copy_inv, cols_of, ver_of. rewrite R, since_snoc, S. destruct p; auto.
  - intros (A & B & (v & D1 & D2) & E & k & F1 & F2 & F3 & F4). split; auto. split; auto. split; [exists v; split; auto; apply was_snoc; auto|]. split; auto.
    exists k. split; auto. split; [lia|]. split; auto. intros K D. destruct (F4 K D) as (G1 & G2). split; auto. apply was_snoc; auto.
  - intros H B. assert (0 <= is_begin e) by (destruct e; cbn; lia). destruct H as (v & V1 & V2); [lia|]. exists v. split; auto. apply was_snoc; auto.
  - intros (v & i & A & B). exists v, i. split; auto. apply was_snoc; auto.
Qed.

Lemma begun_snoc es e : begun (es ++ [e]) = begun es ++ match e with EBegin o => [o] | _ => [] end.
Proof. rewrite begun_app. cbn. now rewrite app_nil_r. Qed.
Lemma run_snoc es e s s' : J es s -> vstep s e = Some s' -> vrun (v_init cols0) (es ++ [e]) = Some s'.
Proof. intros I E. rewrite vrun_app, (j_run _ _ I). cbn. now rewrite E. Qed.

(* ---- a reader moves ---- *)
Lemma reader_J es s t p e : J es s -> vstep s e = Some (set_rd s t p) -> is_begin e = 0 -> (forall u, u <> t -> starts u e = false) ->
  begun (es ++ [e]) = begun es -> act_inv (es ++ [e]) t p -> row_inv (es ++ [e]) s t p -> copy_inv (es ++ [e]) s t p -> J (es ++ [e]) (set_rd s t p).
Proof.
  intros I E B S Bg A R C. constructor.
  - eapply run_snoc; eauto.
  - pose proof (j_val _ _ I) as V. unfold val_inv in *. rewrite Bg. exact V.
  - apply (j_cur _ _ I).
  - apply (j_ver _ _ I).
  - intros u. cbn. destruct (Nat.eq_dec u t) as [->|N]; [rewrite vset_same; auto|]. rewrite vset_other by auto. apply act_keep; auto. apply (j_act _ _ I).
  - intros u. cbn. destruct (Nat.eq_dec u t) as [->|N]; [rewrite vset_same; auto|]. rewrite vset_other by auto. apply row_keep with (s := s); auto. apply (j_row _ _ I).
  - intros u. cbn. destruct (Nat.eq_dec u t) as [->|N]; [rewrite vset_same; auto|]. rewrite vset_other by auto. apply copy_keep with (s := s); auto; [change (pend (set_rd s t p)) with (pend s); lia|]. apply (j_copy _ _ I).
Qed.

Lemma in_remove {A} (l : list A) k x y : nth_error l k = Some x -> In y l -> y = x \/ In y (firstn k l ++ skipn (S k) l).
Proof.
  revert k. induction l as [|z l IH]; intros [|k] H Hy; cbn in *; try discriminate.
  - injection H as ->. destruct Hy; auto.
  - destruct Hy as [->|Hy]; [auto|]. destruct (IH k H Hy); auto.
Qed.
Lemma in_removed {A} (l : list A) k y : In y (firstn k l ++ skipn (S k) l) -> In y l.
Proof.
  revert k. induction l as [|z l IH]; intros [|k]; cbn; auto. intros [H|H]; auto. right. apply (IH k). exact H.
Qed.
Lemma fields_answer f n (st : nat -> Z) v : length v = n -> (forall i, In i (copied f n) -> st i = nth i v 0) -> fields f n st = answer f v.
Proof.
  intros L H. assert (M : forall l, (forall i, In i l -> (i < n)%nat -> st i = nth i v 0) -> map (fun i => if (i <? n)%nat then st i else 0) l = map (fun i => nth i v 0) l).
  { intros l Hl. apply map_ext_in. intros i Hi. destruct (Nat.ltb_spec i n); auto. symmetry. apply nth_overflow. lia. }
  unfold fields, answer. destruct f as [|i [|j f]].
  - cbn [copied] in H. subst n. clear M. apply nth_ext with (d := 0) (d' := 0); [rewrite map_length, seq_length; auto|].
    intros m Hm. rewrite map_length, seq_length in Hm. rewrite (nth_indep _ 0 (st 0%nat)) by (rewrite map_length, seq_length; auto).
    rewrite map_nth, seq_nth by auto. apply H. apply in_seq. lia.
  - apply M. intros m [<-|[]] _. apply H. left. auto.
  - apply M. intros m _ Hm. apply H. cbn [copied]. apply in_seq. lia.
Qed.

Lemma read_J es s t k p : J es s -> rstep_pc s (v_rd s t) k = Some p -> J (es ++ [ERead t k]) (set_rd s t p).
Proof.
  intros I E. assert (ST : vstep s (ERead t k) = Some (set_rd s t p)) by (cbn; rewrite E; auto).
  pose proof (j_act _ _ I t) as A. pose proof (j_row _ _ I t) as R. pose proof (j_copy _ _ I t) as C.
  assert (S0 : starts t (ERead t k) = false) by reflexivity.
  assert (W : forall f v, was es t f v -> was (es ++ [ERead t k]) t f v) by (intros; apply was_snoc; auto).
  assert (SN : since t (es ++ [ERead t k]) = since t es) by (rewrite since_snoc, S0; cbn; lia).
  assert (FIN : act_inv es t p -> row_inv (es ++ [ERead t k]) s t p -> copy_inv (es ++ [ERead t k]) s t p -> J (es ++ [ERead t k]) (set_rd s t p)).
  { intros X1 X2 X3. apply reader_J; auto. rewrite begun_snoc. apply app_nil_r. apply act_keep; auto. }
  assert (SAME : p = v_rd s t -> J (es ++ [ERead t k]) (set_rd s t p)).
  { intros ->. apply FIN; auto; [apply row_keep with (s := s)|apply copy_keep with (s := s)]; auto. cbn. lia. }
  unfold rstep_pc in E. destruct (v_rd s t) as [|f|f r n|f r n v1 todo st|f res|f|i|i r|i r|i r d|i d l|i] eqn:P; try discriminate.
  - injection E as <-. apply FIN; [exact A| |exact Logic.I]. cbn. split; [apply (j_cur _ _ I)|]. split; auto.
  - fold (ver_of s r) in E. destruct (rv_dirty (ver_of s r)) eqn:D; [injection E as <-; apply SAME; auto|]. injection E as <-.
    assert (WN : was es t f (cols_of s r)) by (apply clean_was with (s := s) (n := n); auto; rewrite P; reflexivity).
    destruct R as (R1 & R2 & R3). apply FIN; [exact A| |].
    + cbn. repeat split; auto; destruct R3; auto.
    + cbn [copy_inv]. split; auto. split; [apply (j_ver _ _ I); auto|]. split; [exists (cols_of s r); auto|]. split; auto.
      exists 0. rewrite SN. split; [lia|]. split; [pose proof (since_nonneg t es); unfold pend; destruct (v_w s); lia|].
      split; [rewrite Z.add_0_r; unfold rv_ctr; rewrite Z.mod_mod by lia; auto|]. intros _ _. split; auto. intros i Hi N. contradiction.
  - destruct R as (R1 & R2 & R3). destruct C as (C1 & C2 & (v & C3 & C3') & C4 & q & C5 & C6 & C7 & C8). destruct todo as [|i0 todo].
    + fold (ver_of s r) in E. destruct (rv_dirty (ver_of s r)) eqn:D; [injection E as <-; apply SAME; auto|].
      unfold rv_has_changed in E. destruct (Z.eqb_spec (rv_ctr v1) (rv_ctr (ver_of s r))) as [Q|Q]; cbn [negb] in E; injection E as <-.
      * apply FIN; [exact A|exact Logic.I|]. cbn [copy_inv]. rewrite SN. intros B.
        assert (q = 0). { unfold rv_ctr in *. rewrite C7 in Q. unfold pend in C6. pose proof (Z.mod_pos_bound v1 (2 ^ 31) ltac:(lia)). destruct (v_w s); clear - Q C5 C6 B H; lia. }
        destruct (C8 H eq_refl) as (V1 & V2). exists (cols_of s r). split; auto. apply fields_answer; auto.
      * assert (WN : was es t f (cols_of s r)) by (apply clean_was with (s := s) (n := n); auto; rewrite P; reflexivity).
        apply FIN; [exact A| |].
        { cbn. repeat split; auto; destruct R3; auto. }
        cbn [copy_inv]. split; auto. split; [apply (j_ver _ _ I); auto|]. split; [exists (cols_of s r); auto|]. split; auto.
        exists 0. rewrite SN. split; [lia|]. split; [pose proof (since_nonneg t es); unfold pend; destruct (v_w s); lia|].
        split; [rewrite Z.add_0_r; unfold rv_ctr; rewrite Z.mod_mod by lia; auto|]. intros _ _. split; auto. intros i Hi N. contradiction.
    + destruct (nth_error (i0 :: todo) k) as [i|] eqn:Ni; [|discriminate]. fold (cols_of s r) in E.
      destruct (nth_error (cols_of s r) i) as [c|] eqn:Nc; injection E as <-.
      * apply FIN; [exact A| |].
        { cbn. repeat split; auto; destruct R3; auto. }
        cbn [copy_inv]. split; auto. split; auto. split; [exists v; auto|]. split; [intros j Hj; apply C4; eapply in_removed; exact Hj|].
        exists q. rewrite SN. split; auto. split; auto. split; auto. intros K D. destruct (C8 K D) as (V1 & V2). split; auto.
        intros j Hj Nj. destruct (Nat.eq_dec j i) as [->|Ne]; [rewrite vset_same; symmetry; apply nth_error_nth; auto|]. rewrite vset_other by auto.
        apply V2; auto. intros Hin. destruct (in_remove _ _ _ _ Ni Hin); auto.
      * apply FIN; [exact A|exact Logic.I|]. cbn [copy_inv]. apply nth_error_None in Nc. pose proof (C4 i (nth_error_In _ _ Ni)) as Ci.
        exists v, i. split; auto. rewrite C3', R2. split; auto. destruct f as [|x [|y f]]; cbn [copied] in Ci; try (apply in_seq in Ci; lia). destruct Ci as [->|[]]; auto.
  - injection E as <-. apply FIN; exact Logic.I.
  - destruct (nth_error _ i) as [c|]; [destruct (c =? 0)|]; injection E as <-; apply FIN; exact Logic.I.
  - destruct (nth_error _ i) as [c|]; [destruct (c =? 0)|]; injection E as <-; apply FIN; exact Logic.I.
  - destruct (nth_error _ i) as [c|]; [destruct (c =? 0)|]; injection E as <-; apply FIN; exact Logic.I.
Qed.
End J.
