(* Layers: operations can finish. *)
From Verif Require Import Lib M_Layers Spec_Layers P_Layers1 P_Layers2 P_Layers3 P_Layers4 P_Layers5.

(* Every lock has its collector. *)
Definition owned (s : lst) : Prop := forall L q, lkb s L q = true -> exists t, pcs s t = LKill L q.
Lemma lkb_same s s' L q : lks s' = lks s -> lkb s' L q = lkb s L q. Proof. unfold lkb. now intros ->. Qed.
Lemma owned_keep s s' t : owned s -> lks s' = lks s -> (forall t0, t0 <> t -> pcs s' t0 = pcs s t0) -> (forall L q, pcs s t <> LKill L q) -> owned s'.
Proof.
  intros O E P N L q H. rewrite (lkb_same s s' L q E) in H. destruct (O L q H) as (t0 & Q). exists t0. destruct (Nat.eq_dec t0 t) as [->|M]; [destruct (N _ _ Q)|now rewrite P].
Qed.
Lemma locked_inv s t L k o s1 s' : locked s t L k o s1 = Some s' -> s' = go s t (LAt k o 0 k) \/ s' = s1 /\ dead s L = false.
Proof. unfold locked. destruct (dead s L); intros [= <-]; auto. Qed.
Ltac oq := intros ? ?; congruence.
Lemma owned_step s g t c s' : LI s g -> owned s -> lstep s t c = Some s' -> owned s'.
Proof.
  intros HI O. unfold lstep. destruct (pcs s t) as [|k o L r|k o res|L q] eqn:P.
  - destruct c; try discriminate. intros [= <-]. apply (owned_keep s _ t); [exact O|reflexivity|intros t0 N; now rewrite go_other|oq].
  - assert (KP : forall s1 p, lks s1 = lks s -> pcs s1 = pcs s -> owned (go s1 t p)).
    { intros s1 p E1 E2. apply (owned_keep s _ t); [exact O|exact E1|intros t0 N; rewrite go_other by exact N; now rewrite E2|oq]. }
    assert (LK : forall o s1 s2 p, lks s1 = lks s -> pcs s1 = pcs s -> locked s t L k o (go s1 t p) = Some s2 -> owned s2).
    { intros o0 s1 s2 p E1 E2 H. apply locked_inv in H. destruct H as [->|(-> & _)]; now apply KP. }
    destruct o as [|w| |]; destruct c; try discriminate.
    + intros [= <-]. now apply KP.
    + destruct (lget (slice r) (rws s L)) as [[v0|x v0|L']|].
      * now apply LK.
      * destruct (leqb x (skipn 8 r)); [now apply LK|]. unfold new_layer. now apply LK.
      * intros [= <-]. now apply KP.
      * now apply LK.
    + intros [= <-]. now apply KP.
    + destruct (lget (slice r) (rws s L)) as [[v0|x v0|L']|].
      * now apply LK.
      * destruct (leqb x (skipn 8 r)); now apply LK.
      * intros [= <-]. now apply KP.
      * now apply LK.
    + cbv zeta. destruct (lget (firstn 8 r, true) (rws s L)) as [[v0|x v0|L']|]; try (now apply LK). destruct (8 <? length r)%nat; [intros [= <-]; now apply KP|].
      destruct (lkb s L (firstn 8 r, true)) eqn:NL; [discriminate|]. destruct (rws s L'); [|now apply LK]. intros H. apply locked_inv in H. destruct H as [->|(-> & _)]; [now apply KP|].
      intros M p H. apply (lkb_add s L (firstn 8 r, true)) in H. destruct H as [(-> & ->)|H]; [exists t; apply go_pc|]. destruct (O M p H) as (t0 & Q). exists t0. rewrite go_other; [exact Q|congruence].
  - destruct c; try discriminate. intros [= <-]. apply (owned_keep s _ t); [exact O|reflexivity|intros t0 N; now rewrite go_other|oq].
  - destruct c; try discriminate. intros [= <-]. intros M p H. apply (lkb_del (wr s L (ldel q (rws s L))) L q M p) in H. destruct H as (N & H). destruct (O M p H) as (t0 & Q). exists t0. rewrite go_other; [exact Q|]. intros ->. rewrite P in Q. injection Q as -> ->. tauto.
Qed.
Lemma reach l s : lsteps lstart l s -> exists g, LI s g /\ owned s.
Proof.
  assert (G : forall s l s', lsteps s l s' -> (exists g, LI s g /\ owned s) -> exists g, LI s' g /\ owned s').
  { induction 1 as [s0|s0 t c s1 l0 s2 E H IH]; intros (g & A & B); [eauto|]. apply IH. destruct (gd_inv _ _ _ _ _ (step_good s0 g t A c s1 E)) as (g' & A'). exists g'. split; [exact A'|]. exact (owned_step s0 g t c s1 A B E). }
  intros H. apply (G lstart l s H). exists (fun _ => []). split; [exact LI_start|]. intros L q Q. discriminate Q.
Qed.

Lemma lsteps_app a l b m c : lsteps a l b -> lsteps b m c -> lsteps a (l ++ m) c.
Proof. induction 1; intros H2; cbn [app]; [exact H2|econstructor; eauto]. Qed.

(* A lookup needs nobody. *)
Lemma get_alone g t k : forall n s L r, LI s g -> (length r < n)%nat -> pcs s t = LAt k LGet L r ->
  exists m s' res, lsteps s m s' /\ (forall e, In e m -> fst e = (t, LGo)) /\ (length m <= n)%nat /\ pcs s' t = LDone k LGet res.
Proof.
  induction n as [|n IH]; intros s L r HI Hn P; [lia|]. assert (ST : lstep s t LGo = Some (go s t match lget (slice r) (rws s L) with None => LDone k LGet None | Some (RVal v) => LDone k LGet (Some v)
                   | Some (RSuf x v) => LDone k LGet (if leqb x (skipn 8 r) then Some v else None) | Some (RLay L') => LAt k LGet L' (skipn 8 r) end)) by (unfold lstep; now rewrite P).
  assert (ONE : forall res, lstep s t LGo = Some (go s t (LDone k LGet res)) -> exists m s' res, lsteps s m s' /\ (forall e, In e m -> fst e = (t, LGo)) /\ (length m <= S n)%nat /\ pcs s' t = LDone k LGet res).
  { intros res H. exists [((t, LGo), go s t (LDone k LGet res))], (go s t (LDone k LGet res)), res. split; [econstructor; [exact H|constructor]|]. split; [now intros e [<-|[]]|]. split; [cbn; lia|apply go_pc]. }
  destruct (lget (slice r) (rws s L)) as [[v0|x v0|L']|] eqn:R; try (eapply ONE; exact ST).
  destruct (i_lay _ _ HI _ _ _ R) as (_ & _ & _ & H3 & _). rewrite slice_flag in H3. apply Nat.ltb_lt in H3. pose proof (i_thr _ _ HI t) as T. rewrite P in T.
  destruct (IH (go s t (LAt k LGet L' (skipn 8 r))) L' (skipn 8 r)) as (m & s' & res & A & B & C & D).
  - apply LI_go; [exact HI|now apply (thr_down s g HI k LGet LGet L r)|discriminate].
  - rewrite skipn_length. lia.
  - apply go_pc.
  - exists (((t, LGo), go s t (LAt k LGet L' (skipn 8 r))) :: m), s', res. split; [econstructor; [exact ST|exact A]|]. split; [intros e [<-|He]; [reflexivity|auto]|]. split; [cbn; lia|exact D].
Qed.

(* When no layer is being collected, a put or a removal needs nobody either. *)
Definition by_self (s : lst) (t : nat) (k : list Z) (o : lop) : Prop :=
  exists m s' res, lsteps s m s' /\ (forall e, In e m -> fst e = (t, LGo)) /\ pcs s' t = LDone k o res.
Lemma self_one s t k o s1 res : lstep s t LGo = Some s1 -> pcs s1 t = LDone k o res -> by_self s t k o.
Proof. intros E P. exists [((t, LGo), s1)], s1, res. split; [econstructor; [exact E|constructor]|]. split; [now intros e [<-|[]]|exact P]. Qed.
Lemma self_more s t k o s1 : lstep s t LGo = Some s1 -> by_self s1 t k o -> by_self s t k o.
Proof. intros E (m & s' & res & A & B & C). exists (((t, LGo), s1) :: m), s', res. split; [econstructor; eauto|]. split; [intros e [<-|He]; [reflexivity|auto]|exact C]. Qed.
Lemma locked_live s t L k o s1 : dead s L = false -> locked s t L k o s1 = Some s1. Proof. unfold locked. now intros ->. Qed.
Lemma no_dead_row s g L q L' : LI s g -> lks s = [] -> lget q (rws s L) = Some (RLay L') -> dead s L' = false.
Proof.
  intros HI E R. destruct (dead s L') eqn:D; [|reflexivity]. destruct (i_lay _ _ HI _ _ _ R) as (_ & _ & _ & _ & F). specialize (F D). unfold lkb in F. rewrite E in F. discriminate.
Qed.
Lemma write_alone t k o : writes o -> forall n s g L r, LI s g -> lks s = [] -> (length r < n)%nat -> dead s L = false -> pcs s t = LAt k o L r -> by_self s t k o.
Proof.
  intros W. induction n as [|n IH]; intros s g L r HI E Hn D P; [lia|]. pose proof (i_thr _ _ HI t) as T. rewrite P in T. destruct (lget (slice r) (rws s L)) as [[v0|x v0|L']|] eqn:R.
  - destruct o as [|w| |]; try destruct W; eapply self_one; try (unfold lstep; rewrite P, R; now apply locked_live); apply go_pc.
  - destruct (leqb x (skipn 8 r)) eqn:Q.
    + destruct o as [|w| |]; try destruct W; eapply self_one; try (unfold lstep; rewrite P, R, Q; now apply locked_live); apply go_pc.
    + destruct o as [|w| |]; try destruct W; [|eapply self_one; try (unfold lstep; rewrite P, R, Q; now apply locked_live); apply go_pc].
      assert (ST : lstep s t LGo = Some (new_layer s t k w L r x v0)) by (unfold lstep; rewrite P, R, Q; now apply locked_live). apply (self_more s t k (LPut w) _ ST).
      destruct (gd_inv _ _ _ _ _ (step_good s g t HI LGo _ ST)) as (g' & HI'). destruct (i_suf _ _ HI _ _ _ _ R) as (F & _). rewrite slice_flag in F. apply Nat.ltb_lt in F.
      apply (IH _ g' (fl s) (skipn 8 r)); [exact HI'|exact E|rewrite skipn_length; lia| |apply go_pc]. rewrite (gr_dead s g L t k r x w v0 HI). apply (i_new _ _ HI). lia.
  - assert (ST : lstep s t LGo = Some (go s t (LAt k o L' (skipn 8 r)))) by (destruct o as [|w| |]; try destruct W; unfold lstep; now rewrite P, R). apply (self_more s t k o _ ST).
    destruct (gd_inv _ _ _ _ _ (step_good s g t HI LGo _ ST)) as (g' & HI'). destruct (i_lay _ _ HI _ _ _ R) as (_ & _ & _ & F & _). rewrite slice_flag in F. apply Nat.ltb_lt in F.
    apply (IH _ g' L' (skipn 8 r)); [exact HI'|exact E|rewrite skipn_length; lia|exact (no_dead_row s g L _ L' HI E R)|apply go_pc].
  - destruct o as [|w| |]; try destruct W; eapply self_one; try (unfold lstep; rewrite P, R; now apply locked_live); apply go_pc.
Qed.
Lemma write_restart t k o s g L r : writes o -> LI s g -> lks s = [] -> pcs s t = LAt k o L r -> by_self s t k o.
Proof.
  intros W HI E P. destruct (dead s L) eqn:D; [|apply (write_alone t k o W (S (length r)) s g L r); auto].
  assert (ST : lstep s t LGo = Some (go s t (LAt k o 0 k))) by (destruct o as [|w| |]; try destruct W; unfold lstep; rewrite P, (i_dead _ _ HI L D); cbn [lget]; unfold locked; now rewrite D).
  apply (self_more s t k o _ ST). destruct (gd_inv _ _ _ _ _ (step_good s g t HI LGo _ ST)) as (g' & HI'). apply (write_alone t k o W (S (length k)) _ g' 0 k); [exact HI'|exact E|lia|exact (proj1 (proj2 (i_z _ _ HI)))|apply go_pc].
Qed.
(* The collections under way end. *)
Lemma filter_le {A} (f : A -> bool) l : (length (filter f l) <= length l)%nat.
Proof. induction l as [|a l IH]; cbn [filter length]; [lia|]. destruct (f a); cbn [length]; lia. Qed.
Lemma filter_less {A} (f : A -> bool) l x : In x l -> f x = false -> (length (filter f l) < length l)%nat.
Proof.
  induction l as [|a l IH]; [intros []|]; intros [->|H] F; cbn [filter length].
  - rewrite F. pose proof (filter_le f l). lia.
  - specialize (IH H F). destruct (f a); cbn [length]; lia.
Qed.
Lemma drain : forall n s g, LI s g -> owned s -> (length (lks s) <= n)%nat ->
  exists m s' g', lsteps s m s' /\ LI s' g' /\ lks s' = [] /\ (forall e, In e m -> snd (fst e) = LGo /\ exists L q, pcs s (fst (fst e)) = LKill L q) /\ (forall t, (forall L q, pcs s t <> LKill L q) -> pcs s' t = pcs s t).
Proof.
  induction n as [|n IH]; intros s g HI O Hn.
  - exists [], s, g. split; [constructor|]. split; [exact HI|]. split; [destruct (lks s); [reflexivity|cbn in Hn; lia]|]. split; [intros e []|auto].
  - destruct (lks s) as [|[L q] rest] eqn:E.
    + exists [], s, g. split; [constructor|]. split; [exact HI|]. split; [exact E|]. split; [intros e []|auto].
    + assert (K : lkb s L q = true) by (apply lkb_ok; rewrite E; now left). destruct (O L q K) as (t & P). set (s1 := go (lk_del (wr s L (ldel q (rws s L))) L q) t LIdle).
      assert (ST : lstep s t LGo = Some s1) by (unfold lstep; now rewrite P). destruct (step_good s g t HI LGo s1 ST) as [(g1 & HI1) _ GP _].
      destruct (IH s1 g1 HI1 (owned_step s g t LGo s1 HI O ST)) as (m & s' & g' & A1 & A2 & A3 & A4 & A5).
      { assert (F : (length (lks s1) < length (lks s))%nat); [|rewrite E in F; cbn [length] in F, Hn; lia]. unfold s1. cbn [go lk_del lks wr]. apply (filter_less _ _ (L, q)); [rewrite E; now left|]. cbn [fst snd]. now rewrite Nat.eqb_refl, kqb_rf. }
      assert (I1 : pcs s1 t = LIdle) by apply go_pc. exists (((t, LGo), s1) :: m), s', g'. split; [econstructor; [exact ST|exact A1]|]. split; [exact A2|]. split; [exact A3|]. split.
      * intros e [<-|He]; [split; [reflexivity|cbn; eauto]|]. destruct (A4 e He) as (B1 & L1 & q1 & B2). split; [exact B1|]. exists L1, q1. rewrite <- GP; [exact B2|]. intros F. rewrite F in B2. congruence.
      * intros t0 N. rewrite A5; [apply GP; intros ->; exact (N _ _ P)|]. intros L1 q1 F. destruct (Nat.eq_dec t0 t) as [->|M]; [congruence|]. rewrite GP in F by exact M. exact (N _ _ F).
Qed.
Lemma finish_main l s t k o L r : lsteps lstart l s -> pcs s t = LAt k o L r -> o <> LGc ->
  exists m s' res, lsteps s m s' /\ pcs s' t = LDone k o res /\ (o = LGet -> (length m <= S (length k))%nat) /\
    forall e, In e m -> snd (fst e) = LGo /\ (fst (fst e) = t \/ o <> LGet /\ exists L' q, pcs s (fst (fst e)) = LKill L' q).
Proof.
  intros H P N. destruct (reach l s H) as (g & HI & O). destruct o as [|w| |]; [| | |congruence].
  - pose proof (i_thr _ _ HI t) as T. rewrite P in T. destruct T as (_ & T & _). destruct (get_alone g t k (S (length r)) s L r HI (Nat.lt_succ_diag_r _) P) as (m & s' & res & A & B & C & D).
    exists m, s', res. split; [exact A|]. split; [exact D|]. split; [intros _; rewrite <- T, app_length; lia|]. intros e He. rewrite (B e He). auto.
  - destruct (drain _ s g HI O (le_n _)) as (m & s1 & g1 & A1 & A2 & A3 & A4 & A5). rewrite <- (A5 t) in P by (intros; congruence).
    destruct (write_restart t k (LPut w) s1 g1 L r Logic.I A2 A3 P) as (m' & s' & res & B1 & B2 & B3). exists (m ++ m'), s', res. split; [exact (lsteps_app _ _ _ _ _ A1 B1)|]. split; [exact B3|]. split; [discriminate|].
    intros e He. apply in_app_or in He. destruct He as [He|He]; [destruct (A4 e He); split; [assumption|right; split; [discriminate|assumption]]|rewrite (B2 e He); auto].
  - destruct (drain _ s g HI O (le_n _)) as (m & s1 & g1 & A1 & A2 & A3 & A4 & A5). rewrite <- (A5 t) in P by (intros; congruence).
    destruct (write_restart t k LRem s1 g1 L r Logic.I A2 A3 P) as (m' & s' & res & B1 & B2 & B3). exists (m ++ m'), s', res. split; [exact (lsteps_app _ _ _ _ _ A1 B1)|]. split; [exact B3|]. split; [discriminate|].
    intros e He. apply in_app_or in He. destruct He as [He|He]; [destruct (A4 e He); split; [assumption|right; split; [discriminate|assumption]]|rewrite (B2 e He); auto].
Qed.
