(* Checkpoint files: whole checkpoints, crashes and recovery. *)
From Verif Require Import Lib M_Ckfile Spec_Ckfile P_Ckfile1.

Definition always (P : fs -> Prop) (s : fs) (l : list call) : Prop := forall l1 l2, l = l1 ++ l2 -> P (calls s l1).
Lemma calls_app s l l' : calls s (l ++ l') = calls (calls s l) l'. Proof. apply fold_left_app. Qed.
Lemma always_end P s l : always P s l -> P (calls s l). Proof. intros H. apply (H l []). now rewrite app_nil_r. Qed.
Lemma always_stage (P : fs -> Prop) (F : call -> Prop) : (forall s c, F c -> P s -> P (do_call s c)) -> forall l s, Forall F l -> P s -> always P s l.
Proof.
  intros H. induction l as [|c l IH]; intros s Fl Ps l1 l2 E; destruct l1 as [|c1 l1]; cbn in *; auto; [discriminate|]. injection E as <- E. inversion Fl; subst. apply (IH (do_call s c)) with (l2 := l2); auto.
Qed.
Lemma always_app P s l l' : always P s l -> always P (calls s l) l' -> always P s (l ++ l').
Proof.
  intros H1 H2 l1 l2 E. destruct (app_eq_app _ _ _ _ E) as (m & [[E1 E2]|[E1 E2]]). - exact (H1 l1 m E1). - subst l1. rewrite calls_app. exact (H2 m l2 E2).
Qed.
Lemma always_impl (P Q : fs -> Prop) s l : (forall s, P s -> Q s) -> always P s l -> always Q s l. Proof. intros H A l1 l2 E. apply H. exact (A l1 l2 E). Qed.
Lemma always_one (P : fs -> Prop) s c : P s -> P (do_call s c) -> always P s [c].
Proof. intros H1 H2 [|c1 [|c2 l1]] l2 E; cbn in *; auto; [injection E as <- _; auto|discriminate]. Qed.
Lemma always_nil (P : fs -> Prop) s : P s -> always P s []. Proof. intros H [|] l2 E; [exact H|discriminate]. Qed.

Section V.
Variables (ok : list dop -> list bool -> Prop) (strong : bool) (gen_of : list Z -> option nat) (n : nat).
Hypothesis OK : okspec ok strong.
Notation inv := (inv ok gen_of n). Notation av := (av ok strong).

Definition apart (g : nat) (a : name) (c : call) : Prop := exists b, later g b /\ (b = a \/ cls b <> cls a) /\ on b c = true.
Lemma apart_later g a c : apart g a c -> exists b, later g b /\ on b c = true. Proof. intros (b & H1 & _ & H2). eauto. Qed.
Lemma track_step s g A a c o : inv s g A -> apart g a c -> on a c = false -> now s a = Some o -> now (do_call s c) a = Some o /\ f_cur (do_call s c) o = f_cur s o /\ f_safe (do_call s c) o = f_safe s o.
Proof.
  intros I (b & Lb & Hb & Ob) Oa Na. destruct Hb as [-> |Hb]; [congruence|]. destruct (file_call ok strong gen_of n OK s g A b c I Lb Ob) as (F1 & _ & F3 & _).
  rewrite F3 by congruence. split; auto. apply (F1 (now s) a o); auto. exact (now_view ok strong OK s).
Qed.
Lemma inv_apart s g A a c : inv s g A -> apart g a c -> inv (do_call s c) g A.
Proof. intros I (b & Lb & _ & Ob). exact (inv_file ok strong gen_of n OK s g A b c I Lb Ob). Qed.
Lemma track_none g A a o : forall l s, inv s g A -> Forall (apart g a) l -> filter (on a) l = [] -> now s a = Some o -> now (calls s l) a = Some o /\ f_cur (calls s l) o = f_cur s o /\ f_safe (calls s l) o = f_safe s o.
Proof.
  induction l as [|c l IH]; intros s I F Fl Na; cbn [calls fold_left filter] in *; auto. inversion F; subst. destruct (on a c) eqn:Oc; [discriminate|]. destruct (track_step s g A a c o I H1 Oc Na) as (T1 & T2 & T3). destruct (IH (do_call s c)) as (U1 & U2 & U3); auto; [now apply (inv_apart s g A a)|]. unfold calls in *. rewrite U1, U2, U3. auto.
Qed.
Lemma track_write g A a o : forall l s ps, inv s g A -> Forall (apart g a) l -> filter (on a) l = map (Write a) ps ++ [Fsync a] -> now s a = Some o ->
  now (calls s l) a = Some o /\ f_cur (calls s l) o = f_cur s o ++ concat ps /\ f_safe (calls s l) o = true.
Proof.
  induction l as [|c l IH]; intros s ps I F Fl Na; [destruct ps; discriminate|]. change (calls s (c :: l)) with (calls (do_call s c) l). inversion F; subst. pose proof (inv_apart s g A a c I H1) as I1. cbn [filter] in Fl. destruct (on a c) eqn:Oc.
  - destruct ps as [|p ps]; cbn [map app] in Fl; injection Fl as -> Fl.
    + cbn [do_call] in *. rewrite Na in *. destruct (track_none g A a o l _ I1 H2 Fl Na) as (T1 & T2 & T3). rewrite T1, T2, T3. cbn [f_cur f_safe concat]. rewrite put_eq, app_nil_r. auto.
    + cbn [do_call] in *. rewrite Na in *. destruct (IH _ ps I1 H2 Fl Na) as (T1 & T2 & T3). rewrite T1, T2, T3. cbn [f_cur f_safe concat]. rewrite put_eq, <- app_assoc. auto.
  - destruct (track_step s g A a c o I H1 Oc Na) as (T1 & T2 & T3). destruct (IH _ ps I1 H2 Fl T1) as (U1 & U2 & U3). rewrite U1, U2, U3, T2. auto.
Qed.
Lemma track_file g A a : forall l s ps, inv s g A -> Forall (apart g a) l -> filter (on a) l = write_file a ps -> exists o, now (calls s l) a = Some o /\ f_cur (calls s l) o = concat ps /\ f_safe (calls s l) o = true.
Proof.
  unfold write_file. induction l as [|c l IH]; intros s ps I F Fl; [discriminate|]. change (calls s (c :: l)) with (calls (do_call s c) l). inversion F; subst. pose proof (inv_apart s g A a c I H1) as I1. cbn [filter] in Fl. destruct (on a c) eqn:Oc; [|exact (IH _ ps I1 H2 Fl)].
  injection Fl as -> Fl. assert (N : exists o, now (do_call s (Open a)) a = Some o /\ f_cur (do_call s (Open a)) o = []). { cbn [do_call]. destruct (now s a) as [o|] eqn:Na; [exists o; split; [exact Na|apply put_eq]|]. exists (f_next s). rewrite now_snoc. split; [apply dput_eq|apply put_eq]. }
  destruct N as (o & N1 & N2). destruct (track_write g A a o l _ ps I1 H2 Fl N1) as (T1 & T2 & T3). exists o. rewrite T2, N2. auto.
Qed.

Lemma parts_stage s g A parts l : inv s g A -> writes_parts n (S g) parts l -> always (fun s => inv s g A) s l /\ pgood n (S g) parts (calls s l) (now (calls s l)).
Proof.
  intros I (L & F & W). split.
  - apply (always_stage _ (fun c => exists b, later g b /\ on b c = true)); auto. + intros s' c (b & Lb & Ob) I'. exact (inv_file ok strong gen_of n OK s' g A b c I' Lb Ob). + eapply Forall_impl; [|exact F]. intros c (i & _ & Oi). exists (Ck (S g) i). split; auto. cbn. lia.
  - intros i Hi. destruct (W i Hi) as (ps & E & C). destruct (track_file g A (Ck (S g) i) l s ps I) as (o & T1 & T2 & T3); auto.
    + eapply Forall_impl; [|exact F]. intros c (j & _ & Oj). exists (Ck (S g) j). split; [cbn; lia|]. split; auto. cbn [cls]. destruct (Nat.eq_dec j i) as [-> |]; [auto|right; congruence].
    + exists o. rewrite T2. auto.
Qed.
Lemma write_file_on a ps : Forall (fun c => on a c = true) (write_file a ps).
Proof. unfold write_file. constructor; [cbn; apply name_eqb_refl|]. apply Forall_app. split; [|repeat constructor; cbn; apply name_eqb_refl]. apply Forall_forall. intros c H. apply in_map_iff in H. destruct H as (b & <- & _). cbn. apply name_eqb_refl. Qed.
Lemma filter_all {A} (f : A -> bool) l : Forall (fun c => f c = true) l -> filter f l = l. Proof. induction 1; cbn; auto. rewrite H. congruence. Qed.
Definition ready (g : nat) (A : list ckpt) (parts : list (list Z)) (s : fs) : Prop := inv s g A /\ forall D, av s D -> pgood n (S g) parts s D.
Lemma tmp_stage s g A parts ps : ready g A parts s -> always (ready g A parts) s (write_file Tmp ps) /\ exists o, now (calls s (write_file Tmp ps)) Tmp = Some o /\ f_cur (calls s (write_file Tmp ps)) o = concat ps /\ f_safe (calls s (write_file Tmp ps)) o = true.
Proof.
  intros R. split.
  - apply (always_stage _ (fun c => on Tmp c = true)); auto; [|apply write_file_on]. intros s' c Oc [I P]. split; [exact (inv_file ok strong gen_of n OK s' g A Tmp c I Logic.I Oc)|].
    destruct (file_call ok strong gen_of n OK s' g A Tmp c I Logic.I Oc) as (F1 & _ & _ & _ & F5 & _). intros D V i Hi. destruct (F5 D V) as (D0 & V0 & E). destruct (P D0 V0 i Hi) as (p & P1 & P2 & P3). exists p. rewrite E by discriminate. destruct (F1 D0 (Ck (S g) i) p (av_view ok strong OK _ _ V0) P1 ltac:(discriminate)) as [-> ->]. auto.
  - apply (track_file g A Tmp); [apply R| |apply filter_all, write_file_on]. eapply Forall_impl; [|apply write_file_on]. intros c Oc. exists Tmp. split; [exact Logic.I|auto].
Qed.
Definition ended (g : nat) (A : list ckpt) (s : fs) : Prop := inv s (S g) A /\ forall D, av s D -> ggood gen_of (S g) s D.
Lemma unlink_stage s g A l : ended g A s -> always (ended g A) s (map (fun i => Unlink (Ck g i)) l).
Proof.
  intros E. apply (always_stage _ (fun c => exists i, c = Unlink (Ck g i))); auto.
  - intros s' c (i & ->) [I H]. exact (inv_unlink ok strong gen_of n OK s' g A i I H).
  - apply Forall_forall. intros c H. apply in_map_iff in H. destruct H as (i & <- & _). eauto.
Qed.
Lemma av_sync s D : av (do_call s SyncAll) D -> D = now s.
Proof. intros H. apply (av_view ok strong OK) in H. exact (view_sync ok s D H). Qed.

Lemma round_ok rep s g A parts l : rep = true \/ strong = true -> inv s g A -> round rep gen_of n g parts l ->
  always (fun s => inv s (S g) (A ++ [Some (S g, parts)])) s l /\ inv (calls s l) (S g) (if rep then [Some (S g, parts)] else A ++ [Some (S g, parts)]).
Proof.
  intros M I (l1 & ps & W & G & ->). set (A' := A ++ [Some (S g, parts)]). assert (up : forall s, inv s g A -> inv s (S g) A') by (intros s' I'; apply (inv_more ok gen_of n s' g A); auto; intros x Hx; apply in_or_app; auto).
  destruct (parts_stage s g A parts l1 I W) as [S1 P1]. pose proof (always_end _ _ _ S1) as I1. cbn beta in I1. set (s1 := calls s l1) in *. destruct W as (Lp & _).
  set (c2 := if rep then [SyncAll] else []). set (s2 := calls s1 c2).
  assert (R2 : always (fun s => inv s g A) s1 c2 /\ ready g A parts s2).
  { unfold s2, c2. destruct rep.
    - destruct (i_good _ _ _ _ _ _ I1 _ (now_view ok strong OK s1)) as (x & X1 & X2 & X3). pose proof (inv_sync ok strong gen_of n OK s1 g A A x I1 X1 X2 X3) as I2. split; [now apply always_one|]. split; auto. intros D V. rewrite (av_sync s1 D V). exact P1.
    - destruct M as [M|M]; [discriminate|]. split; [now apply always_nil|]. split; auto. intros D V. unfold P_Ckfile1.av in V. rewrite M in V. subst D. exact P1. }
  destruct R2 as [S2 R2]. destruct (tmp_stage s2 g A parts ps R2) as [S3 (o & T1 & T2 & T3)]. set (s3 := calls s2 (write_file Tmp ps)) in *. pose proof (always_end _ _ _ S3) as [I3 P3]. fold s3 in I3, P3. rewrite <- T2 in G.
  pose proof (inv_rename ok strong gen_of n OK s3 g A parts o I3 T1 T3 G Lp P3) as I4. fold A' in I4. set (s4 := do_call s3 Rename) in *.
  assert (N4 : now s4 = dapply (now s3) (DRen o)) by (unfold s4; cbn [do_call]; rewrite T1; apply now_snoc).
  assert (D4 : f_cur s4 = f_cur s3 /\ f_safe s4 = f_safe s3) by (unfold s4; cbn [do_call]; rewrite T1; auto). destruct D4 as [D4 D4'].
  assert (G4 : ggood gen_of (S g) s4 (now s4)) by (exists o; rewrite N4, D4, D4'; auto).
  assert (P4 : pgood n (S g) parts s4 (now s4)). { intros i Hi. destruct (P3 (now s3) (av_now ok strong OK s3) i Hi) as (p & Q1 & Q2 & Q3). exists p. rewrite N4, D4, D4'. auto. }
  set (s5 := calls s4 c2). set (A5 := if rep then [Some (S g, parts)] else A').
  assert (R5 : always (fun s => inv s (S g) A') s4 c2 /\ ended g A5 s5).
  { unfold s5, A5, c2. destruct rep.
    - assert (Gd : good gen_of n s4 (now s4) (Some (S g, parts))) by (split; auto). split.
      + apply always_one; auto. apply (inv_sync ok strong gen_of n OK s4 (S g) A' A' _ I4 Gd); [cbn; lia|]. apply in_or_app. right. now left.
      + split; [apply (inv_sync ok strong gen_of n OK s4 (S g) A' [Some (S g, parts)] _ I4 Gd); [cbn; lia|now left]|]. intros D V. change (calls s4 [SyncAll]) with (do_call s4 SyncAll) in *. rewrite (av_sync s4 D V). exact G4.
    - destruct M as [M|M]; [discriminate|]. split; [now apply always_nil|]. split; auto. intros D V. unfold P_Ckfile1.av in V. rewrite M in V. subst D. exact G4. }
  destruct R5 as [S5 R5]. pose proof (unlink_stage s5 g A5 (seq 0 n) R5) as S6. assert (I5 : incl A5 A'). { unfold A5. destruct rep; [|apply incl_refl]. intros x [<- |[]]. apply in_or_app. right. now left. }
  assert (Ec : forall s0 l0, calls s0 (l1 ++ c2 ++ write_file Tmp ps ++ [Rename] ++ c2 ++ l0) = calls (calls (calls (calls (calls (calls s0 l1) c2) (write_file Tmp ps)) [Rename]) c2) l0) by (intros; now rewrite !calls_app).
  split.
  - unfold commit. fold c2. apply always_app; [exact (always_impl _ _ _ _ up S1)|]. fold s1. apply always_app; [exact (always_impl _ _ _ _ up S2)|]. fold s2. apply always_app; [apply (always_impl (ready g A parts)); auto; intros s' [I' _]; auto|]. fold s3.
    apply always_app; [apply always_one; [now apply up|exact I4]|]. change (calls s3 [Rename]) with s4. apply always_app; [exact S5|]. fold s5. apply (always_impl (ended g A5)); auto. intros s' [I' _]. apply (inv_more ok gen_of n s' (S g) A5); auto.
  - unfold commit. fold c2. rewrite Ec. fold s1. fold s2. fold s3. change (calls s3 [Rename]) with s4. fold s5. exact (proj1 (always_end _ _ _ S6)).
Qed.

Lemma read_parts_good s g parts : pgood n g parts s (now s) -> length parts = n -> read_parts s g (seq 0 n) = Some parts.
Proof.
  intros P L. assert (K : forall l a, (a + length l <= n)%nat -> (forall i, (i < length l)%nat -> nth i l [] = nth (a + i) parts []) -> read_parts s g (seq a (length l)) = Some l).
  { induction l as [|b l IH]; intros a Ha Hn; cbn [length seq read_parts] in *; auto. destruct (P a ltac:(lia)) as (p & P1 & P2 & P3). unfold contents. rewrite P1. rewrite IH; [|lia|].
    - rewrite P3. specialize (Hn 0%nat ltac:(lia)). cbn in Hn. rewrite Nat.add_0_r in Hn. now rewrite Hn. - intros i Hi. specialize (Hn (S i) ltac:(lia)). cbn in Hn. rewrite Hn. f_equal. lia. }
  rewrite <- L at 1. apply K; [lia|auto].
Qed.
Lemma good_crash s D x keep junk : D = dapplies (f_dur s) (kept (f_pend s) keep) -> good gen_of n s D x -> good gen_of n (crash keep junk s) (now (crash keep junk s)) x.
Proof.
  intros -> G. change (now (crash keep junk s)) with (dapplies (f_dur s) (kept (f_pend s) keep)). destruct x as [[h parts]|]; cbn [good] in *; auto. destruct G as ((o & O1 & O2 & O3) & L & P). split; [|split; auto].
  - exists o. split; auto. cbn [crash f_cur f_safe]. rewrite O2. auto.
  - intros i Hi. destruct (P i Hi) as (p & P1 & P2 & P3). exists p. split; auto. cbn [crash f_cur f_safe]. rewrite P2. auto.
Qed.
Lemma good_recover s x : good gen_of n s (now s) x -> recover gen_of n s = Some x.
Proof.
  unfold recover, contents. destruct x as [[h parts]|]; cbn [good]; [|now intros ->]. intros ((o & O1 & O2 & O3) & L & P). rewrite O1, O3. now rewrite (read_parts_good s h parts).
Qed.
Lemma crash_ok s g A keep junk : inv s g A -> ok (f_pend s) keep -> exists x, recover gen_of n (crash keep junk s) = Some x /\ In x A /\ inv (crash keep junk s) (gen_no x) [x].
Proof.
  intros I K. set (D := dapplies (f_dur s) (kept (f_pend s) keep)). assert (V : view ok s D) by (exists keep; auto). destruct (i_good _ _ _ _ _ _ I D V) as (x & G & Gx & Ax). exists x. pose proof (good_crash s D x keep junk eq_refl G) as G'. split; [now apply good_recover|]. split; auto.
  assert (Vc : forall D', view ok (crash keep junk s) D' -> D' = D) by (intros D' (k & _ & ->); reflexivity). constructor.
  - intros D' a o V'. rewrite (Vc _ V'). now apply (i_lt _ _ _ _ _ _ I).
  - intros D1 D2 a b o V1 V2. rewrite (Vc _ V1), (Vc _ V2). now apply (i_cls _ _ _ _ _ _ I).
  - intros D' o V'. rewrite (Vc _ V'). now apply (i_tg _ _ _ _ _ _ I).
  - intros D' o V'. rewrite (Vc _ V'). now apply (i_tg _ _ _ _ _ _ I).
  - intros D' V'. rewrite (Vc _ V'). exists x. split; auto. split; [lia|now left].
Qed.
Lemma reach_inv rep s g A : rep = true \/ strong = true -> reach rep ok gen_of n s g A -> inv s g A.
Proof.
  intros M. induction 1 as [|s g A parts l _ IH R|s g A parts l1 l2 keep junk x _ IH R K E].
  - assert (Vc : forall D', view ok fs0 D' -> D' = fun _ => None) by (intros D' (k & _ & ->); reflexivity). constructor.
    + intros D a o V. rewrite (Vc _ V). discriminate. + intros D D' a b o V V'. rewrite (Vc _ V). discriminate. + intros D o V. rewrite (Vc _ V). discriminate. + intros D o V. rewrite (Vc _ V). discriminate.
    + intros D V. rewrite (Vc _ V). exists None. split; [reflexivity|]. split; [cbn; lia|now left].
  - exact (proj2 (round_ok rep s g A parts l M IH R)).
  - destruct (round_ok rep s g A parts _ M IH R) as [S1 _]. destruct (crash_ok _ _ _ keep junk (S1 l1 l2 eq_refl) K) as (x' & E' & _ & I'). assert (x' = x) as -> by congruence. exact I'.
Qed.
Lemma reach_crash rep s g A parts l1 l2 keep junk : rep = true \/ strong = true -> reach rep ok gen_of n s g A -> round rep gen_of n g parts (l1 ++ l2) -> ok (f_pend (calls s l1)) keep ->
  exists x, recover gen_of n (crash keep junk (calls s l1)) = Some x /\ In x (A ++ [Some (S g, parts)]).
Proof.
  intros M R Rd K. pose proof (reach_inv rep s g A M R) as I. destruct (round_ok rep s g A parts _ M I Rd) as [S1 _]. destruct (crash_ok _ _ _ keep junk (S1 l1 l2 eq_refl) K) as (x & E & H & _). eauto.
Qed.
End V.

Lemma safe_write_ok : forall rs b pos ps r, safe_write rs b pos = (ps, Some r) -> (exists rest, b = concat ps ++ rest) /\ (r = Z.of_nat (pos + length (concat ps)) \/ r = -1 /\ pos = 0%nat /\ ps = [] /\ b <> []).
Proof.
  induction rs as [|w rs IH]; intros b pos ps r; destruct b as [|x b]; cbn [safe_write]; try (intros [= <- <-]; split; [exists []; reflexivity|left; cbn; lia]); try discriminate.
  destruct w as [k| | |].
  - set (k' := Nat.min (Nat.max k 1) (length (x :: b))). destruct (safe_write rs (skipn k' (x :: b)) (pos + k')) as [ps1 r1] eqn:E. cbn [fst snd]. intros [= <- ->]. destruct (IH _ _ _ _ E) as [(rest & Hr) H]. assert (K1 : (1 <= k')%nat) by (unfold k'; cbn; lia). assert (K2 : (k' <= length (x :: b))%nat) by (unfold k'; lia). clearbody k'. split.
    + exists rest. cbn [concat]. rewrite <- app_assoc, <- Hr. symmetry. apply firstn_skipn.
    + left. destruct H as [-> |(_ & H & _)]; [|lia]. cbn [concat]. rewrite app_length, firstn_length. lia.
  - intros [= <- <-]. split; [exists (x :: b); reflexivity|left; cbn; lia].
  - apply IH.
  - intros [= <- <-]. split; [exists (x :: b); reflexivity|]. destruct (Nat.eqb_spec pos 0) as [-> |]; [right|left; cbn; lia]. repeat split; auto. discriminate.
Qed.
Lemma safe_write_full rs b ps r : safe_write rs b 0 = (ps, Some r) -> (r = Z.of_nat (length b) <-> concat ps = b).
Proof.
  intros H. destruct (safe_write_ok _ _ _ _ _ H) as [(rest & ->) [-> |(-> & _ & -> & Hb)]].
  - rewrite app_length. cbn [Nat.add]. split; intros E. + assert (length rest = 0%nat) by lia. destruct rest; [now rewrite app_nil_r|discriminate]. + apply (f_equal (@length Z)) in E. rewrite app_length in E. lia.
  - cbn [concat app] in *. split; intros E; [lia|]. congruence.
Qed.
