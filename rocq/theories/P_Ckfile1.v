(* Checkpoint files: the directories a crash may leave, and single calls. *)
From Verif Require Import Lib M_Ckfile Spec_Ckfile.

Lemma name_eqb_eq a b : name_eqb a b = true <-> a = b.
Proof. destruct a, b; cbn; split; intros H; try congruence; try discriminate. - apply andb_prop in H. destruct H as [A B]. apply Nat.eqb_eq in A, B. congruence. - injection H as -> ->. now rewrite !Nat.eqb_refl. Qed.
Lemma name_eqb_refl a : name_eqb a a = true. Proof. now apply name_eqb_eq. Qed.
Lemma name_eqb_ne a b : a <> b -> name_eqb a b = false.
Proof. intros H. destruct (name_eqb a b) eqn:E; auto. apply name_eqb_eq in E. congruence. Qed.
Lemma name_dec (a b : name) : {a = b} + {a <> b}. Proof. decide equality; apply Nat.eq_dec. Qed.
Lemma dput_eq D a v : dput D a v a = v. Proof. unfold dput. now rewrite name_eqb_refl. Qed.
Lemma dput_ne D a v b : b <> a -> dput D a v b = D b. Proof. intros H. unfold dput. now rewrite name_eqb_ne. Qed.
Lemma put_eq {A} (f : nat -> A) o v : put f o v o = v. Proof. unfold put. now rewrite Nat.eqb_refl. Qed.
Lemma put_ne {A} (f : nat -> A) o v p : p <> o -> put f o v p = f p. Proof. intros H. unfold put. destruct (Nat.eqb_spec p o); congruence. Qed.
Lemma kept_snoc c : forall p keep, kept (p ++ [c]) keep = kept p keep ++ (if nth (length p) keep false then [c] else []).
Proof. induction p as [|d p IH]; intros [|k keep]. - reflexivity. - cbn. destruct k, keep; reflexivity. - reflexivity. - cbn. rewrite IH. now destruct k. Qed.
Lemma kept_all : forall l, kept l (repeat true (length l)) = l. Proof. induction l; cbn; congruence. Qed.

(* What is asked of the crashes: nothing is lost is possible, and a crash now may have been one before the last change;
   strong: the last change survives only with all before it. *)
Record okspec (ok : list dop -> list bool -> Prop) (strong : bool) : Prop := MkOk {
  ok_all : forall l, ok l (repeat true (length l));
  ok_snoc : forall p c keep, ok (p ++ [c]) keep -> ok p keep;
  ok_last : strong = true -> forall p c keep, ok (p ++ [c]) keep -> nth (length p) keep false = true -> kept p keep = p }.
Lemma any_ok : okspec any_order false. Proof. constructor; [intros; exact Logic.I|intros; exact Logic.I|intros E; discriminate]. Qed.
Lemma order_ok dk : (forall i, dk i = dk 0%nat) -> okspec (in_order dk) true.
Proof.
  intros Hd. assert (Hdisk : forall c, disk dk c = dk 0%nat) by (intros [[]|[]|]; cbn; auto). constructor.
  - induction l; cbn; auto. split; auto. intros E; discriminate.
  - induction p as [|d p IH]; intros c [|k keep]; cbn; auto. intros [H1 H2]. split; [|now apply (IH c)]. intros K. specialize (H1 K). rewrite kept_snoc in H1. apply Forall_app in H1. apply H1.
  - intros _. induction p as [|d p IH]; intros c [|k keep]; cbn; auto; try discriminate. intros [H1 H2] H3. destruct k; [f_equal; now apply (IH c)|]. specialize (H1 eq_refl). rewrite kept_snoc, H3 in H1. apply Forall_app in H1. destruct H1 as [_ H1]. inversion H1; subst. rewrite !Hdisk in *. congruence.
Qed.

Definition view (ok : list dop -> list bool -> Prop) (s : fs) (D : dir) : Prop := exists keep, ok (f_pend s) keep /\ D = dapplies (f_dur s) (kept (f_pend s) keep).
Definition cls (a : name) : name := match a with Gen => Tmp | _ => a end.
Definition pgood (n g : nat) (parts : list (list Z)) (s : fs) (D : dir) : Prop :=
  forall i, (i < n)%nat -> exists p, D (Ck g i) = Some p /\ f_safe s p = true /\ f_cur s p = nth i parts [].
Definition ggood (gen_of : list Z -> option nat) (g : nat) (s : fs) (D : dir) : Prop := exists o, D Gen = Some o /\ f_safe s o = true /\ gen_of (f_cur s o) = Some g.
Definition good (gen_of : list Z -> option nat) (n : nat) (s : fs) (D : dir) (x : ckpt) : Prop :=
  match x with None => D Gen = None | Some (h, parts) => ggood gen_of h s D /\ length parts = n /\ pgood n h parts s D end.

Section V.
Variables (ok : list dop -> list bool -> Prop) (strong : bool) (gen_of : list Z -> option nat) (n : nat).
Hypothesis OK : okspec ok strong.

Record inv (s : fs) (g : nat) (A : list ckpt) : Prop := MkInv {
  i_lt : forall D a o, view ok s D -> D a = Some o -> (o < f_next s)%nat;
  i_cls : forall D D' a b o, view ok s D -> view ok s D' -> D a = Some o -> D' b = Some o -> cls a = cls b;
  i_tg : forall D o, view ok s D -> D Tmp = Some o -> D Gen = Some o -> False;
  i_now : forall D o, view ok s D -> now s Tmp = Some o -> D Gen = Some o -> False;
  i_good : forall D, view ok s D -> exists x, good gen_of n s D x /\ (gen_no x <= g)%nat /\ In x A }.

Lemma now_view s : view ok s (now s).
Proof. exists (repeat true (length (f_pend s))). split; [apply (ok_all _ _ OK)|]. now rewrite kept_all. Qed.
(* All views, or the present directory when the last change survives only with all before it. *)
Definition av (s : fs) (D : dir) : Prop := if strong then D = now s else view ok s D.
Lemma av_view s D : av s D -> view ok s D. Proof. unfold av. destruct (Sumbool.sumbool_of_bool strong) as [St|St]; rewrite St; auto. intros ->. apply now_view. Qed.
Lemma av_now s : av s (now s). Proof. unfold av. destruct (Sumbool.sumbool_of_bool strong) as [St|St]; rewrite St; auto. apply now_view. Qed.
Lemma now_snoc s c cur safe nx : now (MkFs cur safe (f_dur s) (f_pend s ++ [c]) nx) = dapply (now s) c.
Proof. unfold now, dapplies. cbn [f_dur f_pend]. now rewrite fold_left_app. Qed.
Lemma view_snoc s c cur safe nx D : view ok (MkFs cur safe (f_dur s) (f_pend s ++ [c]) nx) D -> view ok s D \/ exists D0, av s D0 /\ D = dapply D0 c.
Proof.
  intros (keep & K & ->). cbn [f_dur f_pend] in *. rewrite kept_snoc. pose proof (ok_snoc _ _ OK _ _ _ K) as K1. destruct (nth _ keep false) eqn:E.
  - right. exists (dapplies (f_dur s) (kept (f_pend s) keep)). split; [|unfold dapplies; now rewrite fold_left_app]. unfold av. destruct (Sumbool.sumbool_of_bool strong) as [St|St]; rewrite St; [|exists keep; auto]. now rewrite (ok_last _ _ OK St _ _ _ K E).
  - left. rewrite app_nil_r. exists keep. auto.
Qed.
Lemma av_snoc s c cur safe nx D : av (MkFs cur safe (f_dur s) (f_pend s ++ [c]) nx) D -> (strong = false /\ view ok s D) \/ exists D0, av s D0 /\ D = dapply D0 c.
Proof.
  intros H. unfold av in H at 1. destruct (Sumbool.sumbool_of_bool strong) as [St|St]; rewrite St in H.
  - subst D. rewrite now_snoc. right. exists (now s). split; auto. apply av_now.
  - destruct (view_snoc _ _ _ _ _ _ H) as [H1|(D0 & H1 & H2)]; eauto.
Qed.
Lemma view_same s s' D : f_dur s' = f_dur s -> f_pend s' = f_pend s -> view ok s' D -> view ok s D.
Proof. intros E1 E2 (keep & K). exists keep. now rewrite <- E1, <- E2. Qed.
Lemma av_same s s' D : f_dur s' = f_dur s -> f_pend s' = f_pend s -> av s' D -> av s D.
Proof. unfold av, now. intros E1 E2. destruct (Sumbool.sumbool_of_bool strong) as [St|St]; rewrite St; [now rewrite E1, E2|now apply view_same]. Qed.

(* The call opens, writes or syncs file a, which is kvd-ckp-gen.tmp or of a later generation. *)
Definition later (g : nat) (a : name) : Prop := match a with Gen => False | Tmp => True | Ck h _ => (g < h)%nat end.
(* Same data in all files a view refers to by names of other classes. *)
Lemma file_call s g A a c : inv s g A -> later g a -> on a c = true ->
  (forall D b p, view ok s D -> D b = Some p -> cls b <> cls a -> f_cur (do_call s c) p = f_cur s p /\ f_safe (do_call s c) p = f_safe s p) /\
  (forall D p, view ok s D -> D Gen = Some p -> f_cur (do_call s c) p = f_cur s p /\ f_safe (do_call s c) p = f_safe s p) /\
  (forall b, b <> a -> now (do_call s c) b = now s b) /\
  (forall D, view ok (do_call s c) D -> exists D0, view ok s D0 /\ (forall b, b <> a -> D b = D0 b) /\ (D a = D0 a \/ D a = Some (f_next s) /\ (forall b, D0 b <> Some (f_next s)))) /\
  (forall D, av (do_call s c) D -> exists D0, av s D0 /\ forall b, b <> a -> D b = D0 b) /\
  (f_next s <= f_next (do_call s c))%nat /\ (forall D, view ok (do_call s c) D -> D a = Some (f_next s) -> (f_next s < f_next (do_call s c))%nat).
Proof.
  intros I La Ho. assert (Hc : c = Open a \/ (exists b, c = Write a b) \/ c = Fsync a). { destruct c; cbn in Ho; try discriminate; apply name_eqb_eq in Ho; subst; eauto. }
  assert (Nx : forall D b, view ok s D -> D b <> Some (f_next s)). { intros D b V E. pose proof (i_lt _ _ _ I _ _ _ V E). lia. }
  assert (Ne1 : forall o D b p, now s a = Some o -> view ok s D -> D b = Some p -> cls b <> cls a -> p <> o). { intros o D b p E V E2 Hn ->. apply Hn. exact (i_cls _ _ _ I _ _ _ _ _ V (now_view s) E2 E). }
  assert (Ne2 : forall o D p, now s a = Some o -> view ok s D -> D Gen = Some p -> p <> o). { intros o D p E V E2 ->. destruct a as [| |h i]; [destruct La| |]. - exact (i_now _ _ _ I _ _ V E E2). - discriminate (i_cls _ _ _ I _ _ _ _ _ V (now_view s) E2 E). }
  assert (Same : forall s', f_dur s' = f_dur s -> f_pend s' = f_pend s -> (f_next s' = f_next s) ->
    (forall o p, now s a = Some o -> p <> o -> f_cur s' p = f_cur s p /\ f_safe s' p = f_safe s p) -> (now s a = None -> s' = s) ->
    (forall D b p, view ok s D -> D b = Some p -> cls b <> cls a -> f_cur s' p = f_cur s p /\ f_safe s' p = f_safe s p) /\
    (forall D p, view ok s D -> D Gen = Some p -> f_cur s' p = f_cur s p /\ f_safe s' p = f_safe s p) /\
    (forall b, b <> a -> now s' b = now s b) /\
    (forall D, view ok s' D -> exists D0, view ok s D0 /\ (forall b, b <> a -> D b = D0 b) /\ (D a = D0 a \/ D a = Some (f_next s) /\ (forall b, D0 b <> Some (f_next s)))) /\
    (forall D, av s' D -> exists D0, av s D0 /\ forall b, b <> a -> D b = D0 b) /\
    (f_next s <= f_next s')%nat /\ (forall D, view ok s' D -> D a = Some (f_next s) -> (f_next s < f_next s')%nat)).
  { intros s' E1 E2 E3 H H0. split; [|split; [|split; [|split; [|split; [|split]]]]].
    - intros D b p V Eb Hn. destruct (now s a) as [o|] eqn:En; [|rewrite H0 by auto; auto]. apply (H o); auto. now apply (Ne1 o D b).
    - intros D p V Eb. destruct (now s a) as [o|] eqn:En; [|rewrite H0 by auto; auto]. apply (H o); auto. now apply (Ne2 o D).
    - intros b _. unfold now. now rewrite E1, E2.
    - intros D V. exists D. split; [now apply (view_same s s')|]. split; auto.
    - intros D V. exists D. split; auto. now apply (av_same s s').
    - lia.
    - intros D V E. exfalso. apply (view_same _ _ _ E1 E2) in V. exact (Nx _ _ V E). }
  destruct Hc as [-> |[(b & ->)| ->]]; cbn [do_call].
  - destruct (now s a) as [o|] eqn:En.
    + apply Same; auto; [|congruence]. intros o' p [= <-] Hp. cbn. now rewrite !put_ne.
    + clear Same. cbn [f_cur f_safe f_next]. split; [|split; [|split; [|split; [|split; [|split]]]]].
      * intros D b p V E _. pose proof (i_lt _ _ _ I _ _ _ V E). rewrite !put_ne by lia. auto.
      * intros D p V E. pose proof (i_lt _ _ _ I _ _ _ V E). rewrite !put_ne by lia. auto.
      * intros b Hb. rewrite now_snoc. cbn. now rewrite dput_ne.
      * intros D V. destruct (view_snoc _ _ _ _ _ _ V) as [V1|(D0 & V1 & ->)]; [exists D; auto|]. apply av_view in V1. exists D0. split; auto. cbn. split; [intros b Hb; now rewrite dput_ne|]. right. rewrite dput_eq. split; auto.
      * intros D V. destruct (av_snoc _ _ _ _ _ _ V) as [[St V1]|(D0 & V1 & ->)]; [exists D; split; auto; unfold av; now rewrite St|]. exists D0. split; auto. intros b Hb. cbn. now rewrite dput_ne.
      * lia.
      * intros. lia.
  - destruct (now s a) as [o|] eqn:En; [|now apply Same]. apply Same; auto; [|congruence]. intros o' p [= <-] Hp. cbn. now rewrite !put_ne.
  - destruct (now s a) as [o|] eqn:En; [|now apply Same]. apply Same; auto; [|congruence]. intros o' p [= <-] Hp. cbn. now rewrite !put_ne.
Qed.

Lemma later_cls g a h i : later g a -> (h <= g)%nat -> cls (Ck h i) <> cls a /\ Ck h i <> a.
Proof. destruct a; cbn; intros H1 H2; split; try congruence; try tauto; intros [= -> ->]; lia. Qed.
Lemma later_gen g a : later g a -> Gen <> a. Proof. destruct a; cbn; congruence || tauto. Qed.
Lemma good_file s g A a c D D0 x : inv s g A -> later g a -> on a c = true -> view ok s D0 -> (forall b, b <> a -> D b = D0 b) -> (gen_no x <= g)%nat -> good gen_of n s D0 x -> good gen_of n (do_call s c) D x.
Proof.
  intros I La Ho V E Hx. destruct (file_call s g A a c I La Ho) as (F1 & F2 & _). destruct x as [[h parts]|]; cbn [good gen_no] in *.
  - intros ((o & O1 & O2 & O3) & L & P). split; [|split; auto].
    + exists o. rewrite E by now apply (later_gen g). destruct (F2 D0 o V O1) as [-> ->]. auto.
    + intros i Hi. destruct (P i Hi) as (p & P1 & P2 & P3). exists p. destruct (later_cls g a h i La Hx) as [N1 N2]. rewrite E by auto. destruct (F1 D0 _ p V P1 N1) as [-> ->]. auto.
  - intros G. rewrite E; auto. now apply (later_gen g).
Qed.
Lemma inv_file s g A a c : inv s g A -> later g a -> on a c = true -> inv (do_call s c) g A.
Proof.
  intros I La Ho. destruct (file_call s g A a c I La Ho) as (F1 & F2 & F3 & F4 & _ & F5 & F6). constructor.
  - intros D b o V E. destruct (F4 D V) as (D0 & V0 & E1 & E2). destruct (name_dec b a) as [-> |Hb].
    + destruct E2 as [E2|[E2 _]]; [rewrite E2 in E; pose proof (i_lt _ _ _ I _ _ _ V0 E); lia|]. assert (o = f_next s) as -> by congruence. exact (F6 D V E).
    + rewrite E1 in E by auto. pose proof (i_lt _ _ _ I _ _ _ V0 E). lia.
  - intros D D' b b' o V V' E E'. destruct (F4 D V) as (D0 & V0 & E1 & E2). destruct (F4 D' V') as (D0' & V0' & E1' & E2').
    assert (K : forall D D0 b o, view ok s D0 -> (forall b, b <> a -> D b = D0 b) -> (D a = D0 a \/ D a = Some (f_next s) /\ (forall b, D0 b <> Some (f_next s))) -> D b = Some o -> D0 b = Some o \/ o = f_next s /\ b = a).
    { intros X X0 y q VX H1 H2 H3. destruct (name_dec y a) as [-> |Hy]; [|left; rewrite <- H1; auto]. destruct H2 as [H2|[H2 _]]; [left; congruence|right; split; congruence]. }
    destruct (K _ _ _ _ V0 E1 E2 E) as [K1|[K1 K2]], (K _ _ _ _ V0' E1' E2' E') as [K1'|[K1' K2']].
    + exact (i_cls _ _ _ I _ _ _ _ _ V0 V0' K1 K1'). + pose proof (i_lt _ _ _ I _ _ _ V0 K1). lia. + pose proof (i_lt _ _ _ I _ _ _ V0' K1'). lia. + congruence.
  - intros D o V E E'. destruct (F4 D V) as (D0 & V0 & E1 & E2). rewrite E1 in E' by now apply (later_gen g). destruct (name_dec Tmp a) as [<- |Ht].
    + destruct E2 as [E2|[E2 E3]]; [rewrite E2 in E; exact (i_tg _ _ _ I _ _ V0 E E')|]. apply (E3 Gen). congruence.
    + rewrite E1 in E by auto. exact (i_tg _ _ _ I _ _ V0 E E').
  - intros D o V E E'. destruct (F4 D V) as (D0 & V0 & E1 & E2). rewrite E1 in E' by now apply (later_gen g). destruct (name_dec Tmp a) as [<- |Ht].
    + (* the new file is no kvd-ckp-gen *)
      assert (E3 : now s Tmp = Some o \/ o = f_next s). { destruct c; cbn in Ho; try discriminate; apply name_eqb_eq in Ho; subst; cbn [do_call] in E; destruct (now s Tmp) as [q|] eqn:En.
        - unfold now in E, En. cbn [f_dur f_pend] in E. left. congruence. - rewrite now_snoc in E. cbn in E. unfold dput in E. cbn in E. right. congruence.
        - unfold now in E, En. cbn [f_dur f_pend] in E. left. congruence. - congruence. - unfold now in E, En. cbn [f_dur f_pend] in E. left. congruence. - congruence. }
      destruct E3 as [E3| ->]; [exact (i_now _ _ _ I _ _ V0 E3 E')|]. pose proof (i_lt _ _ _ I _ _ _ V0 E'). lia.
    + rewrite F3 in E by auto. exact (i_now _ _ _ I _ _ V0 E E').
  - intros D V. destruct (F4 D V) as (D0 & V0 & E1 & _). destruct (i_good _ _ _ I D0 V0) as (x & G & Gx & Ax). exists x. split; auto. now apply (good_file s g A a c D D0).
Qed.

Lemma inv_more s g A g' A' : inv s g A -> (g <= g')%nat -> incl A A' -> inv s g' A'.
Proof. intros [I1 I2 I3 I4 I5] Hg HA. constructor; auto. intros D V. destruct (I5 D V) as (x & G & Gx & Ax). exists x. split; auto. split; [lia|auto]. Qed.
Lemma inv_rename s g A parts o : inv s g A -> now s Tmp = Some o -> f_safe s o = true -> gen_of (f_cur s o) = Some (S g) -> length parts = n -> (forall D, av s D -> pgood n (S g) parts s D) ->
  inv (do_call s Rename) (S g) (A ++ [Some (S g, parts)]).
Proof.
  intros I T1 T2 T3 L P. cbn [do_call]. rewrite T1. set (s' := MkFs _ _ _ _ _).
  assert (K : forall D, view ok s' D -> view ok s D \/ exists D0, av s D0 /\ view ok s D0 /\ D = dapply D0 (DRen o)). { intros D V. destruct (view_snoc _ _ _ _ _ _ V) as [V1|(D0 & V1 & V2)]; auto. right. exists D0. split; auto. split; auto. now apply av_view. }
  assert (R : forall D0 b p, dapply D0 (DRen o) b = Some p -> (b = Gen /\ p = o) \/ (b <> Tmp /\ b <> Gen /\ D0 b = Some p)).
  { intros D0 b p. cbn. unfold dput. destruct b; cbn; intros E; [left; split; congruence|discriminate|right; repeat split; congruence]. }
  constructor.
  - intros D b p V E. change (f_next s') with (f_next s). destruct (K D V) as [V1|(D0 & _ & V1 & ->)]; [exact (i_lt _ _ _ I _ _ _ V1 E)|]. destruct (R _ _ _ E) as [[_ ->]|(_ & _ & E1)]; [exact (i_lt _ _ _ I _ _ _ (now_view s) T1)|exact (i_lt _ _ _ I _ _ _ V1 E1)].
  - assert (W : forall D b p, view ok s' D -> D b = Some p -> exists D0 b0, view ok s D0 /\ D0 b0 = Some p /\ cls b0 = cls b). { intros D b p V E. destruct (K D V) as [V1|(D0 & _ & V1 & ->)]; [exists D, b; auto|]. destruct (R _ _ _ E) as [[-> ->]|(_ & _ & E1)]; [exists (now s), Tmp; split; [apply now_view|auto]|exists D0, b; auto]. }
    intros D D' b b' p V V' E E'. destruct (W _ _ _ V E) as (D0 & b0 & V0 & E0 & <-). destruct (W _ _ _ V' E') as (D1 & b1 & V1 & E1 & <-). exact (i_cls _ _ _ I _ _ _ _ _ V0 V1 E0 E1).
  - intros D p V E E'. destruct (K D V) as [V1|(D0 & _ & V1 & ->)]; [exact (i_tg _ _ _ I _ _ V1 E E')|]. destruct (R _ _ _ E) as [[B _]|(B & _)]; congruence.
  - intros D p V E E'. unfold s' in E. rewrite now_snoc in E. cbn in E. unfold dput in E. cbn in E. discriminate.
  - intros D V. destruct (K D V) as [V1|(D0 & A1 & V1 & ->)].
    + destruct (i_good _ _ _ I D V1) as (x & G & Gx & Ax). exists x. split; [destruct x as [[h ps]|]; exact G|]. split; [lia|]. apply in_or_app. auto.
    + exists (Some (S g, parts)). split; [|split; [cbn; lia|apply in_or_app; right; now left]]. cbn [good]. split; [|split; auto].
      * exists o. split; [reflexivity|auto].
      * intros i Hi. destruct (P D0 A1 i Hi) as (p & P1 & P2 & P3). exists p. split; auto.
Qed.
Lemma inv_unlink s g A i : inv s (S g) A -> (forall D, av s D -> ggood gen_of (S g) s D) -> inv (do_call s (Unlink (Ck g i))) (S g) A /\ forall D, av (do_call s (Unlink (Ck g i))) D -> ggood gen_of (S g) (do_call s (Unlink (Ck g i))) D.
Proof.
  intros I H. cbn [do_call]. set (s' := MkFs _ _ _ _ _).
  assert (K : forall D, view ok s' D -> exists D0, view ok s D0 /\ (D = D0 \/ av s D0 /\ D = dapply D0 (DDel (Ck g i)))). { intros D V. destruct (view_snoc _ _ _ _ _ _ V) as [V1|(D0 & V1 & V2)]; [exists D; auto|]. exists D0. split; [now apply av_view|auto]. }
  assert (R : forall D D0 b p, (D = D0 \/ av s D0 /\ D = dapply D0 (DDel (Ck g i))) -> D b = Some p -> D0 b = Some p). { intros D D0 b p [-> |[_ ->]]; auto. cbn. unfold dput. destruct (name_eqb b (Ck g i)); auto; discriminate. }
  split.
  - constructor.
    + intros D b p V E. destruct (K D V) as (D0 & V0 & K0). exact (i_lt _ _ _ I _ _ _ V0 (R _ _ _ _ K0 E)).
    + intros D D' b b' p V V' E E'. destruct (K D V) as (D0 & V0 & K0). destruct (K D' V') as (D1 & V1 & K1). exact (i_cls _ _ _ I _ _ _ _ _ V0 V1 (R _ _ _ _ K0 E) (R _ _ _ _ K1 E')).
    + intros D p V E E'. destruct (K D V) as (D0 & V0 & K0). exact (i_tg _ _ _ I _ _ V0 (R _ _ _ _ K0 E) (R _ _ _ _ K0 E')).
    + intros D p V E E'. destruct (K D V) as (D0 & V0 & K0). unfold s' in E. rewrite now_snoc in E. cbn in E. unfold dput in E. cbn in E. exact (i_now _ _ _ I _ _ V0 E (R _ _ _ _ K0 E')).
    + intros D V. destruct (K D V) as (D0 & V0 & K0). destruct (i_good _ _ _ I D0 V0) as (x & G & Gx & Ax). exists x. split; auto. destruct K0 as [-> |[A0 ->]]; [destruct x as [[h ps]|]; exact G|].
      destruct (H D0 A0) as (o & O1 & O2 & O3). destruct x as [[h ps]|]; cbn [good] in *; [|cbn; unfold dput; cbn; congruence]. destruct G as ((o' & P1 & P2 & P3) & L & P). assert (o' = o) as -> by congruence. assert (h = S g) as -> by congruence.
      split; [exists o; split; auto|]. split; auto. intros j Hj. destruct (P j Hj) as (p & Q1 & Q2 & Q3). exists p. split; auto. cbn. rewrite dput_ne; auto. intros [= E]. lia.
  - intros D V. destruct (av_snoc _ _ _ _ _ _ V) as [[St V1]|(D0 & V1 & ->)].
    + destruct (H D) as (o & O); [unfold av; now rewrite St|]. exists o. exact O.
    + destruct (H D0 V1) as (o & O). exists o. exact O.
Qed.
Lemma view_sync s D : view ok (do_call s SyncAll) D -> D = now s. Proof. intros (keep & _ & ->). reflexivity. Qed.
Lemma inv_sync s g A A' x : inv s g A -> good gen_of n s (now s) x -> (gen_no x <= g)%nat -> In x A' -> inv (do_call s SyncAll) g A'.
Proof.
  intros I G Gx Ax. pose proof (now_view s) as Vn. constructor.
  - intros D a o V. rewrite (view_sync _ _ V). apply (i_lt _ _ _ I). exact Vn.
  - intros D D' a b o V V'. rewrite (view_sync _ _ V), (view_sync _ _ V'). now apply (i_cls _ _ _ I).
  - intros D o V. rewrite (view_sync _ _ V). now apply (i_tg _ _ _ I).
  - intros D o V. rewrite (view_sync _ _ V). now apply (i_tg _ _ _ I).
  - intros D V. rewrite (view_sync _ _ V). exists x. split; auto.
Qed.
End V.
