(* Scans beside other operations: concrete runs. *)
From Verif Require Import Lib M_Tree M_Stampc M_Conc M_ConcRun Spec_Conc M_ConcScan Spec_ConcScan M_ScanRun P_ConcR P_Conc20 P_ScanA4.

Lemma ssteps_snoc s l s1 t x s2 : ssteps s l s1 -> sstep s1 t x = Some s2 -> ssteps s (l ++ [((t, x), s2)]) s2.
Proof. induction 1; intros E; simpl; econstructor; eauto. constructor. Qed.
Lemma ssteps_cat s l s1 m s2 : ssteps s l s1 -> ssteps s1 m s2 -> ssteps s (l ++ m) s2.
Proof. induction 1; intros E; simpl; [exact E|]. econstructor; eauto. Qed.
Definition s_from (s0 : sstt) (r : strace) : Prop := ssteps s0 (rev (fst r)) (snd r).
Lemma s_act s0 r t x : s_from s0 r -> s_from s0 (sact r t x).
Proof. unfold s_from, sact. intros H. destruct (sstep (snd r) t x) eqn:E; [|exact H]. cbn [fst snd rev]. exact (ssteps_snoc _ _ _ _ _ _ H E). Qed.
Lemma s_drive s0 f stop : forall r t, s_from s0 r -> s_from s0 (sdrive f stop r t).
Proof. induction f as [|f IH]; intros r t H; simpl; [exact H|]. destruct (stop _); [exact H|]. apply IH. now apply s_act. Qed.
Lemma s_fold s0 {A} (f : strace -> A -> strace) (Hf : forall r x, s_from s0 r -> s_from s0 (f r x)) : forall l r, s_from s0 r -> s_from s0 (fold_left f l r).
Proof. induction l as [|x l IH]; intros r H; simpl; [exact H|]. auto. Qed.
Lemma s_whole s0 r t y o : s_from s0 r -> s_from s0 (swhole r t y o). Proof. intros H. apply s_act, s_drive, s_act, H. Qed.
Lemma s_puts s0 r t l : s_from s0 r -> s_from s0 (sputs r t l). Proof. intros H. apply s_fold; [intros; now apply s_whole|exact H]. Qed.
Lemma s_rems s0 r t l : s_from s0 r -> s_from s0 (srems r t l). Proof. intros H. apply s_fold; [intros; now apply s_whole|exact H]. Qed.

(* ---- checking that a scan has run ---- *)
Definition is_scan (t : nat) (e : sevent) : bool := match snd e with SStart _ _ _ => (fst e =? t)%nat | _ => false end.
Definition scanb (l : list (sevent * sstt)) (i j t : nat) (rv : bool) (f : Z) (em all : bool) : bool :=
  match nth_error l i with Some ((t', SStart rv' f' em'), _) => (t' =? t)%nat && Bool.eqb rv' rv && (f' =? f) && Bool.eqb em' em | _ => false end &&
  (i <? j)%nat && (j <? length l)%nat && match sph (sc (sat l (S j)) t) with FDone a => Bool.eqb a all | _ => false end &&
  forallb (fun k => match nth_error l k with Some (e, _) => negb (is_scan t e) | None => true end) (seq (S i) (j - i)).
Definition result (l : list (sevent * sstt)) (j t : nat) : list (Z * Z) := rev (sout (sc (sat l (S j)) t)).
Lemma scanb_ok l i j t rv f em all : scanb l i j t rv f em all = true -> scanned l i j t rv f em (result l j t) all.
Proof.
  unfold scanb. intros H. apply andb_prop in H. destruct H as (H & H5). apply andb_prop in H. destruct H as (H & H4). apply andb_prop in H. destruct H as (H & H3). apply andb_prop in H. destruct H as (H1 & H2).
  apply Nat.ltb_lt in H2, H3. split.
  - destruct (nth_error l i) as [[[t' x] s0]|] eqn:E; [|discriminate]. destruct x as [|rv' f' em'|]; try discriminate. apply andb_prop in H1. destruct H1 as (H1 & D). apply andb_prop in H1. destruct H1 as (H1 & C). apply andb_prop in H1. destruct H1 as (A & B).
    apply Nat.eqb_eq in A. apply Bool.eqb_prop in B, D. apply Z.eqb_eq in C. subst. now exists s0.
  - split; [exact H2|]. split; [exact H3|]. split; [destruct (sph _); try discriminate; apply Bool.eqb_prop in H4; congruence|]. split; [reflexivity|].
    intros k rv' f' em' Hk (s0 & Q). assert (K : In k (seq (S i) (j - i))) by (apply in_seq; lia). pose proof (proj1 (forallb_forall _ _) H5 k K) as H6. cbv beta in H6. rewrite Q in H6. unfold is_scan in H6. cbn [fst snd] in H6. rewrite Nat.eqb_refl in H6. discriminate H6.
Qed.
Definition inb (k : Z) (l : list (Z * Z)) : bool := existsb (fun r => (fst r =? k) && (snd r =? k)) l.
Definition outb (k : Z) (l : list (Z * Z)) : bool := forallb (fun r => negb (fst r =? k)) l.
Lemma inb_ok k l : inb k l = true -> In (k, k) l.
Proof. intros H. apply existsb_exists in H. destruct H as ([a b] & A & B). cbn [fst snd] in B. apply andb_prop in B. destruct B as (B & C). apply Z.eqb_eq in B, C. now subst. Qed.
Lemma outb_ok k l : outb k l = true -> forall w, ~ In (k, w) l.
Proof. intros H w Q. pose proof (proj1 (forallb_forall _ _) H _ Q) as K. cbn [fst] in K. rewrite Z.eqb_refl in K. discriminate K. Qed.

(* ---- a leaf goes while two scans run ---- *)
Lemma ok_F : s_from sstart srunF.
Proof.
  unfold srunF, srunE, srunD, srunC, srunB, srunA. apply s_drive, s_drive, s_rems, s_puts, s_drive, s_act, s_drive, s_act, s_puts. constructor.
Qed.
Lemma exF : let l := rev (fst srunF) in let s := snd srunF in let i1 := length (fst srunA) in let j1 := (length (fst srunE) - 1)%nat in let i2 := length (fst srunB) in let j2 := (length (fst srunF) - 1)%nat in
  negb (misp (cs s)) && (negb (abnd (cs s)) && (dels (cs s) && (scanb l i1 j1 1 false 150 true true && (scanb l i2 j2 2 true 3900 false true &&
  (inb 680 (result l j1 1) && (outb 1600 (result l j1 1) && (inb 3310 (result l j2 2) && outb 3900 (result l j2 2)))))))) = true.
Proof. vm_compute. reflexivity. Qed.
Lemma scan_example : exists l s i1 j1 i2 j2 res1 res2, ssteps sstart l s /\ misp (cs s) = false /\ abnd (cs s) = false /\ dels (cs s) = true /\
  scanned l i1 j1 1 false 150 true res1 true /\ scanned l i2 j2 2 true 3900 false res2 true /\
  In (680, 680) res1 /\ (forall w, ~ In (1600, w) res1) /\ In (3310, 3310) res2 /\ (forall w, ~ In (3900, w) res2).
Proof.
  pose proof exF as H. cbv zeta in H. do 8 (let a := fresh "A" in apply andb_prop in H; destruct H as (a & H)). apply negb_true_iff in A, A0.
  do 8 eexists. split; [exact ok_F|]. split; [exact A|]. split; [exact A0|]. split; [exact A1|]. split; [exact (scanb_ok _ _ _ _ _ _ _ _ A2)|]. split; [exact (scanb_ok _ _ _ _ _ _ _ _ A3)|].
  split; [exact (inb_ok _ _ A4)|]. split; [exact (outb_ok _ _ A5)|]. split; [exact (inb_ok _ _ A6)|exact (outb_ok _ _ H)].
Qed.

(* ---- kinds of runs ---- *)
Definition noremb (l : list (sevent * sstt)) : bool := forallb (fun e => match snd (fst e) with SBase (Start _ ORem) => false | _ => true end) l.
Definition nogiveb (l : list (sevent * sstt)) : bool := forallb (fun e => match snd (fst e) with SBase Abandon => false | _ => true end) l.
Definition undelb (l : list (sevent * sstt)) : bool := forallb (fun e => forallb (fun a => negb (v_del (ver (nd (cs (snd e)) a)))) (seq 0 (fr (cs (snd e))))) l.
Lemma noremb_ok l : noremb l = true -> s_no_removals l.
Proof. intros H k t y (s & Q). apply nth_error_In in Q. pose proof (proj1 (forallb_forall _ _) H _ Q) as K. discriminate K. Qed.
Lemma nogiveb_ok l : nogiveb l = true -> s_no_giving_up l.
Proof. intros H k t (s & Q). apply nth_error_In in Q. pose proof (proj1 (forallb_forall _ _) H _ Q) as K. discriminate K. Qed.
Lemma undelb_ok l : undelb l = true -> s_undeleted l.
Proof.
  intros H k a Hk Ha. destruct k as [|k]; [unfold sat; cbn; destruct a; reflexivity|]. unfold sat in *. cbn [nth] in *. destruct (nth_error l k) as [e|] eqn:E; [|apply nth_error_None in E; lia].
  assert (Q : nth k (map snd l) sstart = snd e) by (apply nth_error_nth; now apply map_nth_error). rewrite Q in *. pose proof (proj1 (forallb_forall _ _) H _ (nth_error_In _ _ E)) as K. cbv beta in K.
  assert (In a (seq 0 (fr (cs (snd e))))) as Hin by (apply in_seq; lia). pose proof (proj1 (forallb_forall _ _) K a Hin) as K2. cbv beta in K2. now apply negb_true_iff in K2.
Qed.
(* Without removals. *)
Definition srunP : strace := sdrive 600 (scan_done 2) (sdrive 600 (scan_done 1) (sputs srunC 0 (zs 8 610 10 ++ zs 8 3310 10)) 1) 2.
Definition srunQ : strace := sdrive 600 (scan_done 2) (sdrive 600 (scan_done 1) (srems (sputs srunC 0 (zs 8 610 10 ++ zs 8 3310 10)) 0 (zs 4 1600 100)) 1) 2.
Lemma ok_P : s_from sstart srunP.
Proof. unfold srunP, srunC, srunB, srunA. apply s_drive, s_drive, s_puts, s_drive, s_act, s_drive, s_act, s_puts. constructor. Qed.
Lemma ok_Q : s_from sstart srunQ.
Proof. unfold srunQ, srunC, srunB, srunA. apply s_drive, s_drive, s_rems, s_puts, s_drive, s_act, s_drive, s_act, s_puts. constructor. Qed.
Lemma exP : let l := rev (fst srunP) in let j := (length l - 1)%nat in
  noremb l && (nogiveb l && (scanb l (length (fst srunB)) j 2 true 3900 false true && (inb 3310 (result l j 2) && inb 610 (result l j 2)))) = true.
Proof. vm_compute. reflexivity. Qed.
Lemma exQ : let l := rev (fst srunQ) in let j := (length l - 1)%nat in
  undelb l && (nogiveb l && (scanb l (length (fst srunB)) j 2 true 3900 false true && (inb 3310 (result l j 2) && outb 1600 (result l j 2)))) = true.
Proof. vm_compute. reflexivity. Qed.
Lemma scan_example_P : exists l s i j res, ssteps sstart l s /\ s_no_removals l /\ s_no_giving_up l /\ scanned l i j 2 true 3900 false res true /\ In (3310, 3310) res /\ In (610, 610) res.
Proof.
  pose proof exP as H. cbv zeta in H. do 4 (let a := fresh "A" in apply andb_prop in H; destruct H as (a & H)).
  do 5 eexists. split; [exact ok_P|]. split; [exact (noremb_ok _ A)|]. split; [exact (nogiveb_ok _ A0)|]. split; [exact (scanb_ok _ _ _ _ _ _ _ _ A1)|]. split; [exact (inb_ok _ _ A2)|exact (inb_ok _ _ H)].
Qed.
Lemma scan_example_Q : exists l s i j res, ssteps sstart l s /\ s_undeleted l /\ s_no_giving_up l /\ scanned l i j 2 true 3900 false res true /\ In (3310, 3310) res /\ forall w, ~ In (1600, w) res.
Proof.
  pose proof exQ as H. cbv zeta in H. do 4 (let a := fresh "A" in apply andb_prop in H; destruct H as (a & H)).
  do 5 eexists. split; [exact ok_Q|]. split; [exact (undelb_ok _ A)|]. split; [exact (nogiveb_ok _ A0)|]. split; [exact (scanb_ok _ _ _ _ _ _ _ _ A1)|]. split; [exact (inb_ok _ _ A2)|exact (outb_ok _ _ H)].
Qed.

(* ---- a scan that misses a row ---- *)
Lemma lift s l s' : steps s l s' -> forall f, (forall t, sph (f t) = FIdle) -> exists m f', ssteps (MkSS s f) m (MkSS s' f') /\ forall t, sph (f' t) = FIdle.
Proof.
  induction 1 as [s|s t x s1 l s2 E H IH]; intros f Hf; [exists [], f; split; [constructor|exact Hf]|].
  destruct (IH (fun t => let x := f t in with_ph x (follow s1 (sph x)))) as (m & f' & A & B); [intros t'; cbn [with_ph sph]; rewrite Hf; reflexivity|].
  exists (((t, SBase x), seen_by (MkSS s f) s1) :: m), f'. split; [|exact B]. econstructor; [|exact A]. unfold sstep. cbn [sc cs]. rewrite Hf. cbn [base_ok]. rewrite E. reflexivity.
Qed.
Definition lostS (f : nat -> scn) : sstt := MkSS (go (snd runG) 10 (PRoot 25600 OGet (rootp (snd runG)))) (setf f 10 (MkSc false 25600 true (rootp (snd runG)) 25600 false [] FInit)).
Definition lostT (f : nat -> scn) : strace := sdrive 200 (scan_done 10) ([], lostS f) 10.
Definition lost_chk (s : sstt) : bool := chk 20 25600 25600 (cs s).
Definition lostb (s1 : sstt) (r : strace) : bool :=
  lost_chk s1 && (forallb (fun e => lost_chk (snd e) && negb (is_scan 10 (fst e))) (rev (fst r)) && (negb (length (rev (fst r)) =? 0)%nat &&
  (match sph (sc (snd r) 10) with FDone true => true | _ => false end && (outb 25600 (rev (sout (sc (snd r) 10))) && negb (abnd (cs (snd r))))))).
Lemma lost_ok f : lostb (lostS f) (lostT f) = true.
Proof. vm_compute. reflexivity. Qed.
Lemma from_lost f : s_from (lostS f) (lostT f).
Proof. unfold lostT. apply s_drive. constructor. Qed.
Lemma lost_start f : (forall t, sph (f t) = FIdle) -> sstep (MkSS (snd runG) f) 10 (SStart false 25600 true) = Some (lostS f).
Proof. intros Hf. unfold sstep. cbn [sc cs]. rewrite Hf, runG_idle. reflexivity. Qed.
Opaque runG lostS lostT.
Lemma ssteps_end s l s' : ssteps s l s' -> s' = nth (length l) (s :: map snd l) sstart.
Proof. induction 1 as [s|s t x s1 l s2 E H IH]; [reflexivity|]. cbn [length map snd]. exact IH. Qed.
Lemma tail_state (l0 m : list (sevent * sstt)) k : (length l0 < k <= length l0 + length m)%nat -> exists e, In e m /\ sat (l0 ++ m) k = snd e.
Proof.
  intros H. destruct k as [|k]; [lia|]. unfold sat. cbn [nth]. rewrite map_app, app_nth2; rewrite map_length; [|lia]. destruct (nth_error m (k - length l0)) as [e|] eqn:E; [|apply nth_error_None in E; lia].
  exists e. split; [eapply nth_error_In; exact E|]. apply nth_error_nth. now apply map_nth_error.
Qed.
Lemma conc_scan_refuted : exists l s i j t rv f em res all, ssteps sstart l s /\ abnd (cs s) = false /\ scanned l i j t rv f em res all /\ ~ scan_true l i j rv f em res all.
Proof.
  destruct (lift _ _ _ ok_runG (fun _ => scn0) (fun _ => eq_refl)) as (l0 & f & H0 & Hf). change (MkSS start (fun _ => scn0)) with sstart in H0. pose proof (lost_start f Hf) as H1. pose proof (from_lost f) as H2. unfold s_from in H2.
  pose proof (lost_ok f) as C. unfold lostb in C. revert H2 C. generalize (rev (fst (lostT f))) as m. generalize (snd (lostT f)) as s. intros s m H2 C. do 5 (let a := fresh "A" in apply andb_prop in C; destruct C as (a & C)).
  apply negb_true_iff in C, A1. apply Nat.eqb_neq in A1. set (e1 := ((10%nat, SStart false 25600 true), lostS f)). assert (HA : ssteps sstart (l0 ++ e1 :: m) s) by (apply (ssteps_cat _ _ _ _ _ H0); econstructor; [exact H1|exact H2]).
  assert (Hs : sat (l0 ++ e1 :: m) (S (length l0 + length m)) = s).
  { rewrite (ssteps_end _ _ _ HA). unfold sat. rewrite app_length. cbn [length]. f_equal. lia. }
  pose proof (proj1 (forallb_forall _ _) A0) as B0. clear A0.
  exists (l0 ++ e1 :: m), s, (length l0), (length l0 + length m)%nat, 10%nat, false, 25600, true, (rev (sout (sc s 10))), true. split; [exact HA|]. split; [exact C|]. split.
  - split; [exists (lostS f); rewrite nth_error_app2, Nat.sub_diag by lia; reflexivity|]. split; [lia|]. split; [rewrite app_length; cbn [length]; lia|]. rewrite Hs. split; [destruct (sph (sc s 10)) as [| | | | | | | | | | | |[]]; try discriminate A2; reflexivity|]. split; [reflexivity|].
    intros k rv' f' em' Hk (s0 & Q). rewrite nth_error_app2 in Q by lia. destruct (k - length l0)%nat as [|i] eqn:Ei; [lia|]. cbn [nth_error] in Q. apply nth_error_In in Q. specialize (B0 _ Q). cbn [fst snd] in B0.
    apply andb_prop in B0. destruct B0 as (_ & B0). discriminate B0.
  - intros (_ & _ & T). destruct (T 25600) as (r & k & K1 & K2 & K3).
    + split; [right; split; reflexivity|clear; lia].
    + left. reflexivity.
    + assert (Hh : has (cs (sat (l0 ++ e1 :: m) k)) 25600 25600).
      { destruct (tail_state l0 (e1 :: m) k) as (e & He & ->); [cbn [length]; lia|]. apply (chk_has 20). destruct He as [<-|He]; [exact A|]. specialize (B0 _ He). apply andb_prop in B0. exact (proj1 B0). }
      apply K3 in Hh. subst r. exact (outb_ok _ _ A3 _ K1).
Qed.
