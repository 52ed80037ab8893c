(* Layers: the invariant, and how the layers hang together. *)
From Verif Require Import Lib M_Layers P_Layers1.

Definition thr (s : lst) (g : nat -> list Z) (p : lpc) : Prop :=
  match p with
  | LAt k o L r => (L < fl s)%nat /\ g L ++ r = k /\ (L = O \/ r <> [])
  | LKill L q => lkb s L q = true
  | _ => True
  end.
(* g L: the bytes above layer L. *)
Record LI (s : lst) (g : nat -> list Z) : Prop := {
  i_z : g O = [] /\ dead s O = false /\ (0 < fl s)%nat;
  i_lay : forall L q L', lget q (rws s L) = Some (RLay L') -> (L' < fl s)%nat /\ g L' = g L ++ fst q /\ length (fst q) = 8%nat /\ snd q = true /\ (dead s L' = true -> lkb s L q = true);
  i_par : forall L', (L' < fl s)%nat -> L' <> O -> dead s L' = false -> exists L q, lget q (rws s L) = Some (RLay L');
  i_dead : forall L, dead s L = true -> rws s L = [];
  i_new : forall L, (fl s <= L)%nat -> rws s L = [] /\ dead s L = false;
  i_suf : forall L q x v, lget q (rws s L) = Some (RSuf x v) -> snd q = true /\ x <> [] /\ length (fst q) = 8%nat;
  i_val : forall L q v, lget q (rws s L) = Some (RVal v) -> snd q = false;
  i_lk : forall L q, lkb s L q = true -> exists L', lget q (rws s L) = Some (RLay L') /\ dead s L' = true;
  i_thr : forall t, thr s g (pcs s t);
  i_own : forall t t' L q, pcs s t = LKill L q -> pcs s t' = LKill L q -> t = t'
}.

Section Inv.
  Variables (s : lst) (g : nat -> list Z).
  Hypothesis HI : LI s g.
  Lemma row_lt L q x : lget q (rws s L) = Some x -> (L < fl s)%nat.
  Proof. intros H. destruct (Nat.lt_ge_cases L (fl s)) as [F|F]; [exact F|]. rewrite (proj1 (i_new _ _ HI L F)) in H. discriminate. Qed.
  Lemma row_live L q x : lget q (rws s L) = Some x -> dead s L = false.
  Proof. intros H. destruct (dead s L) eqn:E; [|reflexivity]. rewrite (i_dead _ _ HI L E) in H. discriminate. Qed.
  Lemma g_nz L q L' : lget q (rws s L) = Some (RLay L') -> length (g L') = (length (g L) + 8)%nat /\ L' <> O.
  Proof.
    intros H. destruct (i_lay _ _ HI _ _ _ H) as (_ & A & B & _). assert (Q : length (g L') = (length (g L) + 8)%nat) by (rewrite A, app_length; lia). split; [exact Q|].
    intros ->. rewrite (proj1 (i_z _ _ HI)) in Q. cbn in Q. lia.
  Qed.
  Lemma app8 (a b c d : list Z) : length b = 8%nat -> length d = 8%nat -> a ++ b = c ++ d -> a = c /\ b = d.
  Proof.
    intros B D E. assert (F : length a = length c) by (apply (f_equal (@length Z)) in E; rewrite !app_length in E; lia).
    split; [apply (f_equal (firstn (length a))) in E|apply (f_equal (skipn (length a))) in E].
    - rewrite firstn_app, Nat.sub_diag, firstn_O, app_nil_r, firstn_all in E. rewrite E, F, firstn_app, Nat.sub_diag, firstn_O, app_nil_r, firstn_all. reflexivity.
    - rewrite skipn_app, Nat.sub_diag, skipn_all in E. rewrite F, skipn_app, Nat.sub_diag, skipn_all in E. exact E.
  Qed.
  Lemma g_inj : forall n L M, (length (g L) <= n)%nat -> (L < fl s)%nat -> (M < fl s)%nat -> dead s L = false -> dead s M = false -> g L = g M -> L = M.
  Proof.
    induction n as [|n IH]; intros L M Hn A B C D E.
    - destruct (Nat.eq_dec L 0) as [->|NL]; [|destruct (i_par _ _ HI L A NL C) as (P & q & H); destruct (g_nz _ _ _ H); lia].
      destruct (Nat.eq_dec M 0) as [->|NM]; [reflexivity|]. destruct (i_par _ _ HI M B NM D) as (P & q & H). destruct (g_nz _ _ _ H) as (H1 & _). rewrite <- E in H1. lia.
    - destruct (Nat.eq_dec L 0) as [->|NL]; destruct (Nat.eq_dec M 0) as [->|NM]; [reflexivity| | |].
      + destruct (i_par _ _ HI M B NM D) as (P & q & H). destruct (g_nz _ _ _ H) as (H1 & _). rewrite <- E, (proj1 (i_z _ _ HI)) in H1. cbn in H1. lia.
      + destruct (i_par _ _ HI L A NL C) as (P & q & H). destruct (g_nz _ _ _ H) as (H1 & _). rewrite E, (proj1 (i_z _ _ HI)) in H1. cbn in H1. lia.
      + destruct (i_par _ _ HI L A NL C) as (P & q & H). destruct (i_par _ _ HI M B NM D) as (P' & q' & H').
        destruct (i_lay _ _ HI _ _ _ H) as (_ & H1 & H2 & H3 & _). destruct (i_lay _ _ HI _ _ _ H') as (_ & H1' & H2' & H3' & _). rewrite H1, H1' in E.
        destruct (app8 _ _ _ _ H2 H2' E) as (E1 & E2). assert (Q : q = q') by (destruct q, q'; cbn in *; congruence). destruct (g_nz _ _ _ H) as (H4 & _).
        assert (P = P') by (apply IH; [lia|exact (row_lt _ _ _ H)|exact (row_lt _ _ _ H')|exact (row_live _ _ _ H)|exact (row_live _ _ _ H')|exact E1]). congruence.
  Qed.
  Lemma one_parent L q M p L' : lget q (rws s L) = Some (RLay L') -> lget p (rws s M) = Some (RLay L') -> L = M /\ q = p.
  Proof.
    intros H H'. destruct (i_lay _ _ HI _ _ _ H) as (_ & H1 & H2 & H3 & _). destruct (i_lay _ _ HI _ _ _ H') as (_ & H1' & H2' & H3' & _). rewrite H1 in H1'.
    destruct (app8 _ _ _ _ H2 H2' H1') as (E1 & E2). split; [|destruct q, p; cbn in *; congruence].
    apply (g_inj (length (g L))); [lia|exact (row_lt _ _ _ H)|exact (row_lt _ _ _ H')|exact (row_live _ _ _ H)|exact (row_live _ _ _ H')|exact E1].
  Qed.
  (* The table can be read off any layer in use. *)
  Lemma path : forall n L r v, (length (g L) <= n)%nat -> (L < fl s)%nat -> dead s L = false -> L = O \/ r <> [] -> (has s (g L ++ r) v <-> has_in s L r v).
  Proof.
    induction n as [|n IH]; intros L r v Hn A B C.
    - destruct (Nat.eq_dec L 0) as [->|N]; [rewrite (proj1 (i_z _ _ HI)); reflexivity|]. destruct (i_par _ _ HI L A N B) as (P & q & H). destruct (g_nz _ _ _ H); lia.
    - destruct (Nat.eq_dec L 0) as [->|N]; [rewrite (proj1 (i_z _ _ HI)); reflexivity|]. destruct C as [C|C]; [contradiction|]. destruct (i_par _ _ HI L A N B) as (P & q & H).
      destruct (i_lay _ _ HI _ _ _ H) as (_ & H1 & H2 & H3 & _). destruct (slice_app q r H2 H3 C) as (S1 & S2). destruct (g_nz _ _ _ H) as (H4 & _).
      rewrite H1, <- app_assoc, (IH P (fst q ++ r) v); [|lia|exact (row_lt _ _ _ H)|exact (row_live _ _ _ H)|right; destruct r, (fst q); cbn in *; congruence].
      rewrite <- S2 at 2. apply has_lay. now rewrite S1.
  Qed.
  Lemma path' k o L r v : thr s g (LAt k o L r) -> dead s L = false -> (has s k v <-> has_in s L r v).
  Proof. intros (A & <- & C) B. now apply (path (length (g L))). Qed.
  (* A key whose layer is being collected is absent. *)
  Lemma enter_dead L q L' r v : lget q (rws s L) = Some (RLay L') -> slice r = q -> dead s L' = true -> ~ has_in s L r v.
  Proof.
    intros H <- D Q. rewrite (has_lay _ _ _ _ _ H) in Q. inversion Q as [? ? ? E|? ? ? E|? ? ? ? E]; rewrite (i_dead _ _ HI _ D) in E; discriminate E.
  Qed.
  Lemma thr_root k o : thr s g (LAt k o 0 k).
  Proof. destruct (i_z _ _ HI) as (A & _ & B). cbn [thr]. rewrite A. auto. Qed.
  Lemma thr_down k o o' L r L' : thr s g (LAt k o L r) -> lget (slice r) (rws s L) = Some (RLay L') -> thr s g (LAt k o' L' (skipn 8 r)).
  Proof.
    intros (A & B & C) H. destruct (i_lay _ _ HI _ _ _ H) as (H0 & H1 & H2 & H3 & _). destruct (slice_long r _ eq_refl H3) as (Q1 & Q2 & _). cbn [thr]. split; [exact H0|]. split; [|now right].
    rewrite H1, <- app_assoc, <- Q1. exact B.
  Qed.
End Inv.

(* Every key has one entry, found by walking down. *)
Fixpoint look (n : nat) (s : lst) (L : nat) (r : list Z) : option Z :=
  match n with
  | O => None
  | S n' => match lget (slice r) (rws s L) with
            | Some (RVal v) => Some v
            | Some (RSuf x v) => if leqb x (skipn 8 r) then Some v else None
            | Some (RLay L') => look n' s L' (skipn 8 r)
            | None => None
            end
  end.
Lemma look_ok s g : LI s g -> forall n L r v, (length r < n)%nat -> (has_in s L r v <-> look n s L r = Some v).
Proof.
  intros HI. induction n as [|n IH]; intros L r v Hn; [lia|]. cbn [look]. destruct (lget (slice r) (rws s L)) as [[v0|x v0|L']|] eqn:E.
  - rewrite (has_val _ _ _ _ _ E). split; congruence.
  - rewrite (has_suf _ _ _ _ _ _ E). destruct (leqb x (skipn 8 r)) eqn:F; [apply leqb_ok in F; split; [intros (_ & ->); reflexivity|intros [= ->]; auto]|].
    split; [intros (Q & _); apply leqb_ok in Q; congruence|discriminate].
  - rewrite (has_lay _ _ _ _ _ E). apply IH. destruct (i_lay _ _ HI _ _ _ E) as (_ & _ & _ & H3 & _). rewrite slice_flag in H3. apply Nat.ltb_lt in H3. rewrite skipn_length. lia.
  - split; [intros H; now apply has_none in H|discriminate].
Qed.
Definition tab (s : lst) (k : list Z) : option Z := look (S (length k)) s 0 k.
Lemma tab_ok s g k : LI s g -> entry s k (tab s k).
Proof. intros HI v. apply (look_ok s g HI). lia. Qed.
Lemma entry_fun s k a b : entry s k a -> entry s k b -> a = b.
Proof.
  intros A B. destruct a as [v|].
  - symmetry. apply B, A. reflexivity.
  - destruct b as [v|]; [|reflexivity]. apply A, B. reflexivity.
Qed.
