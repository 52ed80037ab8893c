(* Concurrent layer: what a thread knows, and that other threads' steps leave it true. *)
From Verif Require Import Lib M_Tree M_Stampc P_Stampc1 M_Conc P_Conc1.

Definition n2l (o : option (nat * Z)) : list nat := match o with Some (a, _) => [a] | None => [] end.
(* The nodes a thread has locked. *)
Definition holds (p : pct) : list nat :=
  match p with
  | PLocked _ _ n _ | WHave _ _ n | WUnl _ _ n _ => [n]
  | WUp _ _ tg n c _ _ _ => [tg; n; c]
  | WIn _ _ tg n c _ _ _ q => [tg; n; c; q]
  | WStrip _ _ tg n c _ _ q nc => [tg; n; c] ++ o2l q ++ n2l nc
  | WUnlN _ _ tg n c _ _ q nc => [tg; n; c] ++ o2l q ++ n2l nc
  | WUnlC _ _ tg c _ _ q nc => [tg; c] ++ o2l q ++ n2l nc
  | WNext _ _ tg _ _ q nc => [tg] ++ o2l q ++ n2l nc
  | WReady _ _ tg => [tg]
  | DMark _ _ n | DUnlink _ _ n | DUp _ _ n _ _ => [n]
  | DIn _ _ n _ _ q => [n; q]
  | DRed _ _ n q cur _ _ => [n; q; cur]
  | DRedU _ _ n q cur q2 _ _ => [n; q; cur; q2]
  | DRedW _ _ n q _ q2 _ _ => [n; q; q2]
  | DRedE _ _ n q q2 _ => [n; q; q2]
  | DUnl _ _ n q _ => [n; q]
  | DNext _ _ q _ => [q]
  | _ => []
  end.
Definition ncof (q : option nat) (nc : option (nat * Z)) : option (nat * nat) :=
  match q, nc with Some a, Some (c, _) => Some (a, c) | _, _ => None end.
Definition pdof (p : pct) : option (nat * nat) :=
  match p with
  | WUp _ _ _ n c _ _ _ | WIn _ _ _ n c _ _ _ _ => Some (n, c)
  | WStrip _ _ _ _ _ _ _ q nc | WUnlN _ _ _ _ _ _ _ q nc | WUnlC _ _ _ _ _ _ q nc | WNext _ _ _ _ _ q nc => ncof q nc
  | _ => None
  end.
Definition usof (p : pct) : option (nat * nat) :=
  match p with
  | WUp _ _ _ n c _ O _ | WIn _ _ _ n c _ O _ _ | WStrip _ _ _ n c _ _ _ _ => Some (n, c)
  | _ => None
  end.
Definition rpof (p : pct) : option (nat * nat) :=
  match p with DUp _ _ n _ (Some r) | DIn _ _ n _ (Some r) _ => Some (n, r) | _ => None end.
Definition zeof (p : pct) : option nat :=
  match p with
  | WUp _ _ tg _ _ _ (S _) _ | WIn _ _ tg _ _ _ (S _) _ _ | WUnlN _ _ tg _ _ _ _ _ _ | WUnlC _ _ tg _ _ _ _ _ | WNext _ _ tg _ _ _ _
  | WReady _ _ tg => Some tg
  | _ => None
  end.

Definition yr (y : Z) : Prop := 0 <= y < INF.
Definition KK (s : cst) (g : gst) (n : nat) (v : cver) (y : Z) : Prop :=
  (n < fr s)%nat /\ stbl v /\ vle v (ver (nd s n)) /\ l0 g n <= y.
Definition JJ (s : cst) (g : gst) (n : nat) (v : cver) (y : Z) : Prop :=
  KK s g n v y /\ (nosplit v (ver (nd s n)) -> y < rh g n).
Definition TG (s : cst) (g : gst) (tg : nat) (y : Z) : Prop :=
  linked s g tg /\ lo (nd s tg) <= y < hh g tg /\ v_del (ver (nd s tg)) = false.
Definition SK (g : gst) (c : nat) (sk : Z) : Prop := l0 g c <= sk /\ aft g sk c.
Definition SF (s : cst) (g : gst) (y : Z) (tg n c : nat) (sk : Z) (h : nat) : Prop :=
  SK g c sk /\
  match h with
  | O => linked s g n /\ linked s g c /\ lo (nd s c) = sk /\ tg = (if y <? sk then n else c) /\ lo (nd s n) <= y < hh g c /\
         v_del (ver (nd s n)) = false /\ v_del (ver (nd s c)) = false /\
         (sk <= y -> exists x, x < sk /\ row_get x (rws (nd s n)) <> None)
  | S _ => isl (nd s n) = false /\ TG s g tg y
  end.
Definition PF (s : cst) (g : gst) (q : option nat) (nc : option (nat * Z)) : Prop :=
  match q with
  | Some q => isl (nd s q) = false /\ match nc with Some (c, sk) => SK g c sk | None => True end
  | None => True
  end.
Definition NE (n : nat) (q : option nat) (nc : option (nat * Z)) : Prop := forall a, In a (o2l q ++ n2l nc) -> a <> n.
Definition DF (s : cst) (g : gst) (n : nat) (rep : option nat) : Prop :=
  (isl (nd s n) = true -> ll g n = hh g n /\ rep = None /\ ul g n = true) /\ (isl (nd s n) = false -> kids (nd s n) = [None]) /\
  (rep = None -> 0 < l0 g n) /\ par (nd s n) <> None.
Definition RF (g : gst) (cur : nat) (rik : Z) : Prop := l0 g cur <= rik /\ aft g rik cur.

Definition JI (s : cst) (g : gst) (p : pct) : Prop :=
  match p with
  | Idle | PDone _ _ _ => True
  | PCrash => False
  | PRoot y _ n | PUp y _ n => yr y /\ (n < fr s)%nat /\ l0 g n = 0
  | PIn y _ n v l u => yr y /\ JJ s g n v y /\ isl (nd s n) = false /\
      (same s n v = true -> (l <= length (keys (nd s n)))%nat /\
         (forall c, nth l (kids (nd s n)) None = Some c -> l0 g c <= y) /\
         (forall b, u = Some b -> forall c, nth b (kids (nd s n)) None = Some c -> y < ehi g c))
  | PKid y _ n v c => yr y /\ JJ s g n v y /\ isl (nd s n) = false /\ (c < fr s)%nat /\
      (same s n v = true -> In (Some c) (kids (nd s n)) /\ l0 g c <= y /\ y < ehi g c)
  | PChk y _ n v c vc => yr y /\ JJ s g n v y /\ isl (nd s n) = false /\ (c < fr s)%nat /\ stbl vc /\ vle vc (ver (nd s c)) /\
      (same s n v = true -> l0 g c <= y /\ (nosplit vc (ver (nd s c)) -> y < rh g c))
  | PRe y _ n v => yr y /\ JJ s g n v y /\ isl (nd s n) = false
  | PLast y _ n v vi => yr y /\ KK s g n v y /\ KK s g n vi y /\ isl (nd s n) = false
  | PLastC y _ n v vi gt => yr y /\ KK s g n v y /\ KK s g n vi y /\ isl (nd s n) = false /\
      (gt = false -> same s n vi = true -> y < rh g n)
  | PLeaf y _ n v => yr y /\ KK s g n v y /\ isl (nd s n) = true /\ (v_del v = false -> nosplit v (ver (nd s n)) -> y < rh g n)
  | PRead y _ n v _ => yr y /\ JJ s g n v y /\ isl (nd s n) = true /\ v_del v = false
  | PLocked y o n v => yr y /\ JJ s g n v y /\ isl (nd s n) = true /\ v_del v = false /\ o <> OGet
  | PAdv y _ n v => yr y /\ JJ s g n v y /\ isl (nd s n) = true
  | PLLast y _ n v vi => yr y /\ KK s g n v y /\ KK s g n vi y /\ isl (nd s n) = true
  | PLLastC y _ n v vi gt => yr y /\ KK s g n v y /\ KK s g n vi y /\ isl (nd s n) = true /\
      (gt = false -> same s n vi = true -> y < rh g n)
  | PWalk y _ n v => yr y /\ KK s g n v y /\ isl (nd s n) = true
  | PNext y _ n => yr y /\ (n < fr s)%nat /\ isl (nd s n) = true /\ l0 g n <= y
  | WHave y o n => yr y /\ o <> OGet /\ TG s g n y
  | WUnl _ _ _ _ => True
  | WUp y w tg n c sk h st => yr y /\ SF s g y tg n c sk h
  | WIn y w tg n c sk h st p => yr y /\ SF s g y tg n c sk h /\ isl (nd s p) = false /\ p <> n /\ p <> c
  | WStrip y w tg n c sk st q nc => yr y /\ SF s g y tg n c sk 0 /\ PF s g q nc /\ NE n q nc /\ NE c q nc /\ par (nd s n) <> None
  | WUnlN y w tg n c _ _ q nc => yr y /\ TG s g tg y /\ PF s g q nc /\ NE n q nc /\ NE c q nc /\ n <> c
  | WUnlC y w tg c _ _ q nc => yr y /\ TG s g tg y /\ PF s g q nc /\ NE c q nc
  | WNext y w tg _ _ q nc => yr y /\ TG s g tg y /\ PF s g q nc
  | WReady y w tg => yr y /\ TG s g tg y
  | DMark y r n => linked s g n /\ rws (nd s n) = [] /\ lo (nd s n) <> 0 /\ v_del (ver (nd s n)) = false
  | DUnlink y r n => linked s g n /\ lo (nd s n) <> 0 /\ v_del (ver (nd s n)) = true
  | DUp y r n ik rep => DF s g n rep
  | DIn y r n ik rep p => DF s g n rep /\ isl (nd s p) = false /\ p <> n
  | DRed y r n p cur ik rik => isl (nd s p) = false /\ v_del (ver (nd s p)) = false /\ isl (nd s cur) = false /\ n <> p /\ n <> cur /\ 0 < l0 g cur /\ RF g cur rik
  | DRedU y r n p cur p2 ik rik => isl (nd s p) = false /\ v_del (ver (nd s p)) = false /\ 0 < l0 g cur /\ isl (nd s p2) = false /\ n <> p /\ n <> cur /\ p2 <> n /\ p2 <> p /\ p2 <> cur /\
      (cur < fr s)%nat /\ par (nd s cur) = Some p2 /\ RF g cur rik
  | DRedW y r n p cur p2 ik rik => isl (nd s p) = false /\ v_del (ver (nd s p)) = false /\ 0 < l0 g cur /\ isl (nd s p2) = false /\ n <> p /\ p2 <> n /\ p2 <> p /\
      (cur < fr s)%nat /\ par (nd s cur) = Some p2 /\ RF g cur rik
  | DRedE y r n p p2 rik => isl (nd s p) = false /\ v_del (ver (nd s p)) = false /\ n <> p /\ p2 <> n /\ p2 <> p
  | DUnl y r n p ik => isl (nd s p) = false /\ v_del (ver (nd s p)) = false /\ n <> p
  | DNext y r p ik => isl (nd s p) = false /\ v_del (ver (nd s p)) = false
  end.

Definition LI (s : cst) : Prop :=
  (forall t a, In a (holds (pcs s t)) -> (a < fr s)%nat /\ v_lk (ver (nd s a)) = true) /\
  (forall t t' a, In a (holds (pcs s t)) -> In a (holds (pcs s t')) -> t = t').
Definition LK (s : cst) (g : gst) : Prop :=
  (forall a c, pd g a = Some c <-> exists t, pdof (pcs s t) = Some (a, c)) /\
  (forall a c, us g a = Some c <-> exists t, usof (pcs s t) = Some (a, c)) /\
  (forall a c, rp g a = Some c <-> exists t, rpof (pcs s t) = Some (a, c)) /\
  (forall a, ze g a = true -> exists t, zeof (pcs s t) = Some a).

Record Frame (s : cst) (g : gst) (s' : cst) (g' : gst) (t : nat) : Prop := {
  fm_node : forall t' a, t' <> t -> In a (holds (pcs s t')) ->
    ver (nd s' a) = ver (nd s a) /\ rws (nd s' a) = rws (nd s a) /\ keys (nd s' a) = keys (nd s a) /\ kids (nd s' a) = kids (nd s a) /\
    ul g' a = ul g a /\ ll g a <= ll g' a /\ hh g a <= hh g' a /\ (ll g a = hh g a -> ll g' a = hh g' a) /\
    l0 g' a = l0 g a /\ sp g' a = sp g a;
  fm_par : forall t' a c, t' <> t -> In a (holds (pcs s t')) -> (c < fr s)%nat -> par (nd s c) = Some a ->
    par (nd s' c) = Some a /\ ll g c <= ll g' c /\ sp g c <= sp g' c;
  fm_lo : forall a, (a < fr s)%nat -> lo (nd s' a) = lo (nd s a);
  fm_pc : forall t', t' <> t -> pcs s' t' = pcs s t'
}.

(* ---- who holds what ---- *)
Lemma pdof_holds p a c : pdof p = Some (a, c) -> In a (holds p) /\ In c (holds p).
Proof.
  destruct p; simpl; try discriminate; unfold ncof;
    try (intros E; injection E as -> ->; simpl; tauto);
    destruct p; try discriminate; destruct nc as [[? ?]|]; try discriminate; intros E; injection E as -> ->; simpl; tauto.
Qed.
Lemma usof_holds p a c : usof p = Some (a, c) -> In a (holds p) /\ In c (holds p).
Proof. destruct p; simpl; try discriminate; try (destruct h; try discriminate); intros E; injection E as -> ->; simpl; tauto. Qed.
Lemma rpof_holds p a c : rpof p = Some (a, c) -> In a (holds p).
Proof. destruct p; simpl; try discriminate; destruct rep; try discriminate; intros E; injection E as -> ->; simpl; tauto. Qed.
Lemma zeof_holds p a : zeof p = Some a -> In a (holds p).
Proof. destruct p; simpl; try discriminate; try (destruct h; try discriminate); intros E; injection E as ->; simpl; tauto. Qed.

Lemma pd_mine s g t a c : LI s -> LK s g -> In a (holds (pcs s t)) -> pd g a = Some c -> pdof (pcs s t) = Some (a, c).
Proof.
  intros (_ & Hu) (H & _) Ha Hp. apply H in Hp. destruct Hp as (t' & Hp). pose proof (proj1 (pdof_holds _ _ _ Hp)) as H1.
  rewrite (Hu t t' a Ha H1). exact Hp.
Qed.
Lemma us_mine s g t a c : LI s -> LK s g -> In a (holds (pcs s t)) -> us g a = Some c -> usof (pcs s t) = Some (a, c).
Proof.
  intros (_ & Hu) (_ & H & _) Ha Hp. apply H in Hp. destruct Hp as (t' & Hp). pose proof (proj1 (usof_holds _ _ _ Hp)) as H1.
  rewrite (Hu t t' a Ha H1). exact Hp.
Qed.
Lemma rp_mine s g t a c : LI s -> LK s g -> In a (holds (pcs s t)) -> rp g a = Some c -> rpof (pcs s t) = Some (a, c).
Proof.
  intros (_ & Hu) (_ & _ & H & _) Ha Hp. apply H in Hp. destruct Hp as (t' & Hp). pose proof (rpof_holds _ _ _ Hp) as H1.
  rewrite (Hu t t' a Ha H1). exact Hp.
Qed.
Lemma ze_mine s g t a : LI s -> LK s g -> In a (holds (pcs s t)) -> ze g a = true -> zeof (pcs s t) = Some a.
Proof.
  intros (_ & Hu) (_ & _ & _ & H) Ha Hp. apply H in Hp. destruct Hp as (t' & Hp). pose proof (zeof_holds _ _ Hp) as H1.
  rewrite (Hu t t' a Ha H1). exact Hp.
Qed.
Lemma held_locked s a : LI s -> v_lk (ver (nd s a)) = false -> forall t, ~ In a (holds (pcs s t)).
Proof. intros (H & _) Hl t Ha. destruct (H t a Ha). congruence. Qed.
(* A node nobody can have locked carries nothing. *)
Lemma free_pd s g a : LI s -> LK s g -> v_lk (ver (nd s a)) = false -> pd g a = None.
Proof.
  intros Hl (H & _) Hk. destruct (pd g a) as [c|] eqn:E; [|reflexivity]. exfalso. apply H in E. destruct E as (t & E).
  exact (held_locked s a Hl Hk t (proj1 (pdof_holds _ _ _ E))).
Qed.
Lemma free_us s g a : LI s -> LK s g -> v_lk (ver (nd s a)) = false -> us g a = None.
Proof.
  intros Hl (_ & H & _) Hk. destruct (us g a) as [c|] eqn:E; [|reflexivity]. exfalso. apply H in E. destruct E as (t & E).
  exact (held_locked s a Hl Hk t (proj1 (usof_holds _ _ _ E))).
Qed.

(* ---- keeping the links between ghost and threads ---- *)
Section Link.
  Variables (s : cst) (t : nat) (p' : pct).
  Hypothesis HL : LI s.
  Lemma link_gen (f : pct -> option (nat * nat)) (Hf : forall p a c, f p = Some (a, c) -> In a (holds p)) (q q' : nat -> option nat) :
    (forall a c, q a = Some c <-> exists t, f (pcs s t) = Some (a, c)) ->
    (forall a c, q' a = Some c <-> (q a = Some c /\ f (pcs s t) <> Some (a, c)) \/ f p' = Some (a, c)) ->
    forall a c, q' a = Some c <-> exists t0, f (setf (pcs s) t p' t0) = Some (a, c).
  Proof.
    intros H H' a c. rewrite H'. split.
    - intros [(H1 & H2)|H1].
      + apply H in H1. destruct H1 as (t0 & H1). exists t0. rewrite setf_other; [exact H1|]. intros ->. contradiction.
      + exists t. now rewrite setf_same.
    - intros (t0 & H1). destruct (Nat.eq_dec t0 t) as [->|Hn].
      + rewrite setf_same in H1. now right.
      + rewrite setf_other in H1 by exact Hn. left. split; [apply H; eauto|]. intros H2.
        apply Hn. exact (proj2 HL t0 t a (Hf _ _ _ H1) (Hf _ _ _ H2)).
  Qed.
  Lemma link_ze (q q' : nat -> bool) :
    (forall a, q a = true -> exists t, zeof (pcs s t) = Some a) ->
    (forall a, q' a = true -> (q a = true /\ zeof (pcs s t) <> Some a) \/ zeof p' = Some a) ->
    forall a, q' a = true -> exists t0, zeof (setf (pcs s) t p' t0) = Some a.
  Proof.
    intros H H' a Ha. destruct (H' a Ha) as [(H1 & H2)|H1].
    - apply H in H1. destruct H1 as (t0 & H1). exists t0. rewrite setf_other; [exact H1|]. intros ->. contradiction.
    - exists t. now rewrite setf_same.
  Qed.
  Lemma LK_setf g (s' : cst) : (forall t0, pcs s' t0 = setf (pcs s) t p' t0) ->
    (forall a c, pd g a = Some c <-> exists t0, pdof (setf (pcs s) t p' t0) = Some (a, c)) ->
    (forall a c, us g a = Some c <-> exists t0, usof (setf (pcs s) t p' t0) = Some (a, c)) ->
    (forall a c, rp g a = Some c <-> exists t0, rpof (setf (pcs s) t p' t0) = Some (a, c)) ->
    (forall a, ze g a = true -> exists t0, zeof (setf (pcs s) t p' t0) = Some a) -> LK s' g.
  Proof.
    intros E A B C D. split; [|split; [|split]].
    - intros a c. rewrite A. split; intros (t0 & H); exists t0; rewrite ?E in *; rewrite ?E; exact H.
    - intros a c. rewrite B. split; intros (t0 & H); exists t0; rewrite ?E in *; rewrite ?E; exact H.
    - intros a c. rewrite C. split; intros (t0 & H); exists t0; rewrite ?E in *; rewrite ?E; exact H.
    - intros a H. destruct (D a H) as (t0 & K). exists t0. rewrite E. exact K.
  Qed.
  (* How each ghost field may change with the thread's place. *)
  Definition lnk (f : pct -> option (nat * nat)) (q q' : nat -> option nat) : Prop :=
    forall a c, q' a = Some c <-> (q a = Some c /\ f (pcs s t) <> Some (a, c)) \/ f p' = Some (a, c).
  Lemma lnk_same (f : pct -> option (nat * nat)) q : (forall a c, q a = Some c <-> exists t, f (pcs s t) = Some (a, c)) ->
    f p' = f (pcs s t) -> lnk f q q.
  Proof.
    intros A H1 a' c'. rewrite H1. split.
    - intros HH. destruct (f (pcs s t)) as [[x1 x2]|] eqn:Ep; [|left; split; [exact HH|congruence]].
      destruct (Nat.eq_dec x1 a') as [->|]; [destruct (Nat.eq_dec x2 c') as [->|]; [now right|]|]; (left; split; [exact HH|congruence]).
    - intros [(HH & _)|HH]; [exact HH|apply A; eauto].
  Qed.
  Lemma lnk_off (f : pct -> option (nat * nat)) (q q' : nat -> option nat) n c :
    f (pcs s t) = Some (n, c) -> f p' = None -> (forall a, q' a = if (a =? n)%nat then None else q a) -> q n = Some c -> lnk f q q'.
  Proof.
    intros E E2 H Hn a' c'. rewrite H, E2, E. destruct (Nat.eqb_spec a' n) as [->|N].
    - split; [discriminate|]. intros [(A & B)|A]; [|discriminate]. congruence.
    - split; [intros A; left; split; [exact A|congruence]|]. intros [(A & B)|A]; [exact A|discriminate].
  Qed.
  Lemma lnk_on (f : pct -> option (nat * nat)) (q q' : nat -> option nat) n c :
    f (pcs s t) = None -> f p' = Some (n, c) -> (forall a, q' a = if (a =? n)%nat then Some c else q a) -> q n = None -> lnk f q q'.
  Proof.
    intros E E2 H Hn a' c'. rewrite H, E2, E. destruct (Nat.eqb_spec a' n) as [->|N].
    - split; [intros K; right; congruence|]. intros [(A & B)|A]; congruence.
    - split; [intros A; left; split; congruence|]. intros [(A & B)|A]; [exact A|congruence].
  Qed.
  Lemma lnk_none (f : pct -> option (nat * nat)) q q' : f (pcs s t) = None -> f p' = None -> (forall a, q' a = q a) -> lnk f q q'.
  Proof. intros E E2 H a c. rewrite H, E, E2. split; [intros A; left; split; congruence|]. intros [(A & _)|A]; [exact A|discriminate]. Qed.
  Lemma LK_step g g' (s' : cst) : LK s g -> (forall t0, pcs s' t0 = setf (pcs s) t p' t0) ->
    lnk pdof (pd g) (pd g') -> lnk usof (us g) (us g') -> lnk rpof (rp g) (rp g') ->
    (forall a, ze g' a = true -> (ze g a = true /\ zeof (pcs s t) <> Some a) \/ zeof p' = Some a) -> LK s' g'.
  Proof.
    intros (A & B & C & D) E H1 H2 H3 H4. apply LK_setf; [exact E| | | |].
    - apply (link_gen pdof (fun p a c H => proj1 (pdof_holds p a c H)) (pd g)); assumption.
    - apply (link_gen usof (fun p a c H => proj1 (usof_holds p a c H)) (us g)); assumption.
    - apply (link_gen rpof (fun p a c H => rpof_holds p a c H) (rp g)); assumption.
    - apply (link_ze (ze g)); assumption.
  Qed.
  Lemma ze_same q : (forall a, q a = true -> exists t, zeof (pcs s t) = Some a) -> zeof (pcs s t) = None \/ zeof p' = zeof (pcs s t) ->
    forall a : nat, q a = true -> (q a = true /\ zeof (pcs s t) <> Some a) \/ zeof p' = Some a.
  Proof.
    intros D H4 a Ha. destruct H4 as [H4|H4].
    - left. split; [exact Ha|congruence].
    - rewrite H4. destruct (zeof (pcs s t)) as [x|] eqn:Ez.
      + destruct (Nat.eq_dec x a) as [->|]; [now right|left; split; congruence].
      + left. split; congruence.
  Qed.
  (* Nothing about pd, us, rp, ze changes. *)
  Lemma link_same g (s' : cst) : LK s g -> (forall t0, pcs s' t0 = setf (pcs s) t p' t0) ->
    pdof p' = pdof (pcs s t) -> usof p' = usof (pcs s t) -> rpof p' = rpof (pcs s t) ->
    (zeof (pcs s t) = None \/ zeof p' = zeof (pcs s t)) -> LK s' g.
  Proof.
    intros L E H1 H2 H3 H4. pose proof L as (A & B & C & D).
    apply (LK_step g g s' L E); [now apply lnk_same|now apply lnk_same|now apply lnk_same|now apply ze_same].
  Qed.
End Link.

Lemma LI_step s g s' g' t p' : LI s -> Frame s g s' g' t -> (forall t0, pcs s' t0 = setf (pcs s) t p' t0) -> (fr s <= fr s')%nat ->
  (forall a, In a (holds p') -> (In a (holds (pcs s t)) \/ (fr s <= a)%nat \/ v_lk (ver (nd s a)) = false) /\
     (a < fr s')%nat /\ v_lk (ver (nd s' a)) = true) ->
  LI s'.
Proof.
  intros (H1 & H2) F E Hfr H. split.
  - intros t0 a. rewrite (E t0). destruct (Nat.eq_dec t0 t) as [->|Hn].
    + rewrite setf_same. intros Ha. exact (proj2 (H a Ha)).
    + rewrite setf_other by exact Hn. intros Ha. destruct (H1 _ _ Ha) as (A & B).
      destruct (fm_node _ _ _ _ _ F t0 a Hn Ha) as (C & _). rewrite C. split; [lia|exact B].
  - assert (K : forall t0 a, t0 <> t -> In a (holds (pcs s t0)) -> In a (holds p') -> False).
    { intros t0 a Hn Ha Hb. destruct (H a Hb) as (Hc & _). destruct (H1 _ _ Ha) as (A & B). destruct Hc as [Hc|[Hc|Hc]].
      - apply Hn. exact (H2 _ _ _ Ha Hc).
      - lia.
      - congruence. }
    intros t0 t1 a. rewrite (E t0), (E t1). destruct (Nat.eq_dec t0 t) as [->|Hn]; destruct (Nat.eq_dec t1 t) as [->|Hm].
    + reflexivity.
    + rewrite setf_same, setf_other by exact Hm. intros Ha Hb. exfalso. exact (K _ _ Hm Hb Ha).
    + rewrite setf_same, setf_other by exact Hn. intros Ha Hb. exfalso. exact (K _ _ Hn Ha Hb).
    + rewrite !setf_other by assumption. apply H2.
Qed.

(* ---- another thread's step ---- *)
Section Stable.
  Variables (s : cst) (g : gst) (s' : cst) (g' : gst) (t t' : nat).
  Hypothesis G : GI s g.
  Hypothesis G' : GT s' g'.
  Hypothesis R : Rel s g s' g'.
  Hypothesis F : Frame s g s' g' t.
  Hypothesis L : LI s.
  Hypothesis Ht : t' <> t.

  Lemma KK_stable n v y : KK s g n v y -> KK s' g' n v y.
  Proof.
    intros (A & B & C & D). pose proof (rl_fr _ _ _ _ R). pose proof (rl_l0 _ _ _ _ R n A). destruct (rl_ver _ _ _ _ R n A v B C) as (E & _).
    repeat split; try apply B; try exact E; lia.
  Qed.
  Lemma same_back n v : (n < fr s)%nat -> stbl v -> vle v (ver (nd s n)) -> same s' n v = true -> same s n v = true.
  Proof. intros A B C D. destruct (rl_ver _ _ _ _ R n A v B C) as (_ & E & _). exact (E D). Qed.
  Lemma same_clean n v : stbl v -> same s' n v = true -> v_dirty (ver (nd s' n)) = false.
  Proof. intros A B. apply v_dirty_false. exact (same_stbl _ _ A B). Qed.
  Lemma same_nospl n v : stbl v -> same s' n v = true -> v_spl (ver (nd s' n)) = false.
  Proof. intros A B. exact (proj2 (same_stbl _ _ A B)). Qed.
  Lemma rh_stable n v y : (n < fr s)%nat -> stbl v -> vle v (ver (nd s n)) -> (nosplit v (ver (nd s n)) -> y < rh g n) ->
    nosplit v (ver (nd s' n)) -> y < rh g' n.
  Proof.
    intros A B C D E. destruct (rl_ver _ _ _ _ R n A v B C) as (_ & _ & K). pose proof (D (K E)).
    pose proof (rl_rh _ _ _ _ R n A (proj2 E)). lia.
  Qed.
  Lemma JJ_stable n v y : JJ s g n v y -> JJ s' g' n v y.
  Proof. intros (A & B). split; [now apply KK_stable|]. destruct A as (A1 & A2 & A3 & _). now apply rh_stable. Qed.
  Lemma isl_stable n b : (n < fr s)%nat -> isl (nd s n) = b -> isl (nd s' n) = b.
  Proof. intros A B. now rewrite (rl_isl _ _ _ _ R n A). Qed.
  Lemma held_fr a : In a (holds (pcs s t')) -> (a < fr s)%nat.
  Proof. intros H. exact (proj1 (proj1 L t' a H)). Qed.
  Lemma linked_stable a : In a (holds (pcs s t')) -> linked s g a -> linked s' g' a.
  Proof.
    intros H (A & B & C). pose proof (rl_fr _ _ _ _ R). destruct (fm_node _ _ _ _ _ F t' a Ht H) as (_ & _ & _ & _ & E & _).
    split; [lia|]. split; [now apply isl_stable|congruence].
  Qed.
  Lemma TG_stable a y : In a (holds (pcs s t')) -> TG s g a y -> TG s' g' a y.
  Proof.
    intros H (A & B & C). pose proof (linked_stable a H A). pose proof (fm_lo _ _ _ _ _ F a (proj1 A)) as E1.
    destruct (fm_node _ _ _ _ _ F t' a Ht H) as (E & _ & _ & _ & _ & _ & E2 & _). split; [assumption|]. rewrite E1, E. split; [lia|exact C].
  Qed.
  Lemma SK_stable c sk : In c (holds (pcs s t')) -> SK g c sk -> SK g' c sk.
  Proof.
    intros H (A & B). destruct (fm_node _ _ _ _ _ F t' c Ht H) as (_ & _ & _ & _ & _ & E1 & _ & _ & E2 & E3). unfold SK, aft in *. lia.
  Qed.
  Lemma SF_stable y tg n c sk h : In tg (holds (pcs s t')) -> In n (holds (pcs s t')) -> In c (holds (pcs s t')) ->
    SF s g y tg n c sk h -> SF s' g' y tg n c sk h.
  Proof.
    intros Ht1 Hn Hc (A & B). split; [now apply SK_stable|]. destruct h.
    - destruct B as (B1 & B2 & B3 & B4 & B5 & B6 & B7 & B8).
      destruct (fm_node _ _ _ _ _ F t' n Ht Hn) as (E1 & E2 & _ & _ & _ & _ & _ & _).
      destruct (fm_node _ _ _ _ _ F t' c Ht Hc) as (E3 & _ & _ & _ & _ & _ & E4 & _).
      rewrite E1, E2, E3, (fm_lo _ _ _ _ _ F n (proj1 B1)), (fm_lo _ _ _ _ _ F c (proj1 B2)).
      split; [now apply linked_stable|]. split; [now apply linked_stable|]. split; [exact B3|]. split; [exact B4|]. split; [lia|]. auto.
    - destruct B as (B1 & B2). split; [apply isl_stable; [exact (held_fr n Hn)|exact B1]|now apply TG_stable].
  Qed.
  Lemma PF_stable q nc : (forall a, In a (o2l q ++ n2l nc) -> In a (holds (pcs s t'))) -> PF s g q nc -> PF s' g' q nc.
  Proof.
    intros H. destruct q as [q|]; cbn [PF]; [|auto]. intros (A & B). split; [apply isl_stable; [apply held_fr, H; now left|exact A]|].
    destruct nc as [[c sk]|]; [|exact B]. apply SK_stable; [|exact B]. apply H. right. now left.
  Qed.
  Lemma par_stable n : (n < fr s)%nat -> par (nd s n) <> None -> par (nd s' n) <> None.
  Proof. apply (rl_par _ _ _ _ R). Qed.
  Lemma DF_stable n rep : In n (holds (pcs s t')) -> DF s g n rep -> DF s' g' n rep.
  Proof.
    intros H (A & B & C & D). pose proof (held_fr n H) as Hn. destruct (fm_node _ _ _ _ _ F t' n Ht H) as (_ & _ & _ & E1 & E2 & _ & _ & E3 & E4 & _).
    unfold DF. rewrite (rl_isl _ _ _ _ R n Hn), E1, E2, E4. split; [|split; [exact B|split; [exact C|now apply par_stable]]].
    intros K. destruct (A K) as (K1 & K2 & K3). auto.
  Qed.
  Lemma RF_stable cur rik a : In a (holds (pcs s t')) -> (cur < fr s)%nat -> par (nd s cur) = Some a -> RF g cur rik -> RF g' cur rik.
  Proof.
    intros H Hc Hp (A & B). destruct (fm_par _ _ _ _ _ F t' a cur Ht H Hc Hp) as (_ & E1 & E2). pose proof (rl_l0 _ _ _ _ R cur Hc).
    unfold RF, aft in *. lia.
  Qed.
  Lemma JI_stable : JI s g (pcs s t') -> JI s' g' (pcs s t').
  Proof.
    pose proof (rl_fr _ _ _ _ R) as Hfr. pose proof JJ_stable as SJ. pose proof KK_stable as SKK. pose proof isl_stable as SI.
    assert (Hh : forall a, In a (holds (pcs s t')) -> In a (holds (pcs s t'))) by auto. revert Hh.
    generalize (pcs s t') at 1 3 4. intros p.
    assert (Root : forall n, (n < fr s)%nat -> l0 g n = 0 -> (n < fr s')%nat /\ l0 g' n = 0).
    { intros n A B. pose proof (rl_l0 _ _ _ _ R n A). assert (n < fr s')%nat by lia. destruct (gt_num _ _ G' n) as (C & _); [assumption|]. split; [assumption|lia]. }
    assert (Kfr : forall n v y, KK s g n v y -> (n < fr s)%nat) by (intros n v y (A & _); exact A).
    assert (Jfr : forall n v y, JJ s g n v y -> (n < fr s)%nat) by (intros n v y ((A & _) & _); exact A).
    assert (Sm : forall n v y, KK s g n v y -> same s' n v = true -> same s n v = true).
    { intros n v y (A & B & C & _). now apply same_back. }
    intros Hh. assert (VD : forall a, In a (holds p) -> v_del (ver (nd s a)) = false -> v_del (ver (nd s' a)) = false).
    { intros a A B. destruct (fm_node _ _ _ _ _ F t' a Ht (Hh a A)) as (E & _). now rewrite E. }
    revert Hh VD. destruct p; cbn [JI holds]; intros Hh VD; try (intros H; exact H).
    - (* PRoot *) intros (A & B & C). split; [exact A|]. now apply Root.
    - intros (A & B & C). split; [exact A|]. now apply Root.
    - (* PIn *) intros (A & B & C & D). split; [exact A|]. split; [now apply SJ|]. split; [eapply SI; eauto|]. intros E.
      pose proof (Jfr _ _ _ B) as Hn. pose proof (Sm _ _ _ (proj1 B) E) as E1. destruct (D E1) as (D1 & D2 & D3).
      destruct (rl_kids _ _ _ _ R n Hn C (same_clean _ _ (proj1 (proj2 (proj1 B))) E)) as (K1 & K2 & K3). rewrite K1, K2.
      split; [exact D1|]. split.
      + intros c Hc. pose proof (D2 c Hc). destruct (gt_kid _ _ (gi_t _ _ G) _ _ Hn C (kid_in _ _ _ Hc)) as (Q & _). pose proof (rl_l0 _ _ _ _ R c Q). lia.
      + intros b Hb c Hc. pose proof (D3 b Hb c Hc). pose proof (K3 c (kid_in _ _ _ Hc)). lia.
    - (* PKid *) intros (A & B & C & D & D'). split; [exact A|]. split; [now apply SJ|]. pose proof (Jfr _ _ _ B) as Hn. split; [eapply SI; eauto|]. split; [lia|]. intros E.
      pose proof (Sm _ _ _ (proj1 B) E) as E1. destruct (D' E1) as (D1 & D2 & D3).
      destruct (rl_kids _ _ _ _ R n Hn C (same_clean _ _ (proj1 (proj2 (proj1 B))) E)) as (K1 & K2 & K3). rewrite K2.
      split; [exact D1|]. pose proof (rl_l0 _ _ _ _ R c D). pose proof (K3 c D1). lia.
    - (* PChk *) intros (A & B & C & D & D1 & D2 & D3). split; [exact A|]. split; [now apply SJ|]. pose proof (Jfr _ _ _ B) as Hn. split; [eapply SI; eauto|]. split; [lia|].
      split; [exact D1|]. split; [exact (proj1 (rl_ver _ _ _ _ R c D vc D1 D2))|]. intros E. pose proof (Sm _ _ _ (proj1 B) E) as E1. destruct (D3 E1) as (D4 & D5).
      pose proof (rl_l0 _ _ _ _ R c D). split; [lia|]. exact (rh_stable c vc y D D1 D2 D5).
    - (* PRe *) intros (A & B & C). split; [exact A|]. split; [now apply SJ|]. eapply SI; eauto.
    - (* PLast *) intros (A & B & B1 & C). split; [exact A|]. split; [now apply SKK|]. split; [now apply SKK|]. eapply SI; eauto.
    - (* PLastC *) intros (A & B & B1 & C & D). split; [exact A|]. split; [now apply SKK|]. split; [now apply SKK|]. pose proof (Kfr _ _ _ B) as Hn. split; [eapply SI; eauto|].
      intros E1 E2. pose proof (D E1 (Sm _ _ _ B1 E2)). pose proof (rl_rh _ _ _ _ R n Hn (same_nospl _ _ (proj1 (proj2 B1)) E2)). lia.
    - (* PLeaf *) intros (A & B & C & D). split; [exact A|]. split; [now apply SKK|]. pose proof (Kfr _ _ _ B) as Hn. split; [eapply SI; eauto|]. intros E.
      apply rh_stable; try apply B. exact (D E).
    - (* PRead *) intros (A & B & C & D). split; [exact A|]. split; [now apply SJ|]. split; [eapply SI; eauto|exact D].
    - intros (A & B & C & D). split; [exact A|]. split; [now apply SJ|]. split; [eapply SI; eauto|exact D].
    - (* PAdv *) intros (A & B & C). split; [exact A|]. split; [now apply SJ|]. eapply SI; eauto.
    - intros (A & B & B1 & C). split; [exact A|]. split; [now apply SKK|]. split; [now apply SKK|]. eapply SI; eauto.
    - intros (A & B & B1 & C & D). split; [exact A|]. split; [now apply SKK|]. split; [now apply SKK|]. pose proof (Kfr _ _ _ B) as Hn. split; [eapply SI; eauto|].
      intros E1 E2. pose proof (D E1 (Sm _ _ _ B1 E2)). pose proof (rl_rh _ _ _ _ R n Hn (same_nospl _ _ (proj1 (proj2 B1)) E2)). lia.
    - (* PWalk *) intros (A & B & C). split; [exact A|]. split; [now apply SKK|]. eapply SI; eauto.
    - (* PNext *) intros (A & B & C & D). split; [exact A|]. split; [lia|]. split; [now apply SI|]. pose proof (rl_l0 _ _ _ _ R x B). lia.
    - (* WHave *) intros (A & B & C). split; [exact A|]. split; [exact B|]. apply TG_stable; [apply Hh; now left|exact C].
    - (* WUp *) intros (A & B). split; [exact A|]. apply SF_stable; [apply Hh; cbn; tauto|apply Hh; cbn; tauto|apply Hh; cbn; tauto|exact B].
    - (* WIn *) intros (A & B & C & D). split; [exact A|]. split; [apply SF_stable; [apply Hh; cbn; tauto|apply Hh; cbn; tauto|apply Hh; cbn; tauto|exact B]|].
      split; [|exact D]. apply SI; [apply held_fr, Hh; cbn; tauto|exact C].
    - (* WStrip *) intros (A & B & C & D & E & K). split; [exact A|]. split; [apply SF_stable; [apply Hh; cbn; tauto|apply Hh; cbn; tauto|apply Hh; cbn; tauto|exact B]|].
      split; [apply PF_stable; [|exact C]; intros a Ha; apply Hh; cbn [In app]; rewrite in_app_iff in *; tauto|]. split; [exact D|]. split; [exact E|].
      apply par_stable; [apply held_fr, Hh; cbn; tauto|exact K].
    - intros (A & B & C & D). split; [exact A|]. split; [apply TG_stable; [apply Hh; now left|exact B]|].
      split; [|exact D]. apply PF_stable; [|exact C]. intros a Ha; apply Hh; cbn [In app]; rewrite in_app_iff in *; tauto.
    - intros (A & B & C & D). split; [exact A|]. split; [apply TG_stable; [apply Hh; now left|exact B]|].
      split; [|exact D]. apply PF_stable; [|exact C]. intros a Ha; apply Hh; cbn [In app]; rewrite in_app_iff in *; tauto.
    - intros (A & B & C). split; [exact A|]. split; [apply TG_stable; [apply Hh; now left|exact B]|].
      apply PF_stable; [|exact C]. intros a Ha; apply Hh; cbn [In app]; rewrite in_app_iff in *; tauto.
    - intros (A & B). split; [exact A|]. apply TG_stable; [apply Hh; now left|exact B].
    - (* DMark *) intros (A & B & C & D). assert (H : In n (holds (pcs s t'))) by (apply Hh; now left).
      destruct (fm_node _ _ _ _ _ F t' n Ht H) as (E1 & E2 & _). rewrite E1, E2, (fm_lo _ _ _ _ _ F n (proj1 A)). split; [now apply linked_stable|auto].
    - intros (A & B & C). assert (H : In n (holds (pcs s t'))) by (apply Hh; now left).
      destruct (fm_node _ _ _ _ _ F t' n Ht H) as (E1 & E2 & _). rewrite E1, (fm_lo _ _ _ _ _ F n (proj1 A)). split; [now apply linked_stable|auto].
    - (* DUp *) apply DF_stable. apply Hh. now left.
    - intros (A & B & C). split; [apply DF_stable; [apply Hh; now left|exact A]|]. split; [|exact C]. apply SI; [apply held_fr, Hh; cbn; tauto|exact B].
    - (* DRed *) intros (A & A' & B & C & D & E & K). assert (H : In cur (holds (pcs s t'))) by (apply Hh; cbn; tauto).
      destruct (fm_node _ _ _ _ _ F t' cur Ht H) as (_ & _ & _ & _ & _ & E1 & _ & _ & E2 & E3).
      split; [apply SI; [apply held_fr, Hh; cbn; tauto|exact A]|]. split; [apply VD; [cbn; tauto|exact A']|]. split; [apply SI; [now apply held_fr|exact B]|]. split; [exact C|]. split; [exact D|].
      unfold RF, aft in *. rewrite E2, E3. split; [exact E|]. destruct K as (K1 & K2). split; [exact K1|]. lia.
    - (* DRedU *) intros (A & A' & A2 & B & C1 & C2 & C3 & C4 & C5 & D & E & K). assert (H : In p2 (holds (pcs s t'))) by (apply Hh; cbn; tauto).
      split; [apply SI; [apply held_fr, Hh; cbn; tauto|exact A]|]. split; [apply VD; [cbn; tauto|exact A']|]. split; [exact (rl_l0p _ _ _ _ R cur D A2)|].
      split; [apply SI; [now apply held_fr|exact B]|].
      do 5 (split; [assumption|]). split; [lia|]. split; [exact (proj1 (fm_par _ _ _ _ _ F t' p2 cur Ht H D E))|]. exact (RF_stable cur rik p2 H D E K).
    - intros (A & A' & A2 & B & C1 & C2 & C3 & D & E & K). assert (H : In p2 (holds (pcs s t'))) by (apply Hh; cbn; tauto).
      split; [apply SI; [apply held_fr, Hh; cbn; tauto|exact A]|]. split; [apply VD; [cbn; tauto|exact A']|]. split; [exact (rl_l0p _ _ _ _ R cur D A2)|].
      split; [apply SI; [now apply held_fr|exact B]|].
      do 3 (split; [assumption|]). split; [lia|]. split; [exact (proj1 (fm_par _ _ _ _ _ F t' p2 cur Ht H D E))|]. exact (RF_stable cur rik p2 H D E K).
    - intros (A & A' & B). split; [apply SI; [apply held_fr, Hh; cbn; tauto|exact A]|]. split; [apply VD; [cbn; tauto|exact A']|exact B].
    - intros (A & A' & B). split; [apply SI; [apply held_fr, Hh; cbn; tauto|exact A]|]. split; [apply VD; [cbn; tauto|exact A']|exact B].
    - intros (A & A'). split; [apply SI; [apply held_fr, Hh; cbn; tauto|exact A]|]. apply VD; [cbn; tauto|exact A'].
  Qed.
End Stable.
