(* Layers: a run with a lookup inside a layer that is emptied and collected while its key comes back. *)
From Verif Require Import Lib M_Layers Spec_Layers P_Layers5.

Fixpoint lrun (s : lst) (es : list levent) : option (list (levent * lst) * lst) :=
  match es with
  | [] => Some ([], s)
  | (t, c) :: es' => match lstep s t c with
                     | Some s1 => match lrun s1 es' with Some (l, s2) => Some (((t, c), s1) :: l, s2) | None => None end
                     | None => None
                     end
  end.
Lemma lrun_ok es : forall s l s', lrun s es = Some (l, s') -> lsteps s l s'.
Proof.
  induction es as [|[t c] es IH]; intros s l s' H; cbn [lrun] in H; [injection H as <- <-; constructor|]. destruct (lstep s t c) as [s1|] eqn:E; [|discriminate]. destruct (lrun s1 es) as [[l1 s2]|] eqn:F; [|discriminate].
  injection H as <- <-. econstructor; eauto.
Qed.
Definition opb (a b : lop) : bool := match a, b with LGet, LGet | LRem, LRem | LGc, LGc => true | LPut v, LPut w => v =? w | _, _ => false end.
Definition resb (a b : option Z) : bool := match a, b with None, None => true | Some v, Some w => v =? w | _, _ => false end.
Definition finb (l : list (levent * lst)) (i j t : nat) (y : list Z) (o : lop) (r : option Z) : bool :=
  match nth_error l i with Some ((t', LStart y' o'), _) => (t' =? t)%nat && leqb y' y && opb o' o | _ => false end && (i <? j)%nat && (j <? length l)%nat &&
  match pcs (st l (S j)) t with LDone y' o' r' => leqb y' y && opb o' o && resb r' r | _ => false end &&
  forallb (fun k => match nth_error l k with Some ((t', LStart _ _), _) => negb (t' =? t)%nat | _ => true end) (seq (S i) (j - i)).
Lemma opb_ok a b : opb a b = true -> a = b. Proof. destruct a, b; cbn; try discriminate; auto. intros H. apply Z.eqb_eq in H. congruence. Qed.
Lemma resb_ok a b : resb a b = true -> a = b. Proof. destruct a, b; cbn; try discriminate; auto. intros H. apply Z.eqb_eq in H. congruence. Qed.
Lemma finb_ok l i j t y o r : finb l i j t y o r = true -> finished l i j t y o r.
Proof.
  unfold finb. rewrite !andb_true_iff. intros ((((H1 & H2) & H3) & H4) & H5). apply Nat.ltb_lt in H2, H3. split.
  - destruct (nth_error l i) as [[[t' x] s0]|] eqn:E; [|discriminate]. destruct x; try discriminate. rewrite !andb_true_iff in H1. destruct H1 as ((A & B) & C). apply Nat.eqb_eq in A. apply P_Layers1.leqb_ok in B. apply opb_ok in C. subst. now exists s0.
  - split; [exact H2|]. split; [exact H3|]. split.
    + destruct (pcs (st l (S j)) t); try discriminate. rewrite !andb_true_iff in H4. destruct H4 as ((A & B) & C). apply P_Layers1.leqb_ok in A. apply opb_ok in B. apply resb_ok in C. congruence.
    + intros k y' o' Hk (s0 & Q). rewrite forallb_forall in H5. specialize (H5 k). rewrite Q in H5. rewrite negb_true_iff in H5. apply Nat.eqb_neq in H5; [congruence|]. apply in_seq. lia.
Qed.

(* Two keys of ten bytes that share their first eight. *)
Definition p8 : list Z := [1; 2; 3; 4; 5; 6; 7; 8].
Definition ka : list Z := p8 ++ [10; 11].
Definition kb : list Z := p8 ++ [20].
Definition doing (t : nat) (k : list Z) (o : lop) (n : nat) : list levent := (t, LStart k o) :: repeat (t, LGo) n.
Definition events : list levent :=
  doing 0 ka (LPut 1) 2 ++ doing 0 kb (LPut 2) 3        (* 3 + 4 events; the row of ka becomes a layer *)
  ++ doing 1 ka LGet 1                                  (* 7, 8: a lookup of ka is in the layer *)
  ++ doing 4 ka (LPut 3) 1                              (* 9, 10: so is a put of ka *)
  ++ doing 2 ka LRem 3 ++ doing 2 kb LRem 3             (* 11 .. 18: the layer is emptied *)
  ++ doing 3 p8 LGc 1                                   (* 19, 20: and marked *)
  ++ [(4, LGo)]%nat                                     (* 21: the put starts again *)
  ++ [(3, LGo)]%nat                                     (* 22: the row of the layer goes away *)
  ++ [(4, LGo)]%nat                                     (* 23: the put finishes *)
  ++ [(1, LGo)]%nat                                     (* 24: the lookup finishes *)
  ++ doing 5 ka LGet 1.                                 (* 25, 26: another lookup *)
Lemma layers_example : exists l s, lsteps lstart l s /\ dead s 1 = true /\ finished l 7 24 1 ka LGet None /\ finished l 9 23 4 ka (LPut 3) None /\ finished l 25 26 5 ka LGet (Some 3).
Proof.
  assert (Q : exists l s, lrun lstart events = Some (l, s) /\ dead s 1 && finb l 7 24 1 ka LGet None && finb l 9 23 4 ka (LPut 3) None && finb l 25 26 5 ka LGet (Some 3) = true).
  { destruct (lrun lstart events) as [[l s]|] eqn:E; [exists l, s; split; [reflexivity|]|].
    - assert (F : match lrun lstart events with Some (l, s) => dead s 1 && finb l 7 24 1 ka LGet None && finb l 9 23 4 ka (LPut 3) None && finb l 25 26 5 ka LGet (Some 3) | None => false end = true) by (vm_compute; reflexivity).
      now rewrite E in F.
    - assert (F : match lrun lstart events with Some _ => true | None => false end = true) by (vm_compute; reflexivity). now rewrite E in F. }
  destruct Q as (l & s & Q & H). apply andb_prop in H. destruct H as (H & H4). apply andb_prop in H. destruct H as (H & H3). apply andb_prop in H. destruct H as (H1 & H2). exists l, s. split; [exact (lrun_ok _ _ _ _ Q)|]. split; [exact H1|].
  split; [exact (finb_ok _ _ _ _ _ _ _ H2)|]. split; [exact (finb_ok _ _ _ _ _ _ _ H3)|exact (finb_ok _ _ _ _ _ _ _ H4)].
Qed.
Lemma finish_example : exists l s q, lsteps lstart l s /\ pcs s 4 = LAt ka (LPut 3) 1 [10; 11] /\ dead s 1 = true /\ pcs s 3 = LKill 0 q.
Proof.
  destruct (lrun lstart (firstn 21 events)) as [[l s]|] eqn:E.
  - assert (F : match lrun lstart (firstn 21 events) with Some (_, s) => (pcs s 4, dead s 1, pcs s 3) | None => (LIdle, false, LIdle) end = (LAt ka (LPut 3) 1 [10; 11], true, LKill 0 (p8, true))) by (vm_compute; reflexivity).
    rewrite E in F. injection F as F1 F2 F3. exists l, s, (p8, true). split; [exact (lrun_ok _ _ _ _ E)|auto].
  - assert (F : match lrun lstart (firstn 21 events) with Some _ => true | None => false end = true) by (vm_compute; reflexivity). now rewrite E in F.
Qed.
