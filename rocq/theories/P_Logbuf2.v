(* The log buffer: the invariant of runs. *)
From Verif Require Import Lib M_Key P_Key M_Circular P_Circular M_Msgpack M_Bag M_Log Spec_Log M_Logfile P_Log1 P_Log2 P_Log3 P_Log4 M_Logset M_Logbuf Spec_Logbuf P_Logbuf1.

Record binv (n : nat) (s : lb) (ws : list nat) (es : list entry) : Prop := MkBinv {
  v_L : 32 <= b_len s < 2 ^ 32;
  v_buf : len (b_buf s) = b_len s;
  v_xbuf : len (b_xbuf s) = b_len s;
  v_pos : 0 <= b_pos s <= b_len s;
  v_holds : holds (all_bytes s) es;
  v_ep : epoch_after 0 es = b_ep s;
  v_chain : chain (b_next s) (b_wait s) ws;
  v_nd : NoDup ws;
  v_in : forall t, In t ws <-> b_pc s t <> None;
  v_lt : forall t, In t ws -> (t < n)%nat }.
Ltac bf := cbn [b_len b_buf b_xbuf b_pos b_ep b_q b_wk b_fl b_wait b_next b_pc b_write b_file b_ge b_we] in *.
Definition in_flight (s : lb) : list Z := match b_write s with Some (x, _) => firstn (Z.to_nat x) (b_xbuf s) | None => [] end.
Lemma all_bytes_eq s : all_bytes s = (b_file s ++ in_flight s) ++ upto (b_buf s, b_pos s).
Proof. unfold all_bytes, in_flight, upto. now rewrite app_assoc. Qed.
Definition tag (r : req) : Z * entry := (q_epoch r, entry_of r).
Lemma entry_key r : update_key (entry_of r) <> None.
Proof. unfold entry_of. destruct (q_cmd r); [destruct ((q_prev r =? 0) || Z.odd (q_prev r))| |]; discriminate. Qed.
Lemma tagged_entry c r : tagged c [entry_of r] = [(c, entry_of r)] /\ epoch_after c [entry_of r] = c.
Proof. unfold entry_of. destruct (q_cmd r); [destruct ((q_prev r =? 0) || Z.odd (q_prev r))| |]; auto. Qed.

Lemma NoDup_bound n ws : NoDup ws -> (forall t, In t ws -> (t < n)%nat) -> (length ws <= n)%nat.
Proof. intros N H. rewrite <- (seq_length n 0). apply NoDup_incl_length; auto. intros t Ht. apply in_seq. specialize (H t Ht). lia. Qed.
Lemma pset_eq {A} (f : nat -> A) t x : pset f t x t = x. Proof. unfold pset. now rewrite Nat.eqb_refl. Qed.
Lemma pset_ne {A} (f : nat -> A) t x u : u <> t -> pset f t x u = f u. Proof. unfold pset. intros H. destruct (Nat.eqb_spec u t); [contradiction|reflexivity]. Qed.

(* One round of a thread that is not in the list (nx = LSelf) or is in it (nx = its link). *)
Definition enters (s : lb) (t : nat) (nx : link) (ws : list nat) : Prop := (nx = LSelf /\ ~ In t ws) \/ (nx = b_next s t /\ In t ws).
Lemma round_cases n t r nx s ws es : binv n s ws es -> (t < n)%nat -> enters s t nx ws -> (nx <> LSelf -> b_pc s t = Some r) ->
  exists s', record_round n t r nx s = Ok s' /\
  ((exists ws' new, binv n s' ws' (es ++ new) /\ b_pc s' t = None /\ (forall u, u <> t -> b_pc s' u = b_pc s u) /\ tagged (b_ep s) new = [tag r] /\ Forall (fun e => e = EEpoch (q_epoch r) \/ e = EWake \/ e = entry_of r) new /\
      req_size r <= b_len s - b_pos s /\ b_pos s + req_size r - 32 <= b_pos s' /\ (nx = LSelf /\ ws' = ws \/ ws = t :: ws') /\ b_len s' = b_len s /\ b_ge s' = b_ge s) \/
   (binv n s' (if match nx with LSelf => true | _ => false end then ws ++ [t] else ws) es /\ b_pc s' t = Some r /\ (forall u, u <> t -> b_pc s' u = b_pc s u) /\
      (req_size r <= b_len s - b_pos s -> nx <> LSelf /\ b_wait s <> Some t) /\ b_pos s' = b_pos s /\ b_write s' = b_write s /\ b_len s' = b_len s /\ b_ge s' = b_ge s /\ (nx <> LSelf -> s' = s))).
Proof.
  intros V Ht En Hp. pose proof (v_L _ _ _ _ V) as HL. pose proof (v_pos _ _ _ _ V) as HP. unfold record_round. rewrite (Z.mod_small (b_len s - b_pos s)) by lia.
  set (self := match nx with LSelf => true | _ => false end).
  destruct ((req_size r <=? b_len s - b_pos s) && (self || is_head (b_wait s) t)) eqn:C.
  - apply andb_true_iff in C. destruct C as [C1 C2]. assert (Hs : req_size r <= b_len s - b_pos s) by lia. cbv zeta.
    set (we0 := b_we s). set (gwe := if negb (b_q s =? 0) && elt we0 (q_epoch r) then q_epoch r else we0). set (we := if negb (gwe =? b_wk s) && elt (q_epoch r) gwe then q_epoch r else gwe).
    set (pre := b_file s ++ in_flight s).
    assert (R0 : room (b_len s) (b_buf s, b_pos s) (req_size r)) by (unfold room; cbn [fst snd]; pose proof (v_buf _ _ _ _ V); lia).
    assert (H0 : holds (pre ++ upto (b_buf s, b_pos s)) es) by (unfold pre; rewrite <- all_bytes_eq; apply (v_holds _ _ _ _ V)).
    assert (K : req_size r = req_step r + (if is_modify r then 24 else 32)) by (unfold req_size, req_step; destruct (is_modify r); lia).
    assert (Sz : 56 <= req_size r) by (unfold req_size, len; lia).
    set (ep := negb (q_epoch r =? b_ep s)).
    assert (S1 : exists x1, (if ep then emit (enc_epoch logcmd_epoch (q_epoch r)) 16 (Some (b_buf s, b_pos s)) else Some (b_buf s, b_pos s)) = Some x1 /\ room (b_len s) x1 (req_size r - 16) /\ b_pos s <= snd x1 /\ holds (pre ++ upto x1) (es ++ if ep then [EEpoch (q_epoch r)] else [])).
    { destruct ep.
      - destruct (emit_epoch (b_len s) _ _ (q_epoch r) pre es ltac:(lia) R0 ltac:(lia) H0) as (x1 & A1 & A2 & A3 & A4). exists x1. cbn [snd] in A3. split; auto. split; auto. split; [lia|auto].
      - exists (b_buf s, b_pos s). split; auto. split; [unfold room in *; lia|]. split; [cbn; lia|]. now rewrite app_nil_r. }
    destruct S1 as (x1 & E1 & R1 & Q1 & H1). rewrite E1.
    set (wk := negb (we =? b_wk s)).
    assert (S2 : exists x2, (if wk then emit (enc_base logcmd_wake) 8 (Some x1) else Some x1) = Some x2 /\ room (b_len s) x2 (req_size r - 24) /\ b_pos s <= snd x2 /\ holds (pre ++ upto x2) ((es ++ if ep then [EEpoch (q_epoch r)] else []) ++ if wk then [EWake] else [])).
    { destruct wk.
      - destruct (emit_base (b_len s) x1 (req_size r - 16) logcmd_wake EWake pre _ ltac:(lia) R1 ltac:(lia) H1 ltac:(reflexivity)) as (x2 & A1 & A2 & A3 & A4). exists x2. split; auto. split; [unfold room in *; lia|]. split; [lia|auto].
      - exists x1. split; auto. split; [unfold room in *; lia|]. split; [lia|]. now rewrite app_nil_r. }
    destruct S2 as (x2 & E2 & R2 & Q2 & H2). rewrite E2.
    destruct (emit_req (b_len s) x2 (req_size r - 24) r pre _ ltac:(lia) R2 ltac:(destruct (is_modify r); lia) H2) as (x3 & E3 & R3 & P3 & H3). rewrite E3. destruct x3 as [buf pos]. cbn [snd] in P3.
    eexists. split; [reflexivity|]. left.
    assert (WS : exists ws', chain (b_next s) (if is_head (b_wait s) t then match nx with LSelf => Some t | LNull => None | LNext v => Some v end else b_wait s) ws' /\ (nx = LSelf /\ ws' = ws \/ ws = t :: ws') /\ NoDup ws' /\ (forall u, In u ws' <-> pset (b_pc s) t None u <> None) /\ (forall u, In u ws' -> (u < n)%nat)).
    { pose proof (v_chain _ _ _ _ V) as Ch. pose proof (v_nd _ _ _ _ V) as Nd. pose proof (v_in _ _ _ _ V) as Vi. pose proof (v_lt _ _ _ _ V) as Vl.
      destruct En as [[-> NI]|[-> I]].
      - exists ws. assert (is_head (b_wait s) t = false) as ->. { destruct ws as [|w ws]; cbn [chain] in Ch; [rewrite Ch; reflexivity|]. destruct Ch as [-> _]. cbn. destruct (Nat.eqb_spec w t); auto. subst. exfalso. apply NI. now left. }
        repeat split; auto; intros Hu.
        + destruct (Nat.eq_dec u t) as [->|N]; [contradiction|rewrite pset_ne by auto; now apply Vi].
        + destruct (Nat.eq_dec u t) as [->|N]; [rewrite pset_eq in Hu; congruence|rewrite pset_ne in Hu by auto; now apply Vi].
      - assert (Hd : is_head (b_wait s) t = true). { unfold self in C2. destruct (b_next s t) eqn:Nx; auto. exfalso.
          assert (X : forall ws h, chain (b_next s) h ws -> In t ws -> b_next s t <> LSelf). { clear. induction ws as [|w ws IH]; intros h Cc Hi; [destruct Hi|]. cbn in Cc. destruct Cc as (_ & B & Cc). destruct Hi as [->|Hi]; eauto. }
          exact (X ws _ Ch I Nx). }
        rewrite Hd. unfold is_head in Hd. destruct (b_wait s) as [w|] eqn:Ew; [|discriminate]. apply Nat.eqb_eq in Hd. subst w.
        destruct ws as [|w ws]; [destruct I|]. cbn [chain] in Ch. destruct Ch as (Ew' & Ns & Ch). injection Ew' as <-. inversion Nd; subst. exists ws. split; [destruct (b_next s t); [contradiction|exact Ch|exact Ch]|]. split; [now right|]. split; auto. split.
        + intros u. destruct (Nat.eq_dec u t) as [->|N]; [rewrite pset_eq; split; [contradiction|congruence]|]. rewrite pset_ne by auto. rewrite <- Vi. split; [now right|]. intros [->|]; [congruence|auto].
        + intros u Hu. apply Vl. now right. }
    destruct WS as (ws' & W1 & W2 & W3 & W4 & W5). exists ws', ((if ep then [EEpoch (q_epoch r)] else []) ++ (if wk then [EWake] else []) ++ [entry_of r]).
    destruct R3 as (R31 & R32 & R33). cbn [fst snd] in *.
    assert (EA : epoch_after 0 (es ++ (if ep then [EEpoch (q_epoch r)] else []) ++ (if wk then [EWake] else []) ++ [entry_of r]) = q_epoch r).
    { rewrite epoch_after_app, (v_ep _ _ _ _ V), !epoch_after_app. rewrite (proj2 (tagged_entry _ r)). unfold ep. destruct (Z.eqb_spec (q_epoch r) (b_ep s)) as [Ee|Ee]; cbn [negb epoch_after]; destruct wk; cbn; auto. }
    split; [|split; [bf; apply pset_eq|split; [intros u Hu; bf; now apply pset_ne|split]]].
    + constructor; bf; auto; try lia; [now apply (v_xbuf _ _ _ _ V)|destruct (is_modify r); lia|].
      rewrite all_bytes_eq. unfold in_flight. bf. fold (in_flight s). fold pre. rewrite <- !(app_assoc es) in H3. rewrite <- app_assoc in H3. exact H3.
    + unfold ep, wk. rewrite tagged_app, tagged_app, (proj1 (tagged_entry _ r)). destruct (Z.eqb_spec (q_epoch r) (b_ep s)) as [Ee|Ee]; cbn [negb tagged epoch_after app]; destruct (negb (we =? b_wk s)); cbn [tagged epoch_after update_key app]; unfold tag; congruence.
    + split; [|split; [exact Hs|split; [|split; [exact W2|split; reflexivity]]]].
      * repeat (apply Forall_app; split); [destruct ep|destruct wk|]; auto.
      * bf. rewrite P3. destruct (is_modify r); lia.
  - destruct nx as [| |v] eqn:Nx; subst self.
    + destruct En as [[_ NI]|[Hn I]].
      2: { exfalso. assert (X : forall ws h, chain (b_next s) h ws -> In t ws -> b_next s t <> LSelf). { clear. induction ws as [|w ws IH]; intros h Cc Hi; [destruct Hi|]. cbn in Cc. destruct Cc as (_ & B & Cc). destruct Hi as [->|Hi]; eauto. }
           exact (X ws _ (v_chain _ _ _ _ V) I (eq_sym Hn)). }
      assert (Lw : (length ws < S n)%nat) by (pose proof (NoDup_bound n ws (v_nd _ _ _ _ V) (v_lt _ _ _ _ V)); lia).
      assert (Fw : Forall (fun u => b_pc s u <> None) ws) by (apply Forall_forall; intros u Hu; now apply (v_in _ _ _ _ V)).
      rewrite (walk_ok s ws (S n) None (b_wait s) eq_refl (v_chain _ _ _ _ V) Fw Lw).
      pose proof (chain_snoc (b_next s) t ws (b_wait s) (v_nd _ _ _ _ V) NI (v_chain _ _ _ _ V)) as CS.
      assert (VI : forall u, In u (ws ++ [t]) <-> pset (b_pc s) t (Some r) u <> None).
      { intros u. rewrite in_app_iff. destruct (Nat.eq_dec u t) as [->|N]; [rewrite pset_eq; split; [discriminate|intros _; right; now left]|]. rewrite pset_ne by auto. rewrite <- (v_in _ _ _ _ V u). cbn. split; [intros [?|[?|[]]]; [auto|congruence]|auto]. }
      assert (VN : NoDup (ws ++ [t])). { rewrite <- (rev_involutive (ws ++ [t])). apply NoDup_rev. rewrite rev_app_distr. cbn. constructor; [rewrite <- in_rev; exact NI|]. apply NoDup_rev. apply (v_nd _ _ _ _ V). }
      assert (VL : forall u, In u (ws ++ [t]) -> (u < n)%nat). { intros u Hu. apply in_app_iff in Hu. destruct Hu as [Hu|[->|[]]]; [now apply (v_lt _ _ _ _ V)|exact Ht]. }
      destruct (last_place None ws) as [u|] eqn:Lp; (eexists; split; [reflexivity|]; right; split; [|split; [bf; apply pset_eq|split; [intros u' Hu'; bf; now apply pset_ne|split; [intros Hf; exfalso; cbn [orb] in C; lia|bf; repeat split; auto; congruence]]]]).
      * destruct V. constructor; bf; auto.
      * assert (ws = []) as ->. { destruct ws as [|w ws]; auto. exfalso. unfold last_place in Lp. cbn [rev] in Lp. destruct (rev ws ++ [w]) eqn:Q; [destruct (rev ws); discriminate|discriminate]. }
        destruct V. constructor; bf; auto.
    + eexists. split; [reflexivity|]. right. split; [exact V|]. split; [apply Hp; discriminate|]. split; auto. split; [|repeat split; auto]. intros Hf. split; [discriminate|]. intros Hw. rewrite Hw in C. cbn in C. rewrite Nat.eqb_refl in C. lia.
    + eexists. split; [reflexivity|]. right. split; [exact V|]. split; [apply Hp; discriminate|]. split; auto. split; [|repeat split; auto]. intros Hf. split; [discriminate|]. intros Hw. rewrite Hw in C. cbn in C. rewrite Nat.eqb_refl in C. lia.
Qed.
