(* The log buffer: contents and waiting list. *)
From Verif Require Import Lib M_Key P_Key M_Circular P_Circular M_Msgpack M_Bag M_Log Spec_Log M_Logfile P_Log1 P_Log2 P_Log3 P_Log4 M_Logset M_Logbuf Spec_Logbuf.

Lemma emit_ok bytes step buf pos : 0 <= pos -> pos + step <= len buf -> len buf < 2 ^ 32 -> len bytes <= step ->
  exists buf' stale, emit bytes step (Some (buf, pos)) = Some (buf', pos + step) /\ length buf' = length buf /\
    firstn (Z.to_nat (pos + step)) buf' = firstn (Z.to_nat pos) buf ++ bytes ++ stale /\ len stale = step - len bytes.
Proof.
  intros H1 H2 H3 H4. unfold emit, len in *. set (p := Z.to_nat pos). assert (Hp : (p + length bytes <= length buf)%nat) by lia.
  replace (p + length bytes <=? length buf)%nat with true by (symmetry; now apply Nat.leb_le).
  rewrite Z.mod_small by lia. exists (firstn p buf ++ bytes ++ skipn (p + length bytes) buf), (firstn (Z.to_nat step - length bytes) (skipn (p + length bytes) buf)).
  split; [reflexivity|]. split; [rewrite !app_length, firstn_length, skipn_length; lia|]. split.
  - rewrite firstn_app, firstn_firstn, firstn_length. replace (Nat.min (Z.to_nat (pos + step)) p) with p by lia. f_equal. rewrite firstn_app. replace (Z.to_nat (pos + step) - Nat.min p (length buf))%nat with (Z.to_nat step) by lia.
    f_equal. apply firstn_all2. lia.
  - rewrite firstn_length, skipn_length. lia.
Qed.
Lemma enc_kv_pad c k v ts st : enc_kv c k v ts st = enc_kv c k v ts [] ++ st.
Proof. unfold enc_kv. rewrite !app_nil_r, <- !app_assoc. reflexivity. Qed.
Lemma enc_kvdelta_pad c k v p ts st : enc_kvdelta c k v p ts st = enc_kvdelta c k v p ts [] ++ st.
Proof. unfold enc_kvdelta. rewrite !app_nil_r, <- !app_assoc. reflexivity. Qed.
Lemma len_app {A} (a b : list A) : len (a ++ b) = len a + len b. Proof. unfold len. rewrite app_length. lia. Qed.
Lemma le_len n v : len (le_bytes n v) = Z.of_nat n.
Proof. unfold len. f_equal. revert v. induction n; intros; cbn; auto. Qed.
Lemma req_bytes_len r : len (req_bytes r) = req_step r - 4.
Proof. unfold req_bytes, req_step. destruct (is_modify r); unfold enc_kv, enc_kvdelta; rewrite !len_app, !le_len; change (len (@nil Z)) with 0; lia. Qed.
Lemma even_odd z : Z.even z = negb (Z.odd z). Proof. rewrite <- Z.negb_odd. reflexivity. Qed.
Lemma req_entry r st : store_entry (entry_of r) st = req_bytes r ++ st.
Proof.
  unfold entry_of, req_bytes, is_modify. rewrite even_odd. destruct (q_cmd r); cbn [code]; try (cbn [store_entry]; apply enc_kv_pad).
  destruct (q_prev r =? 0), (Z.odd (q_prev r)); cbn [negb orb andb store_entry]; auto using enc_kv_pad, enc_kvdelta_pad.
Qed.

(* The bytes are those of the entries es. *)
Definition holds (bytes : list Z) (es : list entry) : Prop := exists l, entries l = es /\ Forall (fun x => len (snd x) = 4) l /\ bytes = log_file l.
Lemma holds_nil : holds [] []. Proof. exists []. repeat split; auto. Qed.
Lemma holds_app a es b e st : holds a es -> b = store_entry e st -> len st = 4 -> holds (a ++ b) (es ++ [e]).
Proof.
  intros (l & E & F & ->) -> L. exists (l ++ [(e, st)]). unfold entries, log_file in *. rewrite !map_app, concat_app. cbn [map concat fst snd]. rewrite app_nil_r. split; [now rewrite E|]. split; auto.
  apply Forall_app. auto.
Qed.
(* What lies before a position of a buffer. *)
Definition upto (x : list Z * Z) : list Z := firstn (Z.to_nat (snd x)) (fst x).
Definition room (L : Z) (x : list Z * Z) (k : Z) : Prop := len (fst x) = L /\ 0 <= snd x /\ snd x + k <= L.
Lemma emit_entry L x k e st0 bytes step pre es : L < 2 ^ 32 -> room L x k -> step <= k -> len bytes <= step -> holds (pre ++ upto x) es -> (forall st, len st = step - len bytes -> exists st', len st' = 4 /\ bytes ++ st = store_entry e st') -> st0 = 4 ->
  exists x', emit bytes step (Some x) = Some x' /\ room L x' (k - step) /\ snd x' = snd x + step /\ holds (pre ++ upto x') (es ++ [e]).
Proof.
  intros HL (R1 & R2 & R3) Hk Hb Hh He _. destruct x as [buf pos]. cbn [fst snd] in *.
  destruct (emit_ok bytes step buf pos R2 ltac:(lia) ltac:(lia) Hb) as (buf' & stale & E1 & E2 & E3 & E4).
  exists (buf', pos + step). split; auto. split; [unfold room, len in *; cbn [fst snd]; lia|]. split; [reflexivity|]. unfold upto in *. cbn [fst snd] in *. rewrite E3.
  destruct (He stale E4) as (st' & L4 & E5). rewrite E5, app_assoc. eapply holds_app; eauto.
Qed.
Definition zero4 : list Z := [0; 0; 0; 0].
Lemma emit_epoch L x k e pre es : L < 2 ^ 32 -> room L x k -> 16 <= k -> holds (pre ++ upto x) es ->
  exists x', emit (enc_epoch logcmd_epoch e) 16 (Some x) = Some x' /\ room L x' (k - 16) /\ snd x' = snd x + 16 /\ holds (pre ++ upto x') (es ++ [EEpoch e]).
Proof.
  intros HL R Hk Hh. assert (Le : len (enc_epoch logcmd_epoch e) = 16) by (unfold enc_epoch; rewrite !len_app, !le_len; lia). eapply (emit_entry L x k (EEpoch e) 4); eauto; [lia|].
  intros st Hs. exists zero4. split; [reflexivity|]. destruct st; [|unfold len in *; cbn in Hs; lia]. rewrite app_nil_r. reflexivity.
Qed.
Lemma emit_base L x k c e pre es : L < 2 ^ 32 -> room L x k -> 8 <= k -> holds (pre ++ upto x) es -> (forall st, store_entry e st = enc_base c) ->
  exists x', emit (enc_base c) 8 (Some x) = Some x' /\ room L x' (k - 8) /\ snd x' = snd x + 8 /\ holds (pre ++ upto x') (es ++ [e]).
Proof.
  intros HL R Hk Hh He. assert (Le : len (enc_base c) = 8) by (unfold enc_base; rewrite !len_app, !le_len; lia). eapply (emit_entry L x k e 4); eauto; [lia|].
  intros st Hs. exists zero4. split; [reflexivity|]. destruct st; [|unfold len in *; cbn in Hs; lia]. rewrite app_nil_r, He. reflexivity.
Qed.
Lemma emit_req L x k r pre es : L < 2 ^ 32 -> room L x k -> req_step r <= k -> holds (pre ++ upto x) es ->
  exists x', emit (req_bytes r) (req_step r) (Some x) = Some x' /\ room L x' (k - req_step r) /\ snd x' = snd x + req_step r /\ holds (pre ++ upto x') (es ++ [entry_of r]).
Proof.
  intros HL R Hk Hh. pose proof (req_bytes_len r). eapply (emit_entry L x k (entry_of r) 4); eauto; [lia|].
  intros st Hs. exists st. split; [lia|]. now rewrite req_entry.
Qed.

(* The waiting list. *)
Definition after (l : link) : option nat := match l with LNext v => Some v | _ => None end.
Fixpoint chain (nx : nat -> link) (h : option nat) (ws : list nat) : Prop :=
  match ws with [] => h = None | t :: r => h = Some t /\ nx t <> LSelf /\ chain nx (after (nx t)) r end.
Definition last_place (p : option nat) (ws : list nat) : option nat := match rev ws with [] => p | t :: _ => Some t end.
Lemma last_place_cons p t ws : last_place p (t :: ws) = last_place (Some t) ws.
Proof. unfold last_place. cbn [rev]. destruct (rev ws); reflexivity. Qed.
Lemma walk_ok s : forall ws fuel p h, deref s p = Some h -> chain (b_next s) h ws -> Forall (fun t => b_pc s t <> None) ws -> (length ws < fuel)%nat -> walk fuel s p = Some (last_place p ws).
Proof.
  induction ws as [|t ws IH]; intros [|fuel] p h D C F L; cbn [length] in L; try lia; cbn [walk]; rewrite D; cbn [chain] in C.
  - subst h. reflexivity.
  - destruct C as (-> & C1 & C2). inversion F; subst. rewrite last_place_cons. apply (IH fuel (Some t) (after (b_next s t))); auto; [|lia].
    cbn [deref]. destruct (b_pc s t); [|contradiction]. destruct (b_next s t); [contradiction|reflexivity|reflexivity].
Qed.
Lemma chain_ext nx nx' : forall ws h, (forall t, In t ws -> nx' t = nx t) -> chain nx h ws -> chain nx' h ws.
Proof. induction ws as [|t ws IH]; intros h H C; cbn in *; auto. destruct C as (A & B & C). rewrite (H t (or_introl eq_refl)). split; auto. Qed.
Lemma chain_snoc nx t : forall ws h, NoDup ws -> ~ In t ws -> chain nx h ws ->
  match last_place None ws with
  | None => chain (pset nx t LNull) (Some t) [t]
  | Some u => chain (pset (pset nx u (LNext t)) t LNull) h (ws ++ [t])
  end.
Proof.
  assert (G : forall ws h u, NoDup ws -> ~ In t ws -> chain nx h ws -> ws <> [] -> last_place None ws = Some u -> chain (pset (pset nx u (LNext t)) t LNull) h (ws ++ [t])).
  { induction ws as [|w ws IH]; intros h u N I C E L; [congruence|]. cbn [chain app] in *. destruct C as (-> & C1 & C2). inversion N; subst. rewrite last_place_cons in L.
    assert (w <> t) by (intros ->; apply I; now left). assert (Hw : forall f, pset f t LNull w = f w) by (intros f; unfold pset; destruct (Nat.eqb_spec w t); [congruence|reflexivity]).
    rewrite !Hw. split; [reflexivity|]. destruct ws as [|w' ws].
    - cbn in L. injection L as <-. unfold pset at 1. rewrite Nat.eqb_refl. split; [discriminate|]. cbn [app chain]. unfold pset at 1 4. rewrite !Nat.eqb_refl. cbn [after]. repeat split; auto. unfold pset. rewrite Nat.eqb_refl. discriminate.
    - assert (Hu : u <> w). { unfold last_place in L. destruct (rev (w' :: ws)) as [|x l] eqn:R; [apply (f_equal (@length nat)) in R; rewrite rev_length in R; discriminate|]. injection L as ->. intros ->. apply H1. apply in_rev. rewrite R. now left. }
      unfold pset at 1. destruct (Nat.eqb_spec w u); [congruence|]. split; auto. unfold pset at 3. destruct (Nat.eqb_spec w u); [congruence|]. apply IH; auto; [intros X; apply I; now right|discriminate|].
      rewrite <- L. rewrite last_place_cons. symmetry. apply last_place_cons. }
  intros ws h N I C. destruct (last_place None ws) as [u|] eqn:L.
  - apply G; auto. intros ->. discriminate.
  - cbn. unfold pset. rewrite Nat.eqb_refl. repeat split; auto. discriminate.
Qed.
