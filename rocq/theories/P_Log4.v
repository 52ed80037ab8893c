(* Reading arbitrary bytes as a log; concrete logs that recovery treats wrongly. *)
From Verif Require Import Lib M_Key P_Key M_Circular P_Circular M_Msgpack M_Bag M_Log Spec_Log M_Logfile P_Log1 P_Log2 P_Log3.

Lemma extract_next lr s lr' next : extract lr s = Some (lr', next) -> lr_command lr' = logcmd_none \/ exists k, (8 <= k)%nat /\ next = skipn k s.
Proof.
  unfold extract. intros H.
  repeat match type of H with
  | (if ?b then _ else _) = _ => destruct b eqn:?
  | match ?x with Some _ => _ | None => None end = _ => destruct x eqn:?; [|discriminate]
  end; injection H as <- <-; auto; right; eexists; (split; [|reflexivity]);
  match goal with H : (?z <? 8) = false |- (_ <= Z.to_nat ?z)%nat => lia end.
Qed.
Lemma bytes_ok_skipn k s : bytes_ok s -> bytes_ok (skipn k s).
Proof. intros H. rewrite <- (firstn_skipn k s) in H. apply Forall_app in H. tauto. Qed.
Lemma skipn_skipn_add {A} j k (s : list A) : skipn j (skipn k s) = skipn (k + j) s.
Proof. revert s. induction k as [|k IH]; intros s; auto. destruct s; [now rewrite !skipn_nil|apply IH]. Qed.
Lemma extract_all_unsafe f : forall lr s, bytes_ok s -> (length s <= f)%nat -> extract_all f lr s = None ->
  exists k, ld (skipn k s) 0 4 = Some logcmd_modify /\ len (skipn k s) < 28.
Proof.
  induction f as [|f IH]; intros lr s Hb Hf H.
  - destruct s; [discriminate|cbn in Hf; lia].
  - cbn [extract_all] in H. destruct s as [|b s]; [discriminate|]. destruct (extract lr (b :: s)) as [[lr' next]|] eqn:E.
    + destruct (lr_command lr' =? logcmd_none) eqn:Ec; [discriminate|]. destruct (extract_next _ _ _ _ E) as [Hn|(k & Hk & Hn)]; [lia|].
      destruct (extract_all f lr' next) eqn:E2; [discriminate|]. rewrite Hn in E2.
      destruct (IH lr' (skipn k (b :: s)) (bytes_ok_skipn _ _ Hb) ltac:(rewrite skipn_length; lia) E2) as (j & J1 & J2).
      rewrite skipn_skipn_add in J1, J2. eauto.
    + exists 0%nat. rewrite skipn_O. destruct (Z_lt_le_dec (len (b :: s)) 28) as [L|L].
      * split; auto. destruct (ld (b :: s) 0 4) as [v|] eqn:El.
        -- destruct (Z.eq_dec v logcmd_modify) as [->|N]; auto. destruct (extract_safe lr (b :: s) Hb) as [r Hr]; [left; congruence|congruence].
        -- destruct (extract_safe lr (b :: s) Hb) as [r Hr]; [left; congruence|congruence].
      * destruct (extract_safe lr (b :: s) Hb (or_intror L)) as [r Hr]. congruence.
Qed.
Lemma read_log_unsafe s : bytes_ok s -> read_log s = None -> exists k, ld (skipn k s) 0 4 = Some logcmd_modify /\ len (skipn k s) < 28.
Proof. intros Hb H. apply (extract_all_unsafe (length s) lr_init); auto. Qed.

(* Decidable forms of the conditions on entries. *)
Definition kv_okb (k v : list Z) (ts : Z) : bool := bytes_okb k && bytes_okb v && (len k <=? 255) && (len v <? 2 ^ 31) && (0 <=? ts) && (ts <? 2 ^ 64).
Definition entry_okb (e : entry) : bool :=
  match e with
  | EPut k v ts | EReplace k v ts | ERemove k v ts => kv_okb k v ts
  | EModify k v ts prev => kv_okb k v ts && (0 <=? prev) && (prev <? 2 ^ 64)
  | EEpoch e => (0 <=? e) && (e <? 2 ^ 64)
  | EQuiesce | EWake => true
  end.
Definition file_okb (l : list (entry * list Z)) : bool := forallb (fun x => entry_okb (fst x) && (len (snd x) =? 4)) l.
Lemma kv_okb_ok k v ts : kv_okb k v ts = true -> kv_ok k v ts.
Proof. unfold kv_okb, kv_ok. rewrite !andb_true_iff. intros H. repeat split; try lia; now apply bytes_okb_spec. Qed.
Lemma entry_okb_ok e : entry_okb e = true -> entry_ok e.
Proof. destruct e; cbn [entry_okb entry_ok]; rewrite ?andb_true_iff; intros; try (now apply kv_okb_ok); try (split; [apply kv_okb_ok; tauto|lia]); try lia; exact I. Qed.
Lemma file_okb_ok l : file_okb l = true -> file_ok l.
Proof. unfold file_okb, file_ok. rewrite forallb_forall, Forall_forall. intros H x Hx. apply H in Hx. apply andb_true_iff in Hx. split; [now apply entry_okb_ok|lia]. Qed.

Lemma round_trip lr e stale rest : entry_ok e -> len stale = 4 ->
  exists lr', extract lr (store_entry e stale ++ rest) = Some (lr', rest) /\ view lr' = Some e /\
    lr_epoch lr' = (match e with EEpoch x => x | _ => lr_epoch lr end) /\ lr_command lr' <> logcmd_none.
Proof. intros He Hs. destruct (extract_entry lr e stale rest He Hs) as (lr' & E & V & Ep & C & _). exists lr'. repeat split; auto; destruct e; auto. Qed.

Lemma empty_key_skipped : exists l u r, file_ok l /\ epochs_from 0 (entries l) /\ epochs_small (entries l) /\ starts_before 0 (entries l) /\
  In (1, u) (wanted 0 2 (entries l)) /\ replay_log (log_file l) 0 2 = Some r /\ rp_run r = [].
Proof.
  exists [(EEpoch 1, [0; 0; 0; 0]); (EPut [] [1; 0; 161; 97] 2, [0; 0; 0; 0])], (EPut [] [1; 0; 161; 97] 2), (MkRp [] 0 44).
  split; [apply file_okb_ok; vm_compute; reflexivity|].
  split; [cbn; lia|]. split; [cbn; lia|]. split; [cbn; lia|]. split; [cbn; auto|]. split; [vm_compute; reflexivity|]. reflexivity.
Qed.
Lemma long_key_stops : exists l u r, Forall (fun x => len (snd x) = 4) l /\ epochs_from 0 (entries l) /\ starts_before 0 (entries l) /\ entry_ok u /\
  (forall k v ts, In (EPut k v ts) (entries l) -> bytes_ok k /\ bytes_ok v /\ len k <= 256) /\
  In (1, u) (wanted 0 2 (entries l)) /\ replay_log (log_file l) 0 2 = Some r /\ rp_run r = [].
Proof.
  exists [(EEpoch 1, [0; 0; 0; 0]); (EPut (repeat 97 256) [1; 0; 161; 97] 2, [0; 0; 0; 0]); (EPut [98] [1; 0; 161; 97] 2, [0; 0; 0; 0])], (EPut [98] [1; 0; 161; 97] 2), (MkRp [] 0 16).
  split; [repeat constructor|]. split; [cbn [entries map fst epochs_from]; lia|]. split; [cbn [entries map fst starts_before]; lia|].
  split; [apply entry_okb_ok; vm_compute; reflexivity|].
  split. { intros k v ts H. cbn [entries map fst In] in H. destruct H as [H|[H|[H|[]]]]; try discriminate; injection H as <- <- <-.
    all: split; [apply bytes_okb_spec; vm_compute; reflexivity|split; [apply bytes_okb_spec; vm_compute; reflexivity|vm_compute; discriminate]]. }
  split; [vm_compute; auto|]. split; [vm_compute; reflexivity|]. reflexivity.
Qed.
Lemma modify_overread : exists s, bytes_ok s /\ len s = 8 /\ read_log s = None.
Proof.
  exists [107; 77; 79; 68; 8; 0; 0; 0]. split; [apply bytes_okb_spec; vm_compute; reflexivity|]. split; [reflexivity|]. vm_compute. reflexivity.
Qed.
