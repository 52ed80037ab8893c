(* Round trip of log records; torn logs. *)
From Verif Require Import Lib M_Key P_Key M_Circular M_Msgpack M_Bag M_Log Spec_Log M_Logfile.

Definition epoch_now (cur : Z) (e : entry) : Z := match e with EEpoch e => e | _ => cur end.

Definition size_of_entry (e : entry) : Z :=
  match e with
  | EPut k v _ | EReplace k v _ | ERemove k v _ => 24 + len k + len v
  | EModify k v _ _ => 32 + len k + len v
  | EEpoch _ => 16
  | EQuiesce | EWake => 8
  end.

Lemma le_len n x : len (le_bytes n x) = Z.of_nat n.
Proof. unfold len. now rewrite le_bytes_length. Qed.
Lemma store_len e stale : len stale = 4 -> len (store_entry e stale) = size_of_entry e.
Proof. intros H. destruct e; cbn [store_entry size_of_entry]; unfold enc_kv, enc_kvdelta, enc_epoch, enc_base; rewrite ?len_app, ?le_len, ?H; lia. Qed.
Lemma size_ge e : 8 <= size_of_entry e.
Proof. destruct e as [k v t|k v t|k v t|k v t p|e0| |]; cbn [size_of_entry]; try (pose proof (len_nonneg k); pose proof (len_nonneg v)); lia. Qed.

Lemma bytes_at_mid a x b (k n : nat) : k = length a -> n = length x -> bytes_at (a ++ x ++ b) k n = Some x.
Proof.
  intros -> ->. unfold bytes_at. replace (_ <? _)%nat with false by (rewrite !app_length; symmetry; apply Nat.ltb_ge; lia).
  rewrite skipn_app, skipn_all, Nat.sub_diag. cbn [skipn app]. now rewrite firstn_app, firstn_all, Nat.sub_diag, app_nil_r.
Qed.
Lemma ld_mid a n x b k : k = length a -> 0 <= x < 256 ^ Z.of_nat n -> ld (a ++ le_bytes n x ++ b) k n = Some x.
Proof. intros Hk Hx. unfold ld. rewrite (bytes_at_mid a (le_bytes n x) b) by (auto; now rewrite le_bytes_length). now rewrite le_val_bytes. Qed.
Lemma ld_0 n x b : 0 <= x < 256 ^ Z.of_nat n -> ld (le_bytes n x ++ b) 0 n = Some x.
Proof. apply (ld_mid []). reflexivity. Qed.
Lemma skip_store (a b : list Z) n : n = len a -> skipn (Z.to_nat n) (a ++ b) = b.
Proof. intros ->. unfold len. rewrite Nat2Z.id. now rewrite skipn_app, skipn_all, Nat.sub_diag. Qed.

Lemma app_assoc4 (a b c d : list Z) : (a ++ b ++ c) ++ d = a ++ b ++ c ++ d. Proof. now rewrite !app_assoc. Qed.

Ltac pw := unfold logcmd_put, logcmd_replace, logcmd_remove, logcmd_modify, logcmd_epoch, logcmd_quiesce, logcmd_wake in *; change (256 ^ Z.of_nat 4) with 4294967296 in *; change (256 ^ Z.of_nat 8) with 18446744073709551616 in *;
  change (2 ^ 64) with 18446744073709551616 in *; lia.
Ltac arith := unfold len in *; rewrite ?app_length, ?le_bytes_length; lia.

(* An extracted kv record. *)
Lemma extract_kv c lr key val ts stale rest : (c = logcmd_put \/ c = logcmd_replace \/ c = logcmd_remove) -> kv_ok key val ts -> len stale = 4 ->
  extract lr (enc_kv c key val ts stale ++ rest) = Some (MkLr c key val ts (lr_prev lr) (lr_epoch lr), rest).
Proof.
  intros Hc (_ & _ & Hk & Hv & Ht) Hs. pose proof (len_nonneg key). pose proof (len_nonneg val). pose proof (len_nonneg rest).
  assert (Cr : 0 <= c < 256 ^ Z.of_nat 4) by (destruct Hc as [->|[->| ->]]; pw).
  unfold extract. set (s := enc_kv c key val ts stale ++ rest).
  assert (Ls : len s = 24 + len key + len val + len rest) by (unfold s, enc_kv; rewrite !len_app, !le_len; lia).
  assert (Es : s = le_bytes 4 c ++ le_bytes 4 (24 + len key + len val) ++ le_bytes 8 ts ++ le_bytes 4 (len key) ++ key ++ val ++ stale ++ rest).
  { unfold s, enc_kv. rewrite Z.mod_small by lia. now rewrite <- !app_assoc. }
  replace (len s <? 8) with false by lia.
  assert (E1 : ld s 4 4 = Some (24 + len key + len val)) by (rewrite Es; apply ld_mid; [now rewrite le_bytes_length|pw]).
  assert (E2 : ld s 0 4 = Some c) by (rewrite Es; apply ld_0; auto).
  assert (E3 : ld s 16 4 = Some (len key)).
  { rewrite Es. rewrite (app_assoc (le_bytes 4 c)), (app_assoc _ (le_bytes 8 ts)). apply ld_mid; [now rewrite !app_length, !le_bytes_length|pw]. }
  assert (E4 : ld s 8 8 = Some ts).
  { rewrite Es. rewrite (app_assoc (le_bytes 4 c)). apply ld_mid; [now rewrite !app_length, !le_bytes_length|pw]. }
  assert (E5 : bytes_at s 20 (Z.to_nat (len key)) = Some key).
  { rewrite Es. rewrite (app_assoc (le_bytes 4 c)), (app_assoc _ (le_bytes 8 ts)), (app_assoc _ (le_bytes 4 (len key))). apply bytes_at_mid; [now rewrite !app_length, !le_bytes_length|arith]. }
  assert (E6 : bytes_at s (20 + Z.to_nat (len key)) (Z.to_nat (24 + len key + len val - 24 - len key)) = Some val).
  { rewrite Es. rewrite (app_assoc (le_bytes 4 c)), (app_assoc _ (le_bytes 8 ts)), (app_assoc _ (le_bytes 4 (len key))), (app_assoc _ key). apply bytes_at_mid; [rewrite !app_length, !le_bytes_length; unfold len; lia|unfold len; lia]. }
  rewrite E1. replace (_ <? 8) with false by lia. replace (len s <? _) with false by lia. rewrite E2.
  replace (c =? logcmd_none) with false by (destruct Hc as [->|[->| ->]]; reflexivity).
  replace ((c =? logcmd_put) || (c =? logcmd_replace) || (c =? logcmd_remove)) with true by (destruct Hc as [->|[->| ->]]; reflexivity).
  replace (_ <? 24) with false by lia. rewrite E3. replace (maxkeylen <? len key) with false by (unfold maxkeylen; lia). replace (_ <? 24 + len key) with false by lia. cbn [orb].
  rewrite E4, E5, E6. f_equal. f_equal. unfold s, enc_kv. rewrite !app_assoc. apply skip_store. rewrite !len_app, !le_len. lia.
Qed.

Lemma extract_kvdelta lr key val ts prev stale rest : kv_ok key val ts -> 0 <= prev < 2 ^ 64 -> len stale = 4 ->
  extract lr (enc_kvdelta logcmd_modify key val prev ts stale ++ rest) = Some (MkLr logcmd_modify key val ts prev (lr_epoch lr), rest).
Proof.
  intros (_ & _ & Hk & Hv & Ht) Hp Hs. pose proof (len_nonneg key). pose proof (len_nonneg val). pose proof (len_nonneg rest).
  unfold extract. set (s := enc_kvdelta _ key val prev ts stale ++ rest).
  assert (Ls : len s = 32 + len key + len val + len rest) by (unfold s, enc_kvdelta; rewrite !len_app, !le_len; lia).
  set (c := logcmd_modify) in *. assert (Cr : 0 <= c < 256 ^ Z.of_nat 4) by (unfold c; pw).
  assert (Es : s = le_bytes 4 c ++ le_bytes 4 (32 + len key + len val) ++ le_bytes 8 ts ++ le_bytes 8 prev ++ le_bytes 4 (len key) ++ key ++ val ++ stale ++ rest).
  { unfold s, enc_kvdelta. rewrite Z.mod_small by lia. now rewrite <- !app_assoc. }
  replace (len s <? 8) with false by lia.
  assert (E1 : ld s 4 4 = Some (32 + len key + len val)) by (rewrite Es; apply ld_mid; [now rewrite le_bytes_length|pw]).
  assert (E2 : ld s 0 4 = Some c) by (rewrite Es; apply ld_0; auto).
  assert (E3 : ld s 24 4 = Some (len key)).
  { rewrite Es. rewrite (app_assoc (le_bytes 4 c)), (app_assoc _ (le_bytes 8 ts)), (app_assoc _ (le_bytes 8 prev)). apply ld_mid; [now rewrite !app_length, !le_bytes_length|pw]. }
  assert (E4 : ld s 8 8 = Some ts).
  { rewrite Es. rewrite (app_assoc (le_bytes 4 c)). apply ld_mid; [now rewrite !app_length, !le_bytes_length|pw]. }
  assert (E4' : ld s 16 8 = Some prev).
  { rewrite Es. rewrite (app_assoc (le_bytes 4 c)), (app_assoc _ (le_bytes 8 ts)). apply ld_mid; [now rewrite !app_length, !le_bytes_length|pw]. }
  assert (E5 : bytes_at s 28 (Z.to_nat (len key)) = Some key).
  { rewrite Es. rewrite (app_assoc (le_bytes 4 c)), (app_assoc _ (le_bytes 8 ts)), (app_assoc _ (le_bytes 8 prev)), (app_assoc _ (le_bytes 4 (len key))). apply bytes_at_mid; [now rewrite !app_length, !le_bytes_length|arith]. }
  assert (E6 : bytes_at s (28 + Z.to_nat (len key)) (Z.to_nat (32 + len key + len val - 32 - len key)) = Some val).
  { rewrite Es. rewrite (app_assoc (le_bytes 4 c)), (app_assoc _ (le_bytes 8 ts)), (app_assoc _ (le_bytes 8 prev)), (app_assoc _ (le_bytes 4 (len key))), (app_assoc _ key). apply bytes_at_mid; [rewrite !app_length, !le_bytes_length; unfold len; lia|unfold len; lia]. }
  rewrite E1. replace (_ <? 8) with false by lia. replace (len s <? _) with false by lia. rewrite E2.
  change (c =? logcmd_none) with false. change ((c =? logcmd_put) || (c =? logcmd_replace) || (c =? logcmd_remove)) with false. change (c =? c) with true. cbv iota.
  rewrite E3. replace (maxkeylen <? len key) with false by (unfold maxkeylen; lia). replace (_ <? 32 + len key) with false by lia. cbn [orb].
  rewrite E4, E4', E5, E6. f_equal. f_equal. unfold s, enc_kvdelta. rewrite !app_assoc. apply skip_store. rewrite !len_app, !le_len. lia.
Qed.

Lemma extract_epoch lr e rest : 0 <= e < 2 ^ 64 ->
  extract lr (enc_epoch logcmd_epoch e ++ rest) = Some (MkLr logcmd_epoch (lr_key lr) (lr_val lr) (lr_ts lr) (lr_prev lr) e, rest).
Proof.
  intros He. pose proof (len_nonneg rest). unfold extract. set (s := enc_epoch _ e ++ rest). set (c := logcmd_epoch) in *.
  assert (Ls : len s = 16 + len rest) by (unfold s, enc_epoch; rewrite !len_app, !le_len; lia).
  assert (Es : s = le_bytes 4 c ++ le_bytes 4 16 ++ le_bytes 8 e ++ rest) by (unfold s, enc_epoch; now rewrite <- !app_assoc).
  replace (len s <? 8) with false by lia.
  assert (E1 : ld s 4 4 = Some 16) by (rewrite Es; apply ld_mid; [now rewrite le_bytes_length|pw]).
  assert (E2 : ld s 0 4 = Some c) by (rewrite Es; apply ld_0; unfold c; pw).
  assert (E4 : ld s 8 8 = Some e).
  { rewrite Es. rewrite (app_assoc (le_bytes 4 c)). apply ld_mid; [now rewrite !app_length, !le_bytes_length|pw]. }
  rewrite E1. change (16 <? 8) with false. replace (len s <? 16) with false by lia. rewrite E2.
  change (c =? logcmd_none) with false. change ((c =? logcmd_put) || (c =? logcmd_replace) || (c =? logcmd_remove)) with false. change (c =? logcmd_modify) with false. change (c =? c) with true.
  change (16 <? 16) with false. cbv iota. rewrite E4. reflexivity.
Qed.

Lemma extract_base c lr rest : c = logcmd_quiesce \/ c = logcmd_wake ->
  extract lr (enc_base c ++ rest) = Some (MkLr c (lr_key lr) (lr_val lr) (lr_ts lr) (lr_prev lr) (lr_epoch lr), rest).
Proof.
  intros Hc. pose proof (len_nonneg rest). unfold extract. set (s := enc_base _ ++ rest).
  assert (Ls : len s = 8 + len rest) by (unfold s, enc_base; rewrite !len_app, !le_len; lia).
  assert (Es : s = le_bytes 4 c ++ le_bytes 4 8 ++ rest) by (unfold s, enc_base; now rewrite <- !app_assoc).
  replace (len s <? 8) with false by lia.
  assert (E1 : ld s 4 4 = Some 8) by (rewrite Es; apply ld_mid; [now rewrite le_bytes_length|pw]).
  assert (E2 : ld s 0 4 = Some c) by (rewrite Es; apply ld_0; destruct Hc as [->| ->]; pw).
  rewrite E1. change (8 <? 8) with false. replace (len s <? 8) with false by lia. rewrite E2.
  destruct Hc as [->| ->]; cbn [Z.eqb Pos.eqb orb logcmd_none logcmd_put logcmd_replace logcmd_remove logcmd_modify logcmd_epoch logcmd_quiesce logcmd_wake];
    (f_equal; f_equal; unfold s; apply skip_store; unfold enc_base; rewrite !len_app, !le_len; lia).
Qed.

Lemma extract_entry lr e stale rest : entry_ok e -> len stale = 4 -> exists lr',
  extract lr (store_entry e stale ++ rest) = Some (lr', rest) /\ view lr' = Some e /\ lr_epoch lr' = epoch_now (lr_epoch lr) e /\ lr_command lr' <> logcmd_none /\
  (match update_key e with Some k => lr_key lr' = k | None => lr_key lr' = lr_key lr end).
Proof.
  intros He Hs. destruct e; cbn [store_entry entry_ok] in *.
  1-3: eexists; rewrite extract_kv by auto; split; [reflexivity|]; repeat split; discriminate.
  - destruct He. eexists. rewrite extract_kvdelta by auto. split; [reflexivity|]. repeat split; discriminate.
  - eexists. rewrite extract_epoch by auto. split; [reflexivity|]. repeat split; discriminate.
  - eexists. rewrite extract_base by auto. split; [reflexivity|]. repeat split; discriminate.
  - eexists. rewrite extract_base by auto. split; [reflexivity|]. repeat split; discriminate.
Qed.
