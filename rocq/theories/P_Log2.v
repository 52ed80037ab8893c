(* Torn logs, log info, replay bounds. *)
From Verif Require Import Lib M_Key P_Key M_Circular P_Circular M_Msgpack M_Bag M_Log Spec_Log M_Logfile P_Log1.

Definition torn (t : list Z) : Prop := exists e stale k, entry_ok e /\ len stale = 4 /\ (k < length (store_entry e stale))%nat /\ t = firstn k (store_entry e stale).

Lemma size_field e stale rest : entry_ok e -> len stale = 4 -> ld (store_entry e stale ++ rest) 4 4 = Some (size_of_entry e).
Proof.
  intros He Hs. destruct e as [k v t|k v t|k v t|k v t p|e0| |]; cbn [store_entry size_of_entry entry_ok] in *; unfold enc_kv, enc_kvdelta, enc_epoch, enc_base; rewrite <- !app_assoc.
  1-3: destruct He as (_ & _ & Hk & Hv & _).
  4: destruct He as [(_ & _ & Hk & Hv & _) _].
  1-4: pose proof (len_nonneg k); pose proof (len_nonneg v); rewrite Z.mod_small by lia.
  all: apply ld_mid; [now rewrite le_bytes_length|pw].
Qed.
Lemma ld_firstn s n k m : (k + m <= n)%nat -> (n <= length s)%nat -> ld (firstn n s) k m = ld s k m.
Proof.
  intros H1 H2. unfold ld, bytes_at. rewrite firstn_length_le by auto.
  replace (n <? k + m)%nat with false by (symmetry; apply Nat.ltb_ge; lia). replace (length s <? k + m)%nat with false by (symmetry; apply Nat.ltb_ge; lia).
  rewrite skipn_firstn_comm, firstn_firstn. now replace (Init.Nat.min m (n - k)) with m by lia.
Qed.

Lemma torn_size t : torn t -> len t < 8 \/ (8 <= len t /\ exists size, ld t 4 4 = Some size /\ 8 <= size /\ len t < size).
Proof.
  intros (e & stale & k & He & Hs & Hk & ->). pose proof (store_len e stale Hs) as L. pose proof (size_ge e).
  set (t := firstn _ _). assert (Lt : len t = Z.of_nat k) by (unfold t, len; rewrite firstn_length; lia).
  destruct (Z_lt_le_dec (len t) 8); [now left|]. right. split; auto. exists (size_of_entry e). split; [|unfold len in *; lia].
  unfold t. rewrite ld_firstn by (unfold len in *; lia). rewrite <- (app_nil_r (store_entry e stale)). now apply size_field.
Qed.
Lemma torn_extract lr t : torn t -> t <> [] -> exists lr', extract lr t = Some (lr', []) /\ lr_command lr' = logcmd_none.
Proof.
  intros Ht Hne. unfold extract. destruct (torn_size t Ht) as [H|(H & size & E & H1 & H2)].
  - replace (len t <? 8) with true by lia. eexists. split; reflexivity.
  - replace (len t <? 8) with false by lia. rewrite E. replace (size <? 8) with false by lia. replace (len t <? size) with true by lia. eexists. split; reflexivity.
Qed.
Lemma torn_nil : torn [].
Proof. exists EQuiesce, [0; 0; 0; 0], 0%nat. repeat split. cbn. lia. Qed.

Lemma store_nonnil e stale rest : len stale = 4 -> store_entry e stale ++ rest <> [].
Proof. intros Hs E. pose proof (store_len e stale Hs). pose proof (size_ge e). apply (f_equal len) in E. rewrite len_app, len_nil in E. pose proof (len_nonneg rest). lia. Qed.

Lemma store_length e stale : len stale = 4 -> (8 <= length (store_entry e stale))%nat.
Proof. intros Hs. pose proof (store_len e stale Hs). pose proof (size_ge e). unfold len in *. lia. Qed.

Lemma file_cons x l : log_file (x :: l) = store_entry (fst x) (snd x) ++ log_file l. Proof. reflexivity. Qed.
Lemma file_app a b : log_file (a ++ b) = log_file a ++ log_file b.
Proof. unfold log_file. now rewrite map_app, concat_app. Qed.

Lemma extract_all_ok l : file_ok l -> forall f lr t, torn t -> (length (log_file l ++ t) <= f)%nat ->
  exists rs, extract_all f lr (log_file l ++ t) = Some rs /\ map view rs = map Some (entries l).
Proof.
  induction 1 as [|[e stale] l [He Hs] Hl IH]; intros f lr t Ht Hf.
  - cbn [log_file map concat app] in *. exists []. split; auto. destruct t as [|b t]; [destruct f; reflexivity|]. destruct f; [cbn in Hf; lia|]. cbn [extract_all].
    destruct (torn_extract lr (b :: t) Ht ltac:(discriminate)) as (lr' & -> & ->). reflexivity.
  - rewrite file_cons in *. cbn [fst snd] in *. rewrite <- app_assoc in *. pose proof (store_length e stale Hs). rewrite app_length in Hf. destruct f; [lia|].
    destruct (extract_entry lr e stale (log_file l ++ t) He Hs) as (lr' & E & V & _ & C & _).
    destruct (IH f lr' t Ht ltac:(lia)) as (rs & E2 & V2). exists (lr' :: rs).
    pose proof (store_nonnil e stale (log_file l ++ t) Hs) as N. cbn [extract_all]. destruct (store_entry e stale ++ log_file l ++ t) as [|b s] eqn:Es; [easy|].
    rewrite E. replace (lr_command lr' =? logcmd_none) with false by lia. rewrite E2. split; auto. cbn [map entries fst]. f_equal; auto.
Qed.

Lemma torn_reads l x k : file_ok l -> entry_ok (fst x) -> len (snd x) = 4 -> (k < length (store_entry (fst x) (snd x)))%nat ->
  exists rs, read_log (torn_file l x k) = Some rs /\ map view rs = map Some (entries l).
Proof. intros Hl He Hs Hk. apply extract_all_ok; auto. exists (fst x), (snd x), k. auto. Qed.
Lemma file_reads l : file_ok l -> exists rs, read_log (log_file l) = Some rs /\ map view rs = map Some (entries l).
Proof. intros Hl. rewrite <- (app_nil_r (log_file l)). unfold read_log. apply extract_all_ok; auto using torn_nil. Qed.

(* Arbitrary bytes. *)
Lemma bytes_at_some s k n : (k + n <= length s)%nat -> exists b, bytes_at s k n = Some b.
Proof. intros H. unfold bytes_at. replace (_ <? _)%nat with false by (symmetry; apply Nat.ltb_ge; lia). eauto. Qed.
Lemma ld_some s k n : (k + n <= length s)%nat -> exists v, ld s k n = Some v.
Proof. intros H. unfold ld. destruct (bytes_at_some s k n H) as [b ->]. eauto. Qed.
Lemma ld_bound s k n v : bytes_ok s -> ld s k n = Some v -> 0 <= v < 256 ^ Z.of_nat n.
Proof.
  unfold ld, bytes_at. intros H. destruct (_ <? _)%nat eqn:E; [discriminate|]. intros Q. injection Q as <-. apply Nat.ltb_ge in E.
  assert (B : bytes_ok (firstn n (skipn k s))). { rewrite <- (firstn_skipn k s) in H. apply Forall_app in H as [_ H]. rewrite <- (firstn_skipn n (skipn k s)) in H. now apply Forall_app in H as [H _]. }
  replace (Z.of_nat n) with (len (firstn n (skipn k s))); [now apply le_val_bound|]. unfold len. rewrite firstn_length, skipn_length. lia.
Qed.

Lemma extract_safe lr s : bytes_ok s -> ld s 0 4 <> Some logcmd_modify \/ 28 <= len s -> exists r, extract lr s = Some r.
Proof.
  intros Hb Hm. unfold extract. destruct (len s <? 8) eqn:E0; [eauto|].
  destruct (ld_some s 4 4 ltac:(unfold len in *; lia)) as [size Es]. rewrite Es. destruct (size <? 8) eqn:E1; [eauto|]. destruct (len s <? size) eqn:E2; [eauto|].
  destruct (ld_some s 0 4 ltac:(unfold len in *; lia)) as [c Ec]. rewrite Ec in *. destruct (c =? logcmd_none) eqn:E3; [eauto|].
  destruct ((c =? logcmd_put) || (c =? logcmd_replace) || (c =? logcmd_remove)) eqn:E4.
  - destruct (size <? 24) eqn:E5; [eauto|]. destruct (ld_some s 16 4 ltac:(unfold len in *; lia)) as [kl Ek]. rewrite Ek. pose proof (ld_bound _ _ _ _ Hb Ek).
    destruct ((maxkeylen <? kl) || _) eqn:E6; [eauto|]. apply orb_false_iff in E6 as [E6 E7].
    destruct (ld_some s 8 8 ltac:(unfold len in *; lia)) as [ts ->].
    destruct (bytes_at_some s 20 (Z.to_nat kl) ltac:(unfold len in *; lia)) as [k ->].
    destruct (bytes_at_some s (20 + Z.to_nat kl) (Z.to_nat (size - 24 - kl)) ltac:(unfold len in *; lia)) as [v ->]. eauto.
  - destruct (c =? logcmd_modify) eqn:E5.
    + assert (28 <= len s). { destruct Hm as [Hm|]; auto. exfalso. apply Hm. f_equal. lia. }
      destruct (ld_some s 24 4 ltac:(unfold len in *; lia)) as [kl Ek]. rewrite Ek. pose proof (ld_bound _ _ _ _ Hb Ek).
      destruct ((maxkeylen <? kl) || _) eqn:E6; [eauto|]. apply orb_false_iff in E6 as [E6 E7].
      destruct (ld_some s 8 8 ltac:(unfold len in *; lia)) as [ts ->]. destruct (ld_some s 16 8 ltac:(unfold len in *; lia)) as [pv ->].
      destruct (bytes_at_some s 28 (Z.to_nat kl) ltac:(unfold len in *; lia)) as [k ->].
      destruct (bytes_at_some s (28 + Z.to_nat kl) (Z.to_nat (size - 32 - kl)) ltac:(unfold len in *; lia)) as [v ->]. eauto.
    + destruct (c =? logcmd_epoch) eqn:E6; [|eauto]. destruct (size <? 16) eqn:E7; [eauto|]. destruct (ld_some s 8 8 ltac:(unfold len in *; lia)) as [e ->]. eauto.
Qed.

(* ------------------------------------------------------------------ info *)
Lemma cmd_field e stale rest : entry_ok e -> len stale = 4 -> ld (store_entry e stale ++ rest) 0 4 = Some
  (match e with EPut _ _ _ => logcmd_put | EReplace _ _ _ => logcmd_replace | ERemove _ _ _ => logcmd_remove | EModify _ _ _ _ => logcmd_modify | EEpoch _ => logcmd_epoch | EQuiesce => logcmd_quiesce | EWake => logcmd_wake end).
Proof.
  intros He Hs. destruct e; cbn [store_entry]; unfold enc_kv, enc_kvdelta, enc_epoch, enc_base; rewrite <- !app_assoc; apply ld_0; pw.
Qed.
Lemma epoch_field e stale rest : 0 <= e < 2 ^ 64 -> ld (store_entry (EEpoch e) stale ++ rest) 8 8 = Some e.
Proof.
  intros He. cbn [store_entry]. unfold enc_epoch. rewrite <- !app_assoc. rewrite (app_assoc (le_bytes 4 _)). apply ld_mid; [now rewrite app_length, !le_bytes_length|pw].
Qed.
Lemma entry_frame e stale rest : entry_ok e -> len stale = 4 -> let s := store_entry e stale ++ rest in
  (len s <? 8) = false /\ (len s <? size_of_entry e) = false /\ (size_of_entry e <? 8) = false /\ skipn (Z.to_nat (size_of_entry e)) s = rest.
Proof.
  intros He Hs s. pose proof (store_len e stale Hs) as L. pose proof (size_ge e). pose proof (len_nonneg rest). unfold s. rewrite len_app, L.
  repeat split; try lia. now apply skip_store.
Qed.

Lemma ci_lt_small a b : 0 <= a < 2 ^ 63 -> 0 <= b < 2 ^ 63 -> ci_lt 64 a b = (a <? b).
Proof.
  intros Ha Hb. unfold ci_lt, ci_less, ci_signed, ci_wrap. destruct (a <? b) eqn:E.
  - replace ((a - b) mod 2 ^ 64) with (a - b + 2 ^ 64) by (apply Z.mod_unique with (q := -1); lia). change (64 - 1) with 63. destruct (_ <? 2 ^ 63) eqn:E2; lia.
  - rewrite Z.mod_small by lia. change (64 - 1) with 63. destruct (_ <? 2 ^ 63) eqn:E2; lia.
Qed.

Lemma info_ok l : file_ok l -> forall f x t, torn t -> (length (log_file l ++ t) <= f)%nat -> epochs_from (in_last x) (entries l) -> epochs_small (entries l) ->
  0 <= in_wake x <= in_last x -> in_last x < 2 ^ 63 ->
  info_loop f x (log_file l ++ t) = Some (MkInf (if in_first x =? 0 then first_epoch (entries l) else in_first x) (epoch_after (in_last x) (entries l))
     (wake_after (in_last x) (in_wake x) (entries l)) (match entries l with [] => in_quiescent x | _ => ends_quiescent (entries l) end)).
Proof.
  induction 1 as [|[e stale] l [He Hs] Hl IH]; intros f x t Ht Hf Ho Hsm Hw Hlast.
  - cbn [log_file map concat app entries] in *. cbn [first_epoch epoch_after wake_after].
    assert (R : info_loop f x t = Some x).
    { destruct (torn_size t Ht) as [H|(H & size & E & H1 & H2)].
      - destruct f; cbn [info_loop]; replace (len t <? 8) with true by lia; reflexivity.
      - destruct f; [unfold len in *; lia|]. cbn [info_loop]. replace (len t <? 8) with false by lia. rewrite E. replace (size <? 8) with false by lia. now replace (len t <? size) with true by lia. }
    rewrite R. destruct x as [a b c d]. cbn [in_first in_last in_wake in_quiescent]. destruct (a =? 0) eqn:E; auto. do 2 f_equal. lia.
  - rewrite file_cons in *. cbn [fst snd entries map] in *. fold (entries l) in *. rewrite <- app_assoc in *. pose proof (store_length e stale Hs). rewrite app_length in Hf. destruct f; [lia|].
    destruct (entry_frame e stale (log_file l ++ t) He Hs) as (F1 & F2 & F3 & F4). cbn [info_loop]. rewrite F1, (size_field e stale _ He Hs), F3, F2, (cmd_field e stale _ He Hs), F4.
    assert (EQ : forall q, (match entries l with [] => q | _ => ends_quiescent (entries l) end) = match entries l with [] => q | _ => ends_quiescent (e :: entries l) end).
    { intros q. destruct (entries l) as [|a b] eqn:El; auto. unfold ends_quiescent. cbn [rev]. destruct (rev b ++ [a]) eqn:Er; [now destruct (rev b)|]. reflexivity. }
    destruct e as [k v ts|k v ts|k v ts|k v ts pv|e0| |]; cbn [epochs_from epochs_small first_epoch epoch_after wake_after] in *.
    5:{ change (logcmd_epoch =? logcmd_epoch) with true. change (logcmd_epoch =? logcmd_quiesce) with false. cbv iota. change (size_of_entry (EEpoch e0) <? 16) with false. cbv iota.
        rewrite epoch_field by (cbn in He; lia). destruct Hsm as [Hs1 Hs2]. destruct Ho as [Ho1 Ho2].
        assert (G : (negb (in_wake x =? 0) && ci_gt 64 (in_wake x) e0) = false).
        { destruct (in_wake x =? 0); auto. cbn [negb andb]. unfold ci_gt. change (ci_less 64 e0 (in_wake x)) with (ci_lt 64 e0 (in_wake x)). rewrite ci_lt_small by lia. lia. }
        rewrite G. rewrite IH; auto; cbn [in_first in_last in_wake in_quiescent]; try lia. do 2 f_equal.
        - destruct (in_first x =? 0) eqn:E1; [|now rewrite E1]. now replace (e0 =? 0) with false by lia.
        - rewrite EQ. destruct (entries l); reflexivity. }
    6:{ change (logcmd_wake =? logcmd_epoch) with false. change (logcmd_wake =? logcmd_wake) with true. change (logcmd_wake =? logcmd_quiesce) with false. cbv iota.
        rewrite IH; auto; cbn [in_first in_last in_wake in_quiescent]; try lia. do 2 f_equal. rewrite EQ. destruct (entries l); reflexivity. }
    all: cbn [Z.eqb Pos.eqb orb known_command logcmd_put logcmd_replace logcmd_remove logcmd_modify logcmd_epoch logcmd_quiesce logcmd_wake];
      (rewrite IH; auto; cbn [in_first in_last in_wake in_quiescent]; try lia; do 2 f_equal; rewrite EQ; destruct (entries l); reflexivity).
Qed.

Lemma info_torn l x k : file_ok l -> entry_ok (fst x) -> len (snd x) = 4 -> (k < length (store_entry (fst x) (snd x)))%nat ->
  epochs_from 0 (entries l) -> epochs_small (entries l) ->
  log_info (torn_file l x k) = Some (MkInf (first_epoch (entries l)) (epoch_after 0 (entries l)) (wake_after 0 0 (entries l)) (ends_quiescent (entries l))).
Proof.
  intros Hl He Hs Hk Ho Hsm. unfold log_info, torn_file. rewrite (info_ok l Hl); auto; cbn [inf_init in_first in_last in_wake in_quiescent]; try lia.
  - do 2 f_equal. destruct (entries l); reflexivity.
  - exists (fst x), (snd x), k. auto.
Qed.
