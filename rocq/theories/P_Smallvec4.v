(* small_vector: the statements, and the runs that go wrong. *)
From Verif Require Import Lib M_Smallvec Spec_Smallvec P_Smallvec1 P_Smallvec2 P_Smallvec3.

Lemma sv_values fix_ N l q : (1 <= N)%nat -> Z.of_nat N <= 2 ^ 30 -> srun (fun _ => None) l = Some q -> stays_small (fun _ => None) l -> fix_ = true \/ Forall no_alias l ->
  exists s, vrun fix_ N vst0 l = Some s /\ (forall i, match q i with Some r => shows s i r | None => s_env s i = None end).
Proof.
  intros HN HN2 Hs Sm Hf. destruct (vrun_ok fix_ N HN HN2 l _ _ q (vinv_0 N) Hs Sm Hf) as (s & E & V). exists s. split; auto. intros i. destruct (q i) as [r|] eqn:Hq; [exact (vinv_shows _ _ _ _ _ V Hq)|exact (env_none _ _ _ _ V Hq)].
Qed.
Lemma sv_objects fix_ N l q s : (1 <= N)%nat -> Z.of_nat N <= 2 ^ 30 -> srun (fun _ => None) l = Some q -> stays_small (fun _ => None) l -> fix_ = true \/ Forall no_alias l -> vrun fix_ N vst0 l = Some s ->
  (forall p b, s_mem s p = Some b -> exists i x, s_env s i = Some x /\ (p = v_first x /\ objects b = v_size x \/ p = Inl i /\ p <> v_first x /\ objects b = 0%nat)) /\
  (forall i j x y, s_env s i = Some x -> s_env s j = Some y -> i <> j -> v_first x <> v_first y) /\
  ((forall i, q i = None) -> forall p, s_mem s p = None).
Proof.
  intros HN HN2 Hs Sm Hf Hv. destruct (vrun_ok fix_ N HN HN2 l _ _ q (vinv_0 N) Hs Sm Hf) as (s' & E & V). assert (s' = s) as -> by congruence. split; [intros p b; exact (vinv_objects _ _ _ _ _ V)|]. split; [intros i j x y H1 H2 H3; exact (first_ne _ _ _ _ _ _ _ V H1 H2 H3)|exact (vinv_empty _ _ _ V)].
Qed.
Lemma sv_alias : exists l q, srun (fun _ => None) l = Some q /\ q 0%nat = Some [7; 7] /\ stays_small (fun _ => None) l /\ vrun false 1 vst0 l = None.
Proof.
  exists [New 0; Push 0 7; PushAt 0 0 0]. eexists. split; [reflexivity|]. split; [reflexivity|]. split; [|reflexivity]. cbn [stays_small sstep sput Nat.eqb nth_error]. unfold small.
  repeat split; intros i l; unfold sput; try (destruct (i =? 0)%nat); intros E; try discriminate; injection E as <-; cbn; lia.
Qed.
Lemma sv_zero fix_ : exists l q, srun (fun _ => None) l = Some q /\ q 0%nat = Some [7] /\ Forall no_alias l /\ vrun fix_ 0 vst0 l = None.
Proof. exists [New 0; Push 0 7]. eexists. split; [reflexivity|]. split; [reflexivity|]. split; [repeat constructor|reflexivity]. Qed.
Lemma big_nat : exists n, Z.of_nat n = 2 ^ 31.
Proof. exists (Z.to_nat (2 ^ 31)). apply Z2Nat.id. lia. Qed.
Lemma sv_size fix_ : exists l q r, srun (fun _ => None) l = Some q /\ q 0%nat = Some r /\ Forall no_alias l /\ vrun fix_ 1 vst0 l = None.
Proof.
  destruct big_nat as (n & Hn). exists [New 0; Resize 0 n 7; Push 0 7]. eexists. eexists. split; [reflexivity|]. split; [reflexivity|]. split; [repeat constructor|].
  set (s0 := MkVst (eput (fun _ => None) 0 (Some (MkSv (Inl 0) 0 1))) (mput (fun _ => None) (Inl 0) (Some (repeat Raw 1))) 0).
  assert (V0 : vinv 1 s0 (sput (fun _ => None) 0 (Some []))). { apply (new_ok 1 vst0 (fun _ => None) 0); [lia|apply vinv_0|reflexivity]. }
  assert (E0 : s_env s0 0 = Some (MkSv (Inl 0) 0 1)) by reflexivity. change (vrun fix_ 1 vst0 [New 0; Resize 0 n 7; Push 0 7]) with (vrun fix_ 1 s0 [Resize 0 n 7; Push 0 7]). clearbody s0.
  destruct (grow_ok 1 s0 _ 0 (MkSv (Inl 0) 0 1) [] n 31 V0 E0 eq_refl (le_n 1) ltac:(lia)) as (s1 & G1 & V1 & G3 & _). { cbn [v_cap]. rewrite Hn. reflexivity. } { cbn. lia. }
  cbn [v_cap v_size] in G3. change (Z.of_nat 1 * 2 ^ 31) with (2 ^ 31) in G3. rewrite <- Hn, Nat2Z.id in G3. cbn [vrun vstep]. rewrite E0. cbn [v_cap]. replace (1 <? n)%nat with true by (symmetry; apply Nat.ltb_lt; lia). cbn [maybe_grow]. rewrite G1, G3. cbn [v_size v_first v_cap]. replace (n <? 0)%nat with false by reflexivity.
  destruct (i_vec _ _ _ V1 _ _ _ G3 eq_refl) as (_ & _ & A3 & _). cbn [v_first v_cap] in A3. unfold layout in A3. cbn [objs map app length] in A3. rewrite Nat.sub_0_r in *.
  destruct (fill_ok (Hp (s_next s0)) 7 n (s_mem s1) [] [] 0) as (m & E & M1 & _); [cbn [app]; rewrite app_nil_r; exact A3|reflexivity|]. rewrite E. cbn [app] in M1. rewrite app_nil_r in M1.
  unfold push, full, set_mem. cbn [s_env]. rewrite eput_eq. cbn [v_size v_cap]. rewrite Nat.eqb_refl. cbn [maybe_grow]. unfold grow. cbn [s_env]. rewrite eput_eq. cbn [v_size v_cap v_first s_mem s_next]. rewrite Hn.
  change (new_cap (2 ^ 31) (Z.of_nat 0)) with (Some 0). cbv iota beta. destruct n as [|n]; [discriminate|]. cbn [relocate]. unfold construct_moved, cget. rewrite mput_eq. cbn [Z.to_nat repeat nth_error]. now destruct (match mput m _ _ _ with Some _ => _ | None => _ end) as [[|]|].
Qed.
Lemma sv_repaired N l q : (1 <= N)%nat -> Z.of_nat N <= 2 ^ 30 -> srun (fun _ => None) l = Some q -> stays_small (fun _ => None) l ->
  exists s, vrun true N vst0 l = Some s /\ (forall i, match q i with Some r => shows s i r | None => s_env s i = None end) /\ ((forall i, q i = None) -> forall p, s_mem s p = None).
Proof.
  intros HN HN2 Hs Sm. destruct (sv_values true N l q HN HN2 Hs Sm (or_introl eq_refl)) as (s & E & H). exists s. split; auto. split; auto. exact (proj2 (proj2 (sv_objects true N l q s HN HN2 Hs Sm (or_introl eq_refl) E))).
Qed.
