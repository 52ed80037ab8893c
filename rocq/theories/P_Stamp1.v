(* Arithmetic of timestamps, and lists of updates. *)
From Verif Require Import Lib Spec_Stamp M_Circular M_Tree M_Stamp P_Tree1.


Definition HB : Z := 2 ^ 63.
Lemma ci_less_small a b : 0 <= a < HB -> 0 <= b < HB -> ci_less 64 a b = (a <? b).
Proof.
  unfold HB, ci_less, ci_signed, ci_wrap. change (2 ^ (64 - 1)) with (2 ^ 63). intros A B. change (2 ^ 64) with (2 * 2 ^ 63). set (H := 2 ^ 63) in *. assert (0 < H) by reflexivity.
  destruct (Z.ltb_spec a b) as [L|L].
  - rewrite <- (Z_mod_plus_full (a - b) 1), Z.mod_small by lia. destruct (Z.ltb_spec (a - b + 1 * (2 * H)) H); apply Z.ltb_lt; lia.
  - rewrite Z.mod_small by lia. destruct (Z.ltb_spec (a - b) H); apply Z.ltb_ge; lia.
Qed.
Lemma ci_less_equal_small a b : 0 <= a < HB -> 0 <= b < HB -> ci_less_equal 64 a b = (a <=? b).
Proof.
  unfold HB, ci_less_equal, ci_signed, ci_wrap. change (2 ^ (64 - 1)) with (2 ^ 63). intros A B. change (2 ^ 64) with (2 * 2 ^ 63). set (H := 2 ^ 63) in *. assert (0 < H) by reflexivity.
  destruct (Z.leb_spec a b) as [L|L].
  - destruct (Z.eq_dec a b) as [->|N]; [rewrite Z.sub_diag; reflexivity|]. rewrite <- (Z_mod_plus_full (a - b) 1), Z.mod_small by lia. destruct (Z.ltb_spec (a - b + 1 * (2 * H)) H); apply Z.leb_le; lia.
  - rewrite Z.mod_small by lia. destruct (Z.ltb_spec (a - b) H); apply Z.leb_gt; lia.
Qed.
Lemma lor1 x : x <= Z.lor x 1 <= x + 1.
Proof.
  assert (E : Z.lor x 1 = x \/ Z.lor x 1 = x + 1); [|lia].
  destruct (Z.odd x) eqn:O.
  - left. apply Z.bits_inj'. intros n Hn. rewrite Z.lor_spec. destruct (Z.eq_dec n 0) as [->|N].
    + rewrite Z.bit0_odd, O. reflexivity.
    + change 1 with (2 ^ 0). rewrite Z.pow2_bits_false by lia. apply Bool.orb_false_r.
  - right. rewrite <- Z.lxor_lor, Z.add_nocarry_lxor; auto.
    + apply Z.bits_inj'. intros n Hn. rewrite Z.land_spec, Z.bits_0. destruct (Z.eq_dec n 0) as [->|N]; [rewrite Z.bit0_odd, O; reflexivity|]. change 1 with (2 ^ 0). rewrite Z.pow2_bits_false by lia. apply Bool.andb_false_r.
    + apply Z.bits_inj'. intros n Hn. rewrite Z.land_spec, Z.bits_0. destruct (Z.eq_dec n 0) as [->|N]; [rewrite Z.bit0_odd, O; reflexivity|]. change 1 with (2 ^ 0). rewrite Z.pow2_bits_false by lia. apply Bool.andb_false_r.
Qed.
Lemma wrap_small x : 0 <= x < HB -> ci_wrap 64 x = x.
Proof. unfold HB, ci_wrap. intros A. apply Z.mod_small. change (2 ^ 64) with (2 * 2 ^ 63). lia. Qed.
Lemma update_ts_ok c x b : 0 <= c <= b -> 0 <= x <= b -> b + 8 < HB -> x < update_ts c x <= b + 2 /\ c <= update_ts c x.
Proof.
  intros A B C. unfold update_ts. rewrite ci_less_equal_small by lia. pose proof (lor1 x) as L. destruct (Z.leb_spec c x); [|lia]. rewrite wrap_small by lia. lia.
Qed.
Lemma observe_ok c p b : 0 <= c <= b -> 0 <= p <= b -> b + 8 < HB -> p <= observe c p <= b /\ c <= observe c p.
Proof. intros A B C. unfold observe. rewrite ci_less_small by lia. destruct (Z.ltb_spec c p); lia. Qed.

Definition ph_in (ph : phantoms) (b : Z) : Prop := forall a, 0 <= ph a <= b.
Lemma raise_ok ph b a x : ph_in ph b -> 0 <= x <= b -> b < HB -> ph_in (raise ph a x) b /\ (forall c, ph c <= raise ph a x c) /\ x <= raise ph a x a.
Proof.
  intros P X B. unfold raise. pose proof (P a). rewrite ci_less_small by lia. destruct (Z.ltb_spec (ph a) x) as [L|L].
  - split; [|split].
    + intros c. destruct (Nat.eq_dec c a) as [->|N]; [rewrite upd_same; lia|rewrite upd_other by auto; apply P].
    + intros c. destruct (Nat.eq_dec c a) as [->|N]; [rewrite upd_same; lia|rewrite upd_other by auto; lia].
    + rewrite upd_same. lia.
  - split; [auto|]. split; [intros; lia|lia].
Qed.
Lemma inherit_ok ph b from upto n : ph_in ph b -> ph_in (inherit ph from upto n) b.
Proof. intros P a. unfold inherit. destruct (_ && _); apply P. Qed.
Lemma inherit_old ph from upto n a : (a < from)%nat -> inherit ph from upto n a = ph a.
Proof. intros L. unfold inherit. destruct (Nat.leb_spec from a); [lia|reflexivity]. Qed.
Lemma inherit_new ph from upto n a : (from <= a < upto)%nat -> inherit ph from upto n a = ph n.
Proof. intros L. unfold inherit. destruct (Nat.leb_spec from a); [|lia]. destruct (Nat.ltb_spec a upto); [reflexivity|lia]. Qed.

(* Lists of updates. *)
Lemma latest_snoc k l e : latest k (l ++ [e]) = if list_eq_dec Z.eq_dec (u_key e) k then Some e else latest k l.
Proof. unfold latest. rewrite rev_app_distr. cbn [rev app find]. destruct (list_eq_dec Z.eq_dec (u_key e) k); reflexivity. Qed.
Lemma latest_In k l a : latest k l = Some a -> In a l /\ u_key a = k.
Proof. intros H. apply find_some in H. destruct H as [A B]. split; [now apply in_rev|]. destruct (list_eq_dec Z.eq_dec (u_key a) k); [auto|discriminate]. Qed.
Lemma snoc_cases {A} (l : list A) : l = [] \/ exists l' x, l = l' ++ [x].
Proof. destruct l as [|a l]; [auto|]. destruct (@exists_last _ (a :: l)) as (l' & x & E); [discriminate|]. right. eauto. Qed.
Lemma snoc_inv {A} (l1 : list A) b l3 l e : l1 ++ b :: l3 = l ++ [e] -> (l3 = [] /\ l1 = l /\ b = e) \/ exists l3', l3 = l3' ++ [e] /\ l = l1 ++ b :: l3'.
Proof.
  destruct (@snoc_cases A l3) as [->|(l3' & x & ->)]; intros E.
  - left. apply app_inj_tail in E. tauto.
  - right. exists l3'. rewrite app_comm_cons, app_assoc in E. apply app_inj_tail in E. destruct E as [<- <-]. auto.
Qed.
Definition tops (l : list upd_rec) : Prop := forall e, In e l -> exists a, latest (u_key e) l = Some a /\ u_ts e <= u_ts a.
Lemma event_lists l e : ts_increase l -> prev_names l -> tops l ->
  (forall a, latest (u_key e) l = Some a -> u_ts a < u_ts e) ->
  u_prev e = match latest (u_key e) l with Some a => if u_rem a then 0 else u_ts a | None => 0 end ->
  ts_increase (l ++ [e]) /\ prev_names (l ++ [e]) /\ tops (l ++ [e]).
Proof.
  intros A B C D E. split; [|split].
  - intros l1 a l2 b l3 Q K. symmetry in Q. rewrite app_comm_cons, app_assoc in Q. apply snoc_inv in Q. destruct Q as [(-> & Q & ->)|(l3' & -> & Q)].
    + destruct (C a) as (x & X1 & X2); [rewrite <- Q; apply in_app_iff; right; left; auto|]. rewrite K in X1. specialize (D x X1). lia.
    + apply (A l1 a l2 b l3'); auto. rewrite Q. now rewrite <- app_assoc.
  - intros l1 b l2 Q. symmetry in Q. apply snoc_inv in Q. destruct Q as [(-> & -> & ->)|(l3' & -> & Q)]; [exact E|]. exact (B l1 b l3' Q).
  - intros x Hx. rewrite latest_snoc. apply in_app_iff in Hx. destruct (list_eq_dec Z.eq_dec (u_key e) (u_key x)) as [K|K].
    + exists e. split; auto. destruct Hx as [Hx|[<-|[]]]; [|lia]. destruct (C x Hx) as (y & Y1 & Y2). rewrite <- K in Y1. specialize (D y Y1). lia.
    + destruct Hx as [Hx|[<-|[]]]; [auto|destruct K; auto].
Qed.

(* With increasing timestamps the largest is the latest. *)
Lemma latest_cons k u l : latest k (u :: l) = match latest k l with Some v => Some v | None => if list_eq_dec Z.eq_dec (u_key u) k then Some u else None end.
Proof.
  unfold latest. cbn [rev]. generalize (rev l). intros r. induction r as [|x r IH]; cbn [app find]; [destruct (list_eq_dec _ _ _); reflexivity|]. destruct (list_eq_dec Z.eq_dec (u_key x) k); auto.
Qed.
Lemma inc_tail u l : ts_increase (u :: l) -> ts_increase l.
Proof. intros H l1 a l2 c l3 E. apply (H (u :: l1) a l2 c l3). now rewrite E. Qed.
Lemma largest_latest k l : ts_increase l -> largest k l = latest k l.
Proof.
  induction l as [|u l IH]; intros H; [reflexivity|]. rewrite latest_cons. cbn [largest]. rewrite (IH (inc_tail _ _ H)). destruct (list_eq_dec Z.eq_dec (u_key u) k) as [E|E]; destruct (latest k l) as [v|] eqn:L; auto.
  destruct (latest_In _ _ _ L) as [I1 I2]. apply in_split in I1. destruct I1 as (l1 & l2 & ->). specialize (H [] u l1 v l2 eq_refl). rewrite E, I2 in H. specialize (H eq_refl). destruct (Z.ltb_spec (u_ts u) (u_ts v)); [reflexivity|lia].
Qed.
Lemma newest_latest k l : ts_increase l -> newest k l = match latest k l with Some u => if u_rem u then None else Some (u_ts u) | None => None end.
Proof. intros H. unfold newest. now rewrite largest_latest. Qed.
