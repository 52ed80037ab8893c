(* Shared leaf: running schedules. A schedule names the thread and, where it has a choice, what it chooses. *)
From Verif Require Import Lib M_Key M_Permuter M_Search M_Version M_Tree M_Leafread.

Inductive act :=
| ABegin (t : nat) (k : mkey) (g : goal)
| AGo (t : nat)                                     (* the thread's only possible access *)
| AUpdate (t : nat) (vals : list Z)
| ARemove (t : nat) (del : bool)
| ALayer (t : nat) (v : Z)
| AInsert (t : nat) (noprev inplace : bool) (vals : list Z).
Definition lnext (s : lst) (a : act) : option lst :=
  let m := s_m s in
  match a with
  | ABegin t k g => match s_pc s t with PIdle | PDone _ _ _ => if 0 <=? k_len k then Some (go s t (PStable k g)) else None | _ => None end
  | AUpdate t vals => match s_pc s t with
      | PHeld k i (Some p) mt => if 0 <? mt then Some (go s t (PRun (map (WLv p) vals ++ [WUnlock]))) else None | _ => None end
  | ARemove t del => match s_pc s t with
      | PHeld k i (Some p) mt => if 0 <? mt then Some (go s t (PRun (remove_prog m i del))) else None | _ => None end
  | ALayer t v => match s_pc s t with
      | PHeld k i (Some p) mt => if mt =? 0 then Some (go s t (PRun (layer_prog p v))) else None | _ => None end
  | AInsert t noprev inplace vals => match s_pc s t with
      | PHeld k i None mt => if mt =? 0 then
          match slot_for m noprev (k_ikey k) with
          | Some (p, ox) => Some (go s t (PRun (insert_prog m k i p ox inplace vals true)))
          | None => None
          end else None
      | _ => None end
  | AGo t =>
    match s_pc s t with
    | PStable k g => if nv_dirty (m_v m) then Some (go s t (PStable k g))
        else Some (go s t (if nv_deleted (m_v m) then PIdle else PPerm (MkFnd k g (m_v m) (length (s_hist s)) (length (s_log s)))))
    | PPerm f => Some (go s t (match f_g f with GGet => search f (m_perm m) (m_perm m) 0 (perm_size (m_perm m)) | GPut => PPerm2 f (m_perm m) end))
    | PPerm2 f x => Some (go s t (search f x (m_perm m) 0 (perm_size (m_perm m))))
    | PIkey f x x2 l h => Some (go s t (PKlx f x x2 l h (m_ikey m (perm_get x2 (Nat.div2 (l + h))))))
    | PKlx f x x2 l h ik => Some (go s t (compared f x x2 l h ik (m_klx m (perm_get x2 (Nat.div2 (l + h))))))
    | PLv f x x2 i p => Some (go s t (PMatch f x x2 i p (m_lv m p)))
    | PMatch f x x2 i p lv => Some (go s t (matched f x x2 i p lv (m_klx m p)))
    | PKsuf f x x2 i p lv => Some (go s t (PSlen f x x2 i p lv (m_bag m)))
    | PSlen f x x2 i p lv b => Some (go s t (if (m_slen m b p =? length (key_suffix (f_k f)))%nat then suffix_at f x x2 i p lv b 0
                                             else conclude (MkCand f x x2 i (Some p) lv 0)))
    | PSbyte f x x2 i p lv b j => Some (go s t (if m_sbyte m b p j =? nth j (key_suffix (f_k f)) 0 then suffix_at f x x2 i p lv b (S j)
                                                else conclude (MkCand f x x2 i (Some p) lv 0)))
    | PChk c => match f_g (c_f c) with
        | GGet => if nv_has_changed (m_v m) (f_r (c_f c)) then Some (go s t PIdle)
                  else Some (accept s t (too_late s (c_f c)) (PDone (f_k (c_f c)) (f_t0 (c_f c)) (answer_of c)))
        | GPut => Some (go s t (PTry c (f_r (c_f c))))
        end
    | PTry c e => if nv_locked e then Some (go s t (PSpin c)) else if m_v m =? e then Some (store s t (mlock m) [EvLock] (PVerify1 c)) else Some (go s t (PSpin c))
    | PSpin c => Some (go s t (PTry c (m_v m)))
    | PVerify1 c => Some (if nv_has_changed (m_v m) (f_r (c_f c)) then go s t (PRun [WUnlock]) else accept s t (too_late s (c_f c)) (PVerify2 c))
    | PVerify2 c => Some (go s t (if m_perm m =? c_x c then PVerify3 c else PRun [WUnlock]))
    | PVerify3 c => Some (go s t (match m_mod m with
                     | MsDeletedLayer => if c_m c <? 0 then PHeld (f_k (c_f c)) (c_i c) (c_p c) (c_m c) else PRun [WUnlock]
                     | _ => PHeld (f_k (c_f c)) (c_i c) (c_p c) (c_m c) end))
    | PRun (WMark mk :: l) => Some (go s t (PMarkS mk (m_v m) l))
    | PRun (WUnlock :: l) => Some (go s t (PUnlockS (m_v m)))
    | PRun (o :: l) => Some (store s t (wapply o m) [] (PRun l))
    | PMarkS mk r l => Some (store s t (MkMem (nv_mark_apply mk r) (m_perm m) (m_mod m) (m_ikey m) (m_klx m) (m_lv m) (m_bag m) (m_slen m) (m_sbyte m) (m_nbag m)) [EvMark mk] (PRun l))
    | PUnlockS r => Some (store s t (MkMem (nv_unlock r) (m_perm m) (m_mod m) (m_ikey m) (m_klx m) (m_lv m) (m_bag m) (m_slen m) (m_sbyte m) (m_nbag m)) [EvUnlock] PIdle)
    | _ => None
    end
  end.
Lemma lnext_sound s a s' : lnext s a = Some s' -> lstep s s'.
Proof.
  destruct a as [t k g|t|t vals|t del|t v|t noprev inplace vals]; cbn [lnext]; destruct (s_pc s t) eqn:E; try discriminate.
  - destruct (Z.leb_spec 0 (k_len k)); [|discriminate]. intros X; injection X as <-. apply SBegin; auto.
  - destruct (Z.leb_spec 0 (k_len k)); [|discriminate]. intros X; injection X as <-. apply SBegin; auto. right. eauto.
  - destruct (nv_dirty _) eqn:D; intros X; injection X as <-; [now apply SDirty|now apply SStable].
  - intros X; injection X as <-. now apply SPerm.
  - intros X; injection X as <-. now apply SPerm2.
  - intros X; injection X as <-. now apply SIkey.
  - intros X; injection X as <-. now apply SKlx.
  - intros X; injection X as <-. now apply SLv.
  - intros X; injection X as <-. now apply SMatch.
  - intros X; injection X as <-. now apply SKsuf.
  - intros X; injection X as <-. now apply SSlen.
  - intros X; injection X as <-. now apply SSbyte.
  - destruct (f_g (c_f c)) eqn:G; [|intros X; injection X as <-; now apply SNoLayer].
    destruct (nv_has_changed _ _) eqn:C; intros X; injection X as <-; [now apply (SReject s t c)|now apply SAccept].
  - destruct (nv_locked e) eqn:L; [intros X; injection X as <-; apply (SLockFail s t c e); auto|].
    destruct (Z.eqb_spec (m_v (s_m s)) e) as [V|V]; intros X; injection X as <-; [now apply (SLockOk s t c e)|apply (SLockFail s t c e); auto].
  - intros X; injection X as <-. now apply SLockSpin.
  - intros X; injection X as <-. now apply SVerify1.
  - intros X; injection X as <-. now apply SVerify2.
  - intros X; injection X as <-. now apply SVerify3.
  - destruct l as [|o l]; [discriminate|]. destruct o; intros X; injection X as <-; try (exact (SStore s t _ l E I)); [now apply SMarkLoad|now apply (SUnlockLoad s t l)].
  - intros X; injection X as <-. now apply SMarkStore.
  - intros X; injection X as <-. now apply SUnlockStore.
  - destruct p as [p|]; [|discriminate]. destruct (Z.ltb_spec 0 mt); [|discriminate]. intros X; injection X as <-. now apply (SUpdate s t k i p mt vals).
  - destruct p as [p|]; [|discriminate]. destruct (Z.ltb_spec 0 mt); [|discriminate]. intros X; injection X as <-. now apply (SRemove s t k i p mt del).
  - destruct p as [p|]; [|discriminate]. destruct (Z.eqb_spec mt 0); [|discriminate]. intros X; injection X as <-. subst. now apply (SNewLayer s t k i p v).
  - destruct p as [p|]; [discriminate|]. destruct (Z.eqb_spec mt 0); [|discriminate]. subst. destruct (slot_for _ _ _) as [[p ox]|] eqn:S; [|discriminate].
    intros X; injection X as <-. now apply (SInsert s t k i noprev p ox inplace vals true).
Qed.
Fixpoint lrun (s : lst) (l : list act) : option lst := match l with [] => Some s | a :: l' => match lnext s a with Some s' => lrun s' l' | None => None end end.
Lemma lrun_reach m0 l : forall s s', lreach m0 s -> lrun s l = Some s' -> lreach m0 s'.
Proof.
  induction l as [|a l IH]; intros s s' R H; cbn in H; [injection H as <-; exact R|].
  destruct (lnext s a) as [s1|] eqn:E; [|discriminate]. exact (IH s1 s' (LStep m0 s s1 R (lnext_sound _ _ _ E)) H).
Qed.
