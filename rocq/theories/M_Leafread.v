(* One leaf shared by threads that look keys up without locking and threads that change it under its lock. Every load,
   store and compare-and-swap of the shared leaf by an unlocked thread is one step; every store by the lock holder is
   one step. Sequentially consistent interleaving. Definitions only.
   Simplifications:
   - one leaf: reach_leaf, advance_to_key and the walk to the next layer are outside; a search that must leave the leaf
     or start again ends (PIdle), and the thread may begin any other search.
   - the lock holder's own loads of fields only lock holders write are taken when its operation is chosen
     (nobody else can change them; proved for the version word as C14).
   - a suffix container maps a slot to a length and its bytes (M_Stringbag.v models the offsets inside one); filling a
     container nobody else can see yet happens together with the store that publishes it. Retired containers stay readable
     (reclamation is M_Rcu.v and M_Limbo.v).
   - phantom epochs, prefetching, statistics and cursor bookkeeping for observers are absent. *)
From Verif Require Import Lib M_Key M_Permuter M_Search M_Version M_Tree.

(* ---- the shared leaf: leaf<P>, masstree_struct.hh:268-284 ---- *)
(* m_bag: which container suffixes are in (0 for the internal iksuf_, else the object ksuf_ points to); m_slen, m_sbyte:
   contents of every container; m_nbag: containers from here on are unused. *)
Record lmem := MkMem { m_v : Z; m_perm : Z; m_mod : modst; m_ikey : nat -> Z; m_klx : nat -> Z; m_lv : nat -> Z;
  m_bag : nat; m_slen : nat -> nat -> nat; m_sbyte : nat -> nat -> nat -> Z; m_nbag : nat }.

(* ---- what a search returns ---- *)
Inductive answer := Absent | Found (v : Z) | Layer (v : Z).

(* ---- the lock holder's accesses ---- *)
Inductive wop :=
| WMark (mk : nv_mark)                (* v_ |= bits: a load and a store *)
| WMod (ms : modst)                   (* modstate_ = *)
| WLv (p : nat) (v : Z)               (* lv_[p] = *)
| WIk (p : nat) (ik : Z)              (* ikey0_[p] = *)
| WKl (p : nat) (kl : Z)              (* keylenx_[p] = *)
| WByte (p j : nat) (z : Z)           (* byte j of slot p's suffix in the current container *)
| WLen (p n : nat)                    (* info_[p] of the current container *)
| WBag (ln : nat -> nat) (by_ : nat -> nat -> Z)  (* ksuf_ = a new container with these contents *)
| WPerm (x : Z)                       (* permutation_ = *)
| WUnlock.                            (* unlock: a load and a store *)

Definition upd2 {A} (f : nat -> nat -> A) (b p : nat) (v : A) : nat -> nat -> A := fun b' p' =>
  if (b' =? b)%nat && (p' =? p)%nat then v else f b' p'.
Definition wapply (o : wop) (m : lmem) : lmem :=
  match o with
  | WMark mk => MkMem (nv_mark_apply mk (m_v m)) (m_perm m) (m_mod m) (m_ikey m) (m_klx m) (m_lv m) (m_bag m) (m_slen m) (m_sbyte m) (m_nbag m)
  | WMod ms => MkMem (m_v m) (m_perm m) ms (m_ikey m) (m_klx m) (m_lv m) (m_bag m) (m_slen m) (m_sbyte m) (m_nbag m)
  | WLv p v => MkMem (m_v m) (m_perm m) (m_mod m) (m_ikey m) (m_klx m) (upd (m_lv m) p v) (m_bag m) (m_slen m) (m_sbyte m) (m_nbag m)
  | WIk p ik => MkMem (m_v m) (m_perm m) (m_mod m) (upd (m_ikey m) p ik) (m_klx m) (m_lv m) (m_bag m) (m_slen m) (m_sbyte m) (m_nbag m)
  | WKl p kl => MkMem (m_v m) (m_perm m) (m_mod m) (m_ikey m) (upd (m_klx m) p kl) (m_lv m) (m_bag m) (m_slen m) (m_sbyte m) (m_nbag m)
  | WByte p j z => MkMem (m_v m) (m_perm m) (m_mod m) (m_ikey m) (m_klx m) (m_lv m) (m_bag m) (m_slen m)
                     (upd2 (m_sbyte m) (m_bag m) p (upd (m_sbyte m (m_bag m) p) j z)) (m_nbag m)
  | WLen p n => MkMem (m_v m) (m_perm m) (m_mod m) (m_ikey m) (m_klx m) (m_lv m) (m_bag m)
                  (upd2 (m_slen m) (m_bag m) p n) (m_sbyte m) (m_nbag m)
  | WBag ln by_ => MkMem (m_v m) (m_perm m) (m_mod m) (m_ikey m) (m_klx m) (m_lv m) (m_nbag m)
                    (upd (m_slen m) (m_nbag m) ln) (upd (m_sbyte m) (m_nbag m) by_) (S (m_nbag m))
  | WPerm x => MkMem (m_v m) x (m_mod m) (m_ikey m) (m_klx m) (m_lv m) (m_bag m) (m_slen m) (m_sbyte m) (m_nbag m)
  | WUnlock => MkMem (nv_unlock (m_v m)) (m_perm m) (m_mod m) (m_ikey m) (m_klx m) (m_lv m) (m_bag m) (m_slen m) (m_sbyte m) (m_nbag m)
  end.
(* The word stored by a successful lock. *)
Definition mlock (m : lmem) : lmem :=
  MkMem (nv_lock (m_v m)) (m_perm m) (m_mod m) (m_ikey m) (m_klx m) (m_lv m) (m_bag m) (m_slen m) (m_sbyte m) (m_nbag m).

(* ---- the lock holder's operations as sequences of stores ---- *)
(* stringbag::assign, stringbag.hh:131-146, when it succeeds: memcpy, then info_[p]. *)
Definition bytes_prog (p : nat) (s : list Z) : list wop :=
  map (fun j => WByte p j (nth j s 0)) (seq 0 (length s)) ++ [WLen p (length s)].
(* leaf::assign_ksuf with initializing false, masstree_struct.hh:728-777: in place when the container has room, else a
   new container holding the suffixes of the permutation's live slots and slot p's. *)
Definition is_live (x : Z) (p : nat) : bool := existsb (fun j => (perm_get x j =? p)%nat) (seq 0 (perm_size x)).
Definition ksuf_prog (m : lmem) (x : Z) (p : nat) (s : list Z) (inplace : bool) : list wop :=
  if inplace then bytes_prog p s
  else [WBag (fun q => if (q =? p)%nat then length s
                       else if is_live x q && (m_klx m q =? 64) then m_slen m (m_bag m) q else 0%nat)
             (fun q => if (q =? p)%nat then fun j => nth j s 0
                       else if is_live x q && (m_klx m q =? 64) then m_sbyte m (m_bag m) q else fun _ => 0)].
(* leaf::assign, masstree_struct.hh:497-505; make_empty is the null word. *)
Definition assign_prog (m : lmem) (x : Z) (p : nat) (k : mkey) (inplace : bool) : list wop :=
  [WLv p 0; WIk p (k_ikey k)] ++
  (if key_has_suffix k then WKl p 64 :: ksuf_prog m x p (key_suffix k) inplace else [WKl p (k_len k)]).
(* find_insert, masstree_insert.hh:41-46. *)
Definition enter_insert (m : lmem) : list wop :=
  match m_mod m with MsInsert => [] | _ => [WMark MkInsert; WMod MsInsert] end.
(* find_insert, masstree_insert.hh:49-56, and make_split, masstree_split.hh:185-195: the slot to use and, if it was
   rearranged, the new permutation. noprev: whether prev_ is null. None: the leaf must split. *)
Definition slot_for (m : lmem) (noprev : bool) (ik : Z) : option (nat * option Z) :=
  if (perm_size (m_perm m) <? W)%nat then
    let p := perm_back W (m_perm m) in
    if negb (p =? 0)%nat || noprev || (m_ikey m 0%nat =? ik) then Some (p, None)
    else
      let x := perm_exchange W (m_perm m) (perm_size (m_perm m)) (W - 1) in
      let p' := perm_back W x in
      if negb (p' =? 0)%nat then Some (p', Some x) else None
  else None.
(* What follows assign: the caller stores values through value(), then finish(1) calls finish_insert
   (masstree_insert.hh:129-136) or finish(0) does not; unlock (lines 138-152). *)
Definition fill_prog (m : lmem) (x : Z) (p : nat) (k : mkey) (i : nat) (inplace : bool) (vals : list Z) (fin : bool) : list wop :=
  assign_prog m x p k inplace ++ map (WLv p) vals ++ (if fin then [WPerm (perm_insert_from_back W x i)] else []).
Definition insert_prog (m : lmem) (k : mkey) (i : nat) (p : nat) (ox : option Z) (inplace : bool) (vals : list Z) (fin : bool) : list wop :=
  enter_insert m ++
  match ox with
  | None => fill_prog m (m_perm m) p k i inplace vals fin
  | Some x => WPerm x :: fill_prog m x p k i inplace vals fin
  end ++ [WUnlock].
(* make_split on the left leaf, masstree_split.hh:247-276: n entries stay. left: the new key goes into this leaf. *)
Definition split_perm (m : lmem) (n : nat) : Z :=
  let x := perm_set_size W (m_perm m) n in
  if (perm_size (m_perm m) =? W)%nat then x else perm_exchange W x n (W - 1).
Definition split_prog (m : lmem) (k : mkey) (i n : nat) (left inplace : bool) (vals : list Z) (fin : bool) : list wop :=
  enter_insert m ++ [WMark MkSplit; WPerm (split_perm m n)] ++
  (if left then fill_prog m (split_perm m n) (perm_back W (split_perm m n)) k i inplace vals fin else []) ++ [WUnlock].
(* finish_remove and the start of remove_leaf, masstree_remove.hh:162-191. del: prev_ is not null. *)
Definition remove_prog (m : lmem) (i : nat) (del : bool) : list wop :=
  match m_mod m with MsInsert => [WMark MkInsert; WMod MsRemove] | _ => [] end ++
  [WPerm (perm_remove W (m_perm m) i)] ++
  (if (perm_size (perm_remove W (m_perm m) i) =? 0)%nat && del then [WMark MkDeleted] else []) ++ [WUnlock].
(* make_new_layer's stores to this leaf, masstree_insert.hh:113-122. *)
Definition layer_prog (p : nat) (v : Z) : list wop := [WMark MkInsert; WLv p v; WKl p 128; WUnlock].

(* ---- threads ---- *)
(* GGet: unlocked_tcursor::find_unlocked; GPut: tcursor::find_locked. *)
Inductive goal := GGet | GPut.
(* A search: key, kind, the stable version word, and (ghost) where the histories stood when it was loaded. *)
Record fnd := MkFnd { f_k : mkey; f_g : goal; f_r : Z; f_t0 : nat; f_n0 : nat }.
(* A search's outcome before validation: first and second load of the permutation, kx.i, kx.p, lv, match. *)
Record cand := MkCand { c_f : fnd; c_x : Z; c_x2 : Z; c_i : nat; c_p : option nat; c_lv : Z; c_m : Z }.
Inductive lpc :=
| PIdle
| PStable (k : mkey) (g : goal)                             (* stable(): about to load v_, nodeversion.hh:38-47 *)
| PPerm (f : fnd)                                           (* about to load permutation_, masstree_get.hh:37, 83 *)
| PPerm2 (f : fnd) (x : Z)                                  (* find_locked: lower() loads it again, line 85; ksearch.hh:66 *)
| PIkey (f : fnd) (x x2 : Z) (l h : nat)                    (* binary search, about to load ikey0_, ksearch.hh:67-80 *)
| PKlx (f : fnd) (x x2 : Z) (l h : nat) (ik : Z)            (* then keylenx_, masstree_struct.hh:370-372 *)
| PLv (f : fnd) (x x2 : Z) (i p : nat)                      (* about to load lv_, masstree_get.hh:40, 87 *)
| PMatch (f : fnd) (x x2 : Z) (i p : nat) (lv : Z)          (* ksuf_matches: keylenx_, masstree_struct.hh:412 *)
| PKsuf (f : fnd) (x x2 : Z) (i p : nat) (lv : Z)           (* ksuf_, masstree_struct.hh:393 *)
| PSlen (f : fnd) (x x2 : Z) (i p : nat) (lv : Z) (b : nat) (* info_[p], stringbag.hh:119-122 *)
| PSbyte (f : fnd) (x x2 : Z) (i p : nat) (lv : Z) (b j : nat)  (* byte j, masstree_struct.hh:418-419 *)
| PChk (c : cand)                                           (* has_changed(v), masstree_get.hh:45, 90 *)
| PDone (k : mkey) (t0 : nat) (a : answer)                  (* returned *)
| PTry (c : cand) (e : Z) | PSpin (c : cand)                (* lock(v), nodeversion.hh:92-108 *)
| PVerify1 (c : cand)                                       (* locked: has_changed(v), masstree_get.hh:99 *)
| PVerify2 (c : cand)                                       (* permutation() != perm, line 99 *)
| PVerify3 (c : cand)                                       (* deleted_layer(), line 109 *)
| PHeld (k : mkey) (i : nat) (p : option nat) (mt : Z)      (* find_locked returned *)
| PDirect (e : Z) | PDspin | PFree                          (* lock or try_lock without a search, masstree_remove.hh:64-103 *)
| PRun (l : list wop)
| PMarkS (mk : nv_mark) (r : Z) (l : list wop)
| PUnlockS (r : Z).

(* s_hist: the leaf after every step so far, newest first; s_log: every change of the version word, oldest first;
   s_late: some search was accepted although 2^19 or more modifications were completed since its version was read. All three are
   history variables. *)
Record lst := MkSt { s_m : lmem; s_pc : nat -> lpc; s_hist : list lmem; s_log : list nv_event; s_late : bool }.
Definition go (s : lst) (t : nat) (p : lpc) : lst :=
  MkSt (s_m s) (upd (s_pc s) t p) (s_m s :: s_hist s) (s_log s) (s_late s).
Definition store (s : lst) (t : nat) (m : lmem) (ev : list nv_event) (p : lpc) : lst :=
  MkSt m (upd (s_pc s) t p) (m :: s_hist s) (s_log s ++ ev) (s_late s).
Definition accept (s : lst) (t : nat) (late : bool) (p : lpc) : lst :=
  MkSt (s_m s) (upd (s_pc s) t p) (s_m s :: s_hist s) (s_log s) (s_late s || late).

(* Completed modifications (critical sections that marked an insert, split or deletion). *)
Fixpoint completed (pending : bool) (es : list nv_event) : Z :=
  match es with
  | [] => 0
  | EvUnlock :: r => (if pending then 1 else 0) + completed false r
  | EvMark mk :: r => completed (pending || nv_mark_dirties mk) r
  | EvLock :: r => completed pending r
  end.
Definition too_late (s : lst) (f : fnd) : bool := 2 ^ 19 <=? completed false (skipn (f_n0 f) (s_log s)).

(* The search's end: find_unlocked validates, find_locked takes the lock unless it can step into a layer. *)
Definition conclude (c : cand) : lpc :=
  match f_g (c_f c) with GGet => PChk c | GPut => if c_m c <? 0 then PChk c else PTry c (f_r (c_f c)) end.
(* The loop test of key_lower_bound_by, ksearch.hh:69-81. *)
Definition search (f : fnd) (x x2 : Z) (l h : nat) : lpc :=
  if (l <? h)%nat then PIkey f x x2 l h else conclude (MkCand f x x2 l None 0 0).
Definition compared (f : fnd) (x x2 : Z) (l h : nat) (ik kl : Z) : lpc :=
  let m := Nat.div2 (l + h) in
  let c := key_compare (k_ikey (f_k f)) (k_len (f_k f)) ik kl in
  if c <? 0 then search f x x2 l m else if c =? 0 then PLv f x x2 m (perm_get x2 m) else search f x x2 (m + 1) h.
(* ksuf_matches, masstree_struct.hh:411-420, after keylenx_ is loaded. *)
Definition matched (f : fnd) (x x2 : Z) (i p : nat) (lv kl : Z) : lpc :=
  if kl <? 64 then conclude (MkCand f x x2 i (Some p) lv 1)
  else if kl =? 128 then conclude (MkCand f x x2 i (Some p) lv (-8))
  else PKsuf f x x2 i p lv.
(* The suffix comparison: equal length, then bytes (equals_sloppy is proved equal to it, C06). *)
Definition suffix_at (f : fnd) (x x2 : Z) (i p : nat) (lv : Z) (b j : nat) : lpc :=
  if (j <? length (key_suffix (f_k f)))%nat then PSbyte f x x2 i p lv b j
  else conclude (MkCand f x x2 i (Some p) lv 1).
Definition answer_of (c : cand) : answer :=
  if c_m c <? 0 then Layer (c_lv c) else if c_m c =? 0 then Absent else Found (c_lv c).

Inductive lstep : lst -> lst -> Prop :=
(* searching *)
| SBegin s t k g : s_pc s t = PIdle \/ (exists k' t0 a, s_pc s t = PDone k' t0 a) -> 0 <= k_len k -> lstep s (go s t (PStable k g))
| SDirty s t k g : s_pc s t = PStable k g -> nv_dirty (m_v (s_m s)) = true -> lstep s (go s t (PStable k g))
| SStable s t k g : s_pc s t = PStable k g -> nv_dirty (m_v (s_m s)) = false ->
    lstep s (go s t (if nv_deleted (m_v (s_m s)) then PIdle
                     else PPerm (MkFnd k g (m_v (s_m s)) (length (s_hist s)) (length (s_log s)))))
| SPerm s t f : s_pc s t = PPerm f ->
    lstep s (go s t (match f_g f with GGet => search f (m_perm (s_m s)) (m_perm (s_m s)) 0 (perm_size (m_perm (s_m s)))
                                    | GPut => PPerm2 f (m_perm (s_m s)) end))
| SPerm2 s t f x : s_pc s t = PPerm2 f x -> lstep s (go s t (search f x (m_perm (s_m s)) 0 (perm_size (m_perm (s_m s)))))
| SIkey s t f x x2 l h : s_pc s t = PIkey f x x2 l h ->
    lstep s (go s t (PKlx f x x2 l h (m_ikey (s_m s) (perm_get x2 (Nat.div2 (l + h))))))
| SKlx s t f x x2 l h ik : s_pc s t = PKlx f x x2 l h ik ->
    lstep s (go s t (compared f x x2 l h ik (m_klx (s_m s) (perm_get x2 (Nat.div2 (l + h))))))
| SLv s t f x x2 i p : s_pc s t = PLv f x x2 i p -> lstep s (go s t (PMatch f x x2 i p (m_lv (s_m s) p)))
| SMatch s t f x x2 i p lv : s_pc s t = PMatch f x x2 i p lv -> lstep s (go s t (matched f x x2 i p lv (m_klx (s_m s) p)))
| SKsuf s t f x x2 i p lv : s_pc s t = PKsuf f x x2 i p lv -> lstep s (go s t (PSlen f x x2 i p lv (m_bag (s_m s))))
| SSlen s t f x x2 i p lv b : s_pc s t = PSlen f x x2 i p lv b ->
    lstep s (go s t (if (m_slen (s_m s) b p =? length (key_suffix (f_k f)))%nat then suffix_at f x x2 i p lv b 0
                     else conclude (MkCand f x x2 i (Some p) lv 0)))
| SSbyte s t f x x2 i p lv b j : s_pc s t = PSbyte f x x2 i p lv b j ->
    lstep s (go s t (if m_sbyte (s_m s) b p j =? nth j (key_suffix (f_k f)) 0 then suffix_at f x x2 i p lv b (S j)
                     else conclude (MkCand f x x2 i (Some p) lv 0)))
(* validating without the lock: find_unlocked returns or starts again; find_locked steps into the layer, if it is a root,
   or takes the lock *)
| SAccept s t c : s_pc s t = PChk c -> nv_has_changed (m_v (s_m s)) (f_r (c_f c)) = false ->
    lstep s (accept s t (too_late s (c_f c)) (PDone (f_k (c_f c)) (f_t0 (c_f c)) (answer_of c)))
| SReject s t c : s_pc s t = PChk c -> f_g (c_f c) = GGet -> nv_has_changed (m_v (s_m s)) (f_r (c_f c)) = true -> lstep s (go s t PIdle)
| SNoLayer s t c : s_pc s t = PChk c -> f_g (c_f c) = GPut -> lstep s (go s t (PTry c (f_r (c_f c))))
(* locking *)
| SLockFail s t c e : s_pc s t = PTry c e -> nv_locked e = true \/ m_v (s_m s) <> e -> lstep s (go s t (PSpin c))
| SLockSpin s t c : s_pc s t = PSpin c -> lstep s (go s t (PTry c (m_v (s_m s))))
| SLockOk s t c e : s_pc s t = PTry c e -> nv_locked e = false -> m_v (s_m s) = e ->
    lstep s (store s t (mlock (s_m s)) [EvLock] (PVerify1 c))
| SVerify1 s t c : s_pc s t = PVerify1 c ->
    lstep s (if nv_has_changed (m_v (s_m s)) (f_r (c_f c)) then go s t (PRun [WUnlock])
             else accept s t (too_late s (c_f c)) (PVerify2 c))
| SVerify2 s t c : s_pc s t = PVerify2 c -> lstep s (go s t (if m_perm (s_m s) =? c_x c then PVerify3 c else PRun [WUnlock]))
| SVerify3 s t c : s_pc s t = PVerify3 c ->
    lstep s (go s t (match m_mod (s_m s) with
                     | MsDeletedLayer => if c_m c <? 0 then PHeld (f_k (c_f c)) (c_i c) (c_p c) (c_m c) else PRun [WUnlock]
                     | _ => PHeld (f_k (c_f c)) (c_i c) (c_p c) (c_m c) end))
| SDirectBegin s t e : s_pc s t = PIdle -> 0 <= e < 2 ^ 32 -> lstep s (go s t (PDirect e))
| SDirectFail s t e : s_pc s t = PDirect e -> nv_locked e = true \/ m_v (s_m s) <> e -> lstep s (go s t PDspin)
| SDirectSpin s t : s_pc s t = PDspin -> lstep s (go s t (PDirect (m_v (s_m s))))
| SDirectOk s t e : s_pc s t = PDirect e -> nv_locked e = false -> m_v (s_m s) = e ->
    lstep s (store s t (mlock (s_m s)) [EvLock] PFree)
(* the lock holder chooses an operation *)
| SGiveUp s t k i p mt : s_pc s t = PHeld k i p mt -> lstep s (go s t (PRun [WUnlock]))
| SUpdate s t k i p mt vals : s_pc s t = PHeld k i (Some p) mt -> 0 < mt -> lstep s (go s t (PRun (map (WLv p) vals ++ [WUnlock])))
| SRemove s t k i p mt del : s_pc s t = PHeld k i (Some p) mt -> 0 < mt -> lstep s (go s t (PRun (remove_prog (s_m s) i del)))
| SFixLayer s t k i p mt v : s_pc s t = PHeld k i (Some p) mt -> mt < 0 -> lstep s (go s t (PRun [WLv p v; WUnlock]))
| SNewLayer s t k i p v : s_pc s t = PHeld k i (Some p) 0 -> lstep s (go s t (PRun (layer_prog p v)))
| SInsert s t k i noprev p ox inplace vals fin : s_pc s t = PHeld k i None 0 ->
    slot_for (s_m s) noprev (k_ikey k) = Some (p, ox) ->
    lstep s (go s t (PRun (insert_prog (s_m s) k i p ox inplace vals fin)))
| SSplit s t k i noprev n left inplace vals fin : s_pc s t = PHeld k i None 0 ->
    slot_for (s_m s) noprev (k_ikey k) = None -> (n <= perm_size (m_perm (s_m s)))%nat ->
    (left = true -> (i <= n < perm_size (m_perm (s_m s)))%nat) ->
    lstep s (go s t (PRun (split_prog (s_m s) k i n left inplace vals fin)))
| SGcPointer s t k i p mt j vals : s_pc s t = PHeld k i p mt -> (j < perm_size (m_perm (s_m s)))%nat ->
    m_klx (s_m s) (perm_get (m_perm (s_m s)) j) = 128 ->     (* gc_layer, masstree_remove.hh:46-85 *)
    lstep s (go s t (PRun (map (WLv (perm_get (m_perm (s_m s)) j)) vals ++ [WUnlock])))
| SFreeUnlock s t : s_pc s t = PFree -> lstep s (go s t (PRun [WUnlock]))
| SFreeRoot s t : s_pc s t = PFree -> lstep s (go s t (PRun [WMark MkRoot; WUnlock]))   (* make_layer_root, masstree_remove.hh:78 *)
| SFreeKill s t : s_pc s t = PFree -> perm_size (m_perm (s_m s)) = 0%nat ->             (* mark_deleted_layer, line 106 *)
    lstep s (go s t (PRun [WMod MsDeletedLayer; WUnlock]))
(* and carries it out *)
| SStore s t o l : s_pc s t = PRun (o :: l) -> (match o with WMark _ | WUnlock => False | _ => True end) ->
    lstep s (store s t (wapply o (s_m s)) [] (PRun l))
| SMarkLoad s t mk l : s_pc s t = PRun (WMark mk :: l) -> lstep s (go s t (PMarkS mk (m_v (s_m s)) l))
| SMarkStore s t mk r l : s_pc s t = PMarkS mk r l ->
    lstep s (store s t (MkMem (nv_mark_apply mk r) (m_perm (s_m s)) (m_mod (s_m s)) (m_ikey (s_m s)) (m_klx (s_m s)) (m_lv (s_m s))
                          (m_bag (s_m s)) (m_slen (s_m s)) (m_sbyte (s_m s)) (m_nbag (s_m s))) [EvMark mk] (PRun l))
| SUnlockLoad s t l : s_pc s t = PRun (WUnlock :: l) -> lstep s (go s t (PUnlockS (m_v (s_m s))))
| SUnlockStore s t r : s_pc s t = PUnlockS r ->
    lstep s (store s t (MkMem (nv_unlock r) (m_perm (s_m s)) (m_mod (s_m s)) (m_ikey (s_m s)) (m_klx (s_m s)) (m_lv (s_m s))
                          (m_bag (s_m s)) (m_slen (s_m s)) (m_sbyte (s_m s)) (m_nbag (s_m s))) [EvUnlock] PIdle).

Definition linit (m : lmem) : lst := MkSt m (fun _ => PIdle) [m] [] false.
Inductive lreach (m0 : lmem) : lst -> Prop :=
| LInit : lreach m0 (linit m0)
| LStep s s' : lreach m0 s -> lstep s s' -> lreach m0 s'.
