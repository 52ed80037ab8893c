(* What a leaf holds, and what it means for a search's answer to be true of it. *)
From Verif Require Import Lib M_Key M_Permuter M_Version M_Tree M_Leafread.
From Coq Require Import Permutation.

(* An entry's part of a key: a short key, a slice with a suffix, or a slice shared by the keys of a further layer. *)
Inductive frag := Short (ik l : Z) | Long (ik : Z) (suffix : list Z) | Sub (ik : Z).
Definition suffix_of (m : lmem) (b p : nat) : list Z := map (m_sbyte m b p) (seq 0 (m_slen m b p)).
Definition frag_of (m : lmem) (p : nat) : frag :=
  if m_klx m p =? 128 then Sub (m_ikey m p)
  else if m_klx m p =? 64 then Long (m_ikey m p) (suffix_of m (m_bag m) p)
  else Short (m_ikey m p) (m_klx m p).
(* The leaf's entries in order. *)
Definition live_slots (m : lmem) : list nat := firstn (perm_size (m_perm m)) (perm_list W (m_perm m)).
Definition entries (m : lmem) : list (frag * Z) := map (fun p => (frag_of m p, m_lv m p)) (live_slots m).

Fixpoint same_bytes (a b : list Z) : bool :=
  match a, b with [], [] => true | x :: a', y :: b' => (x =? y) && same_bytes a' b' | _, _ => false end.
Definition for_key (k : mkey) (f : frag) : bool :=
  match f with
  | Short ik l => (ik =? k_ikey k) && (l =? k_len k)
  | Long ik s => (ik =? k_ikey k) && (8 <? k_len k) && same_bytes s (key_suffix k)
  | Sub ik => (ik =? k_ikey k) && (8 <? k_len k)
  end.
Definition lookup (es : list (frag * Z)) (k : mkey) : answer :=
  match find (fun e => for_key k (fst e)) es with
  | None => Absent
  | Some (Sub _, v) => Layer v
  | Some (_, v) => Found v
  end.

(* A well-formed leaf: a legal permutation, entries in increasing order of slice and length class, legal lengths. *)
Definition frag_pos (f : frag) : Z * Z := match f with Short ik l => (ik, l) | Long ik _ | Sub ik => (ik, 9) end.
Definition pos_lt (a b : Z * Z) : Prop := fst a < fst b \/ (fst a = fst b /\ snd a < snd b).
Definition ordered (es : list (frag * Z)) : Prop :=
  forall a e b f c, es = a ++ e :: b ++ f :: c -> pos_lt (frag_pos (fst e)) (frag_pos (fst f)).
Definition good_leaf (m : lmem) : Prop :=
  (perm_size (m_perm m) <= W)%nat /\ Permutation (perm_list W (m_perm m)) (seq 0 W) /\ 0 <= m_perm m < 2 ^ 64 /\
  ordered (entries m) /\
  (forall p, In p (live_slots m) -> 0 <= m_klx m p <= 8 \/ m_klx m p = 64 \/ m_klx m p = 128) /\
  (m_bag m < m_nbag m)%nat.
(* Start: a well-formed leaf whose version word is legal, not locked and not mid-modification. *)
Definition quiet_leaf (m : lmem) : Prop :=
  good_leaf m /\ 0 <= m_v m < 2 ^ 32 /\ Z.land (m_v m) nv_unused1_bit = 0 /\ nv_dirty (m_v m) = false /\ nv_locked (m_v m) = false.

(* m was the leaf's contents at some moment after the search's version word was read. *)
Definition during (s : lst) (t0 : nat) (m : lmem) : Prop :=
  exists j, (t0 <= j)%nat /\ nth_error (rev (s_hist s)) j = Some m.

(* Where key k belongs, and what a thread that holds the lock after looking for k must know: entries before i are smaller,
   entries after i are larger, and entry i is the one k belongs to (slot p, matching or not) or also larger (no slot). *)
Definition key_pos (k : mkey) : Z * Z := (k_ikey k, Z.min (k_len k) 9).
Definition cursor_exact (m : lmem) (k : mkey) (i : nat) (p : option nat) (mt : Z) : Prop :=
  (i <= length (entries m))%nat /\
  (forall j e, nth_error (entries m) j = Some e -> ((j < i)%nat -> pos_lt (frag_pos (fst e)) (key_pos k)) /\
                                                   ((i < j)%nat -> pos_lt (key_pos k) (frag_pos (fst e)))) /\
  match p with
  | None => (forall e, nth_error (entries m) i = Some e -> pos_lt (key_pos k) (frag_pos (fst e))) /\ lookup (entries m) k = Absent /\ mt = 0
  | Some q => nth_error (live_slots m) i = Some q /\ frag_pos (frag_of m q) = key_pos k /\
      lookup (entries m) k = if mt <? 0 then Layer (m_lv m q) else if mt =? 0 then Absent else Found (m_lv m q)
  end.
