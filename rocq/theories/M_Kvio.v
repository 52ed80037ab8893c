(* Output buffers: kvio.hh, kvio.cc. Lengths are 32-bit unsigned words. malloc and realloc succeed; the bytes they add are
   given by a parameter. The kernel's answers to write() are a list, one per call; usleep and perror are left out. *)
From Verif Require Import Lib.

(* A call to write(): it takes some of the bytes, or it says EWOULDBLOCK, or it fails otherwise. Also returning 0 counts
   as failing, with errno not EWOULDBLOCK. *)
Inductive wres := WOk (k : nat) | WAgain | WFail.
(* struct kvout, kvio.hh:24-36. kv_fd: whether fd >= 0. capacity is the length of kv_buf. kv_sent: what the kernel took,
   an observation. *)
Record kvout := MkKv { kv_fd : bool; kv_buf : list Z; kv_n : Z; kv_sent : list Z }.
(* Outcomes: a memory access outside the buffer; a loop that never ends; an assertion fails; no answer from write() left. *)
Inductive kerr := KBadWrite | KLoop | KAssert | KBlocked.
Inductive kres (A : Type) := KOk (a : A) | KErr (e : kerr).
Arguments KOk {A} a. Arguments KErr {A} e.
Definition kcap (kv : kvout) : Z := len (kv_buf kv).
Definition u32 (x : Z) : Z := x mod 2 ^ 32.
Definition new_kvout (fd : bool) (mem : list Z) : kvout := MkKv fd mem 0 []. (* kvio.cc:31-57; mem: what malloc returned *)

(* kvflush, kvio.cc:75-92. On failure n is unchanged. *)
Fixpoint kv_flush_loop (os : list wres) (kv : kvout) (sent : nat) : kres (kvout * list wres) :=
  if kv_n kv <=? Z.of_nat sent then KOk (MkKv (kv_fd kv) (kv_buf kv) 0 (kv_sent kv), os)
  else match os with
       | [] => KErr KBlocked
       | WAgain :: os' => kv_flush_loop os' kv sent
       | WFail :: os' => KOk (kv, os')
       | WOk k :: os' =>
         let cc := Nat.max 1 (Nat.min k (Z.to_nat (kv_n kv) - sent)) in
         kv_flush_loop os' (MkKv (kv_fd kv) (kv_buf kv) (kv_n kv) (kv_sent kv ++ firstn cc (skipn sent (kv_buf kv)))) (sent + cc)
       end.
Definition kvflush (os : list wres) (kv : kvout) : kres (kvout * list wres) :=
  if kv_fd kv then kv_flush_loop os kv 0 else KErr KAssert.

(* kvout::grow, kvio.cc:95-104. The loop doubles capacity at most 33 times before capacity is 0. *)
Fixpoint kv_double (fuel : nat) (want cap : Z) : kres Z :=
  if want <=? cap then KOk cap else match fuel with O => KErr KLoop | S f => kv_double f want (u32 (cap * 2)) end.
(* realloc to cap bytes: the old bytes, then those of junk; it shrinks if the doubling wrapped around. *)
Definition kv_realloc (junk : nat -> Z) (cap : Z) (b : list Z) : list Z :=
  firstn (Z.to_nat cap) b ++ map junk (seq (length b) (Z.to_nat cap - length b)).
Definition kv_grow (junk : nat -> Z) (os : list wres) (want : Z) (kv : kvout) : kres (kvout * list wres) :=
  match (if kv_fd kv then kvflush os kv else KOk (kv, os)) with
  | KErr e => KErr e
  | KOk (kv1, os1) =>
    match kv_double 33 (if want =? 0 then u32 (kcap kv1 + 1) else want) (kcap kv1) with
    | KErr e => KErr e
    | KOk cap => KOk (MkKv (kv_fd kv1) (kv_realloc junk cap (kv_buf kv1)) (kv_n kv1) (kv_sent kv1), os1)
    end
  end.
(* memcpy(buf + n, s, length s) *)
Definition kv_store (s : list Z) (kv : kvout) : kres kvout :=
  if kv_n kv + len s <=? kcap kv
  then KOk (MkKv (kv_fd kv) (firstn (Z.to_nat (kv_n kv)) (kv_buf kv) ++ s ++ skipn (Z.to_nat (kv_n kv) + length s) (kv_buf kv)) (kv_n kv) (kv_sent kv))
  else KErr KBadWrite.
Definition kv_set_n (n : Z) (kv : kvout) : kvout := MkKv (kv_fd kv) (kv_buf kv) n (kv_sent kv).

(* kvout::append, kvio.hh:45-50. *)
Definition kv_append (junk : nat -> Z) (os : list wres) (c : Z) (kv : kvout) : kres (kvout * list wres) :=
  match (if kv_n kv =? kcap kv then kv_grow junk os 0 kv else KOk (kv, os)) with
  | KErr e => KErr e
  | KOk (kv1, os1) => match kv_store [c] kv1 with KErr e => KErr e | KOk kv2 => KOk (kv_set_n (u32 (kv_n kv2 + 1)) kv2, os1) end
  end.
(* kvout::reserve(m), kvio.hh:52-56, then the caller stores s there and calls set_end or adjust_length, kvio.hh:58-66, to
   keep it; msgpack.hh:245-326, 548-577. *)
Definition kv_reserve (junk : nat -> Z) (os : list wres) (m : Z) (s : list Z) (kv : kvout) : kres (kvout * list wres) :=
  let need := u32 (kv_n kv + m) in
  match (if kcap kv <? need then kv_grow junk os need kv else KOk (kv, os)) with
  | KErr e => KErr e
  | KOk (kv1, os1) => match kv_store s kv1 with KErr e => KErr e | KOk kv2 => KOk (kv_set_n (u32 (kv_n kv2 + len s)) kv2, os1) end
  end.
(* kvwrite, kvio.cc:106-114. *)
Definition kvwrite (junk : nat -> Z) (os : list wres) (s : list Z) (kv : kvout) : kres (kvout * list wres) :=
  match (if (kcap kv <? u32 (kv_n kv + len s)) && kv_fd kv then kvflush os kv else KOk (kv, os)) with
  | KErr e => KErr e
  | KOk (kv1, os1) =>
    match (if kcap kv1 <? u32 (kv_n kv1 + len s) then kv_grow junk os1 (u32 (kv_n kv1 + len s)) kv1 else KOk (kv1, os1)) with
    | KErr e => KErr e
    | KOk (kv2, os2) => match kv_store s kv2 with KErr e => KErr e | KOk kv3 => KOk (kv_set_n (u32 (kv_n kv3 + len s)) kv3, os2) end
    end
  end.
(* kvout_reset, kvio.cc:60-63. *)
Definition kvout_reset (kv : kvout) : kres kvout := if kv_fd kv then KErr KAssert else KOk (kv_set_n 0 kv).

(* A use of a buffer. *)
Inductive kop := KAppend (c : Z) | KReserve (m : Z) (s : list Z) | KWrite (s : list Z) | KFlush | KReset.
Definition kstep (junk : nat -> Z) (os : list wres) (o : kop) (kv : kvout) : kres (kvout * list wres) :=
  match o with
  | KAppend c => kv_append junk os c kv
  | KReserve m s => kv_reserve junk os m s kv
  | KWrite s => kvwrite junk os s kv
  | KFlush => kvflush os kv
  | KReset => match kvout_reset kv with KErr e => KErr e | KOk kv1 => KOk (kv1, os) end
  end.
Fixpoint krun (junk : nat -> Z) (os : list wres) (l : list kop) (kv : kvout) : kres (kvout * list wres) :=
  match l with [] => KOk (kv, os) | o :: l' => match kstep junk os o kv with KErr e => KErr e | KOk (kv1, os1) => krun junk os1 l' kv1 end end.
(* The bytes waiting in the buffer. *)
Definition kv_held (kv : kvout) : list Z := firstn (Z.to_nat (kv_n kv)) (kv_buf kv).
