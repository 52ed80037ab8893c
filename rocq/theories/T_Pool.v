(** The pools of threadinfo: C53; sizes of leaf nodes: C54. *)

From Coq Require Import List ZArith Bool Lia.
From Verif Require Import M_Pool Spec_Pool P_Pool2.
Import ListNotations.
Open Scope Z_scope.

(** C53. Whatever threads allocate, free, retire and release, in any order, every object
    keeps the words written into it until it is released; objects that are not released lie
    in different places, inside memory the system gave, those from pools at cache lines; no
    free list is followed outside that memory and free is only called for what malloc
    returned. [psz] is the size of the pages the pools are refilled with. *)
Theorem C53_exclusive : forall psz m os v ys,
  1280 <= psz -> meanings nothing os = Some (v, ys) -> honest_run psz (start m) os ->
  exists st, run psz (start m) os = Fine (st, ys) /\ separate st v.
Proof. exact pool_values. Qed.
Print Assumptions C53_exclusive.

(** Two threads. Thread 0 takes a page for blocks of five lines (four blocks), thread 1 one
    of its own; objects are written, freed, retired, released, and their blocks used again. *)
Example C53_program : list op :=
  [PAlloc 0 320 4096; Put 0 0 11; Put 0 39 12; PAlloc 0 300 0; Put 1 0 13;
   PAlloc 1 320 8192; Put 2 1 14; MAlloc 1 24 20000; Put 3 2 15;
   PFree 1 1 300; PAlloc 1 290 0; Put 4 0 16; Get 0 0; Get 0 39; Get 2 1;
   PRetire 0 0 320 4096; Get 0 39; MRetire 0 3 256; Get 3 2; Release 0; Release 0; Release 0;
   PAlloc 0 310 0; Put 5 0 17; MAlloc 0 8 20000; Put 6 0 18; Get 4 0; Get 2 1; Get 5 0; Get 6 0;
   PFree 0 5 310; PFree 0 4 290; PAlloc 0 257 0; PAlloc 0 257 0; Put 7 0 19; Put 8 0 20;
   Get 7 0; Get 8 0; Get 2 1].

Example C53_program_ok :
  (exists v, meanings nothing C53_program =
    Some (v, [None; None; None; None; None; None; None; None; None; None; None; None;
              Some 11; Some 12; Some 14; None; Some 12; None; Some 15; None; None; None;
              None; None; None; None; Some 16; Some 14; Some 17; Some 18;
              None; None; None; None; None; None; Some 19; Some 20; Some 14])) /\
  honest_run 1280 (start (fun x => x)) C53_program.
Proof.
  split; [eexists; vm_compute; reflexivity|].
  unfold C53_program.
  repeat (split;
    [first [exact Logic.I
      | intros E; vm_compute in E; first [discriminate E | idtac];
        (split; [|reflexivity]); (split; [lia|]); (split; [lia|]);
        split; intros r; vm_compute pages; vm_compute chunks;
        cbn [In]; intros R; repeat (destruct R as [<-|R]); try destruct R;
        unfold apart; simpl; lia
      | (split; [|reflexivity]); (split; [lia|]); (split; [lia|]);
        split; intros r; vm_compute pages; vm_compute chunks;
        cbn [In]; intros R; repeat (destruct R as [<-|R]); try destruct R;
        unfold apart; simpl; lia]
    | intros st' x E; vm_compute in E; injection E as <- <-]).
  exact Logic.I.
Qed.

(** No memory is lost: the system is asked for a page only when the thread has no spare
    block of the class, where every block of every page and every block given back counts;
    and all that is kept from malloc are objects not yet released. *)
Theorem C53_reuse : forall psz m os v ys,
  1280 <= psz -> meanings nothing os = Some (v, ys) -> honest_run psz (start m) os ->
  exists st, run psz (start m) os = Fine (st, ys) /\
    Z.of_nat (length (pages st)) = bought (deals psz nothing empty_store os) /\ no_leak st v.
Proof. exact pool_reuse. Qed.
Print Assumptions C53_reuse.

(** The program above needs two pages. *)
Example C53_reuse_case : bought (deals 1280 nothing empty_store C53_program) = 2.
Proof. vm_compute. reflexivity. Qed.

(** The tags the code uses (mtcounters.hh:23-29) leave the low byte free. *)
Example C53_tags : forallb (fun t => t mod 256 =? 0) [0; 256; 1280; 4096; 4352; 4608; 4864] = true.
Proof. reflexivity. Qed.

(** pool_allocate asserts only the upper bound: with size 0 it reads [pool_[-1]]. *)
Theorem C53_zero_refuted : exists sz base, 0 <= sz <= 20 * 64 /\
  forall psz m, run psz (start m) [PAlloc 0 sz base] = Bad.
Proof. exists 0, 64. split; [lia|]. reflexivity. Qed.
Print Assumptions C53_zero_refuted.

(** C54. A leaf of [ss] bytes made for suffixes of any total length gets a size the pools
    serve; whatever happens to its suffix bags later (each change of bag marks the inner one
    dead), it is given back with the size it was allocated with, the count fits its signed
    byte, and an inner bag has at least 64 and fewer than 192 bytes, so its 8-bit offsets
    reach all of it. *)
Theorem C54_leaf_sizes : forall ss ksuf n, 0 < ss <= 1152 -> 0 <= ksuf ->
  let sz := leaf_size ss ksuf in
  let e := extrasize64 ss sz in
  0 < sz <= 20 * 64 /\ sz mod 64 = 0 /\
  allocated_size ss (Nat.iter n mark_dead e) = sz /\
  - 128 <= Nat.iter n mark_dead e < 128 /\
  (0 < Nat.iter n mark_dead e -> n = 0%nat /\ 64 <= sz - ss < 192).
Proof. exact leaf_sizes_iter. Qed.
Print Assumptions C54_leaf_sizes.

(** A leaf of 320 bytes made for 100 bytes of suffixes: seven lines, two extra. *)
Example C54_case : 0 < 320 <= 1152 /\ 0 <= 100 /\ leaf_size 320 100 = 448 /\
  extrasize64 320 448 = 2 /\ mark_dead 2 = -3 /\ allocated_size 320 (-3) = 448.
Proof. repeat split; lia. Qed.
