(** Strings and StringAccums: C51 and C52. *)

From Coq Require Import List ZArith Bool.
From Verif Require Import M_StringRep Spec_StringRep P_StringRep5.
Import ListNotations.
Open Scope Z_scope.

(** C51. Whatever a program does with Strings and StringAccums (sharing, appending in
    place, self-append, substrings, taking and growing), each variable behaves as a value
    of its own and no memory is used outside a live block. Partial: mutable_data and
    make_transfer are only covered on Strings that share their buffer with no other
    String, which [C51_mutable_refuted] and [C51_transfer_refuted] show to be needed. *)
Theorem C51_values_partial : forall os vs xs,
  meanings nothing os = Some (vs, xs) -> unshared start os ->
  exists st, run false start os = Fine (st, xs).
Proof. exact values_code. Qed.
Print Assumptions C51_values_partial.

(** Programs that call neither need no such condition. *)
Theorem C51_ordinary : forall os vs xs,
  forallb ordinary os = true -> meanings nothing os = Some (vs, xs) ->
  exists st, run false start os = Fine (st, xs).
Proof. exact values_ordinary. Qed.
Print Assumptions C51_ordinary.

(** With the test in is_shared the other way round, all programs are covered. *)
Theorem C51_repaired : forall os vs xs,
  meanings nothing os = Some (vs, xs) -> exists st, run true start os = Fine (st, xs).
Proof. exact values_fixed. Qed.
Print Assumptions C51_repaired.

(** Two Strings share a buffer, both append in place; the first gets the room, the second
    has to copy. Then a String appends a part of itself, and an accumulator is taken. *)
Example C51_program : list op :=
  [New (SOut [97; 98; 99]); AppendChars 0 (SOut [100]); Copy 0; AppendChars 0 (SOut [101]);
   AppendChars 1 (SOut [102]); Read 0; Read 1; Append 0 0; AppendChars 0 (SStr 0 1 3);
   AssignChars 1 (SStr 1 2 2); CStr 1; Substr 0 (-4) 3; Read 2; Read 0;
   ANew; AAppend 0 (SStr 0 0 4); AAppend 0 (SAcc 0 1 3); AChar 0 33; ATake 0; Read 3;
   MoveTo 2 0; Read 2; Swap 1 3; Read 1; Destroy 0; Destroy 1; Destroy 2; Destroy 3;
   ADestroy 0].
Example C51_program_ok :
  forallb ordinary C51_program = true /\
  exists vs, meanings nothing C51_program =
    Some (vs, [None; None; None; None; None; Some [97; 98; 99; 100; 101];
               Some [97; 98; 99; 100; 102]; None; None; None; Some [99; 100; 0]; None;
               Some [101; 98; 99]; Some [97; 98; 99; 100; 101; 97; 98; 99; 100; 101; 98; 99; 100];
               None; None; None; None; None; Some [97; 98; 99; 100; 98; 99; 100; 33];
               None; Some [97; 98; 99; 100; 101; 97; 98; 99; 100; 101; 98; 99; 100]; None;
               Some [97; 98; 99; 100; 98; 99; 100; 33]; None; None; None; None; None]).
Proof. split; [reflexivity|]. eexists. vm_compute. reflexivity. Qed.

(** Writing through mutable_data to a String that does not share its buffer. *)
Example C51_poke : list op := [New (SOut [97; 98]); Poke 0 1 99; Read 0; ATransfer 0; ARead 0].
Example C51_poke_ok :
  unshared start C51_poke /\
  exists vs, meanings nothing C51_poke =
    Some (vs, [None; None; Some [97; 99]; None; Some [97; 99]]).
Proof.
  split; [|eexists; vm_compute; reflexivity].
  cbn -[step alone]. split; [exact Logic.I|]. intros s1 x1 E1. vm_compute in E1. injection E1 as <- <-.
  split. { intros [|w] r r' b N E E'; [congruence|]. destruct w; discriminate. }
  intros s2 x2 E2. vm_compute in E2. injection E2 as <- <-.
  split; [exact Logic.I|]. intros s3 x3 E3. vm_compute in E3. injection E3 as <- <-.
  split. { intros [|w] r r' b N E E'; [congruence|]. destruct w; discriminate. }
  intros s4 x4 E4. split; [exact Logic.I|]. intros. exact Logic.I.
Qed.

(** is_shared is inverted, so writing through mutable_data to a String changes its copy. *)
Theorem C51_mutable_refuted : exists os vs xs,
  meanings nothing os = Some (vs, xs) /\
  exists st ys, run false start os = Fine (st, ys) /\ ys <> xs.
Proof.
  exists [New (SOut [97; 98]); Copy 0; Poke 0 0 120; Read 1], 
    {| v_strs := [Some (Some [120; 98]); Some (Some [97; 98])]; v_accs := [] |},
    [None; None; None; Some [97; 98]].
  split; [reflexivity|]. eexists. exists [None; None; None; Some [120; 98]].
  split; [vm_compute; reflexivity|discriminate].
Qed.
Print Assumptions C51_mutable_refuted.

(** For the same reason make_transfer takes the buffer of a shared String away from the
    other Strings: the accumulator frees it, and the copy is read after that. *)
Theorem C51_transfer_refuted : exists os vs xs,
  meanings nothing os = Some (vs, xs) /\ run false start os = Bad.
Proof.
  exists [New (SOut [97; 98]); Copy 0; ATransfer 0; ADestroy 0; Read 1],
    {| v_strs := [Some (Some []); Some (Some [97; 98])]; v_accs := [None] |},
    [None; None; None; None; Some [97; 98]].
  split; [reflexivity|]. vm_compute. reflexivity.
Qed.
Print Assumptions C51_transfer_refuted.

(** unique() is documented to return a String that shares its data with no other (stable
    ones apart); called on a String with a buffer of its own it returns a String that
    shares that buffer. *)
Theorem C51_unique_refuted : exists os st xs r0 r1 b,
  run false start (os ++ [Unique 0]) = Fine (st, xs) /\
  nth_error (strs st) 0 = Some (Some r0) /\ nth_error (strs st) 1 = Some (Some r1) /\
  memo_ r0 = Some b /\ memo_ r1 = Some b.
Proof.
  exists [New (SOut [97; 98])]. eexists. eexists. eexists. eexists. exists O.
  split; [vm_compute; reflexivity|]. simpl. auto.
Qed.
Print Assumptions C51_unique_refuted.

(** substr(pos, n) adds pos and n as ints, which overflows for a large position although
    the documentation promises the empty String. *)
Theorem C51_substr_refuted : exists l pos n,
  - 2 ^ 31 <= pos < 2 ^ 31 /\ - 2 ^ 31 <= n < 2 ^ 31 /\ substring l pos n = [] /\
  run false start [New (SOut l); Substr 0 pos n] = Bad.
Proof.
  exists [97; 98], (2 ^ 31 - 1), 1. repeat split; try (vm_compute; congruence).
Qed.
Print Assumptions C51_substr_refuted.

(** C52. Every block that is not freed is in use, and when all variables are gone all
    blocks are freed. (That no block is used or freed after it is freed is part of C51:
    such a run would be [Bad].) *)
Theorem C52_memory_partial : forall fixed os vs xs st ys,
  meanings nothing os = Some (vs, xs) -> fixed = true \/ (fixed = false /\ unshared start os) ->
  run fixed start os = Fine (st, ys) ->
  used st /\ (all_gone st -> forall b x, nth_error (hp st) b <> Some (Some x)).
Proof. exact memory_code. Qed.
Print Assumptions C52_memory_partial.

(** The program above made several blocks and leaves none. *)
Example C52_program_ok : exists st ys,
  run false start C51_program = Fine (st, ys) /\
  (length (hp st) > 4)%nat /\ forallb (fun m => match m with None => true | _ => false end) (hp st) = true
  /\ all_gone st.
Proof.
  eexists. eexists. split; [vm_compute; reflexivity|]. split; [simpl; auto with arith|].
  split; [reflexivity|]. split.
  - intros v r. do 4 (destruct v as [|v]; [discriminate|]). destruct v; discriminate.
  - intros v r. destruct v as [|[|v]]; discriminate.
Qed.
