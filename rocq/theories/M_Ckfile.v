(* The files of checkpoints and the file system under them: what survives a crash of the machine. The file system keeps data
   that were synced and forgets the rest; changes of directories survive or not until a directory is synced, in their
   order on each disk or in none. Not modelled: failing calls (the code stops, which is a crash that keeps everything), files of
   other programs, a change of the number of checkpoint threads (see C33), wrap-around of the generation. *)
From Verif Require Import Lib.

(* kvd-ckp-gen, kvd-ckp-gen.tmp (mtd.cc:1364, 1574, file.cc:83), kvd-ckp-g-i (mtd.cc:1333, 1542). *)
Inductive name := Gen | Tmp | Ck (g i : nat).
(* Equality of paths. *)
Definition name_eqb (a b : name) : bool :=
  match a, b with Gen, Gen | Tmp, Tmp => true | Ck g i, Ck h j => (g =? h)%nat && (i =? j)%nat | _, _ => false end.
(* A change of a directory: a new file by open with O_CREAT (file.cc:61, creat in mtd.cc:1506), unlink (mtd.cc:1587), the
   rename of kvd-ckp-gen.tmp, which is file o, to kvd-ckp-gen (file.cc:88). *)
Inductive dop := DSet (a : name) (o : nat) | DDel (a : name) | DRen (o : nat).
(* The checkpoint directories, --ckpdir of mtd (ckpdirs, mtd.cc:97, 628), as one map from names to files. *)
Definition dir := name -> option nat.
(* A directory with one entry changed. *)
Definition dput (D : dir) (a : name) (v : option nat) : dir := fun b => if name_eqb b a then v else D b.
(* One change; rename replaces kvd-ckp-gen and removes kvd-ckp-gen.tmp at once (file.cc:88). *)
Definition dapply (D : dir) (c : dop) : dir :=
  match c with DSet a o => dput D a (Some o) | DDel a => dput D a None | DRen o => dput (dput D Tmp None) Gen (Some o) end.
(* Changes in order. *)
Definition dapplies (D : dir) (l : list dop) : dir := fold_left dapply l D.
(* The file system: contents of the files by number, whether they are synced, the directories as they are on disk, the
   changes of directories since, the next file number. *)
Record fs := MkFs { f_cur : nat -> list Z; f_safe : nat -> bool; f_dur : dir; f_pend : list dop; f_next : nat }.
(* The directories as programs see them. *)
Definition now (s : fs) : dir := dapplies (f_dur s) (f_pend s).
(* A map with one file changed. *)
Definition put {A} (f : nat -> A) (o : nat) (v : A) : nat -> A := fun p => if (p =? o)%nat then v else f p.

(* The system calls of file.cc:58-89, mtd.cc:1506-1523 (writecheckpoint) and mtd.cc:1575-1588 (commit_checkpoint). Files
   are named where the code uses descriptors: between open and close no name changes its file. SyncAll: fsync of all
   directories, which the code does not do (see rep below). *)
Inductive call := Open (a : name) | Write (a : name) (b : list Z) | Fsync (a : name) | Rename | Unlink (a : name) | SyncAll.
Definition do_call (s : fs) (c : call) : fs :=
  match c with
  | Open a => match now s a with
              | Some o => MkFs (put (f_cur s) o []) (put (f_safe s) o false) (f_dur s) (f_pend s) (f_next s)
              | None => MkFs (put (f_cur s) (f_next s) []) (put (f_safe s) (f_next s) false) (f_dur s) (f_pend s ++ [DSet a (f_next s)]) (S (f_next s))
              end
  | Write a b => match now s a with
                 | Some o => MkFs (put (f_cur s) o (f_cur s o ++ b)) (put (f_safe s) o false) (f_dur s) (f_pend s) (f_next s)
                 | None => s
                 end
  | Fsync a => match now s a with Some o => MkFs (f_cur s) (put (f_safe s) o true) (f_dur s) (f_pend s) (f_next s) | None => s end
  | Rename => match now s Tmp with Some o => MkFs (f_cur s) (f_safe s) (f_dur s) (f_pend s ++ [DRen o]) (f_next s) | None => s end
  | Unlink a => MkFs (f_cur s) (f_safe s) (f_dur s) (f_pend s ++ [DDel a]) (f_next s)
  | SyncAll => MkFs (f_cur s) (f_safe s) (now s) [] (f_next s)
  end.
(* A sequence of calls. *)
Definition calls (s : fs) (l : list call) : fs := fold_left do_call l s.
(* An empty file system. *)
Definition fs0 : fs := MkFs (fun _ => []) (fun _ => false) (fun _ => None) [] 0.

(* A crash: of the pending changes those marked in keep survive; files not synced hold anything, junk. *)
Fixpoint kept (l : list dop) (keep : list bool) : list dop :=
  match l, keep with c :: l', k :: keep' => if k then c :: kept l' keep' else kept l' keep' | _, _ => [] end.
Definition crash (keep : list bool) (junk : nat -> list Z) (s : fs) : fs :=
  MkFs (fun o => if f_safe s o then f_cur s o else junk o) (fun _ => true) (dapplies (f_dur s) (kept (f_pend s) keep)) [] (f_next s).
(* dk i: the disk of the directory of checkpoint thread i, ckpdirs[i % ckpdirs.size()], mtd.cc:1543; kvd-ckp-gen is in
   ckpdirs[0], that of thread 0. *)
Definition disk (dk : nat -> nat) (c : dop) : nat :=
  match c with DSet (Ck _ i) _ | DDel (Ck _ i) => dk i | _ => dk 0%nat end.
(* A disk that keeps directory changes in order loses all that follow one it loses. *)
Fixpoint in_order (dk : nat -> nat) (l : list dop) (keep : list bool) : Prop :=
  match l, keep with
  | c :: l', k :: keep' => (k = false -> Forall (fun c' => disk dk c' <> disk dk c) (kept l' keep')) /\ in_order dk l' keep'
  | _, _ => True
  end.

(* safe_write, file.hh:43-60, given the results of write: it takes k bytes (at least one), nothing, or fails. The pieces
   written and what is returned; None: still in the loop. *)
Inductive wres := Wrote (k : nat) | Zero | Eintr | Fail.
Fixpoint safe_write (rs : list wres) (b : list Z) (pos : nat) : list (list Z) * option Z :=
  match b with
  | [] => ([], Some (Z.of_nat pos))
  | _ :: _ =>
    match rs with
    | [] => ([], None)
    | Wrote k :: rs' => let k' := Nat.min (Nat.max k 1) (length b) in let r := safe_write rs' (skipn k' b) (pos + k') in (firstn k' b :: fst r, snd r)
    | Zero :: _ => ([], Some (Z.of_nat pos))
    | Eintr :: rs' => safe_write rs' b pos
    | Fail :: _ => ([], Some (if (pos =? 0)%nat then -1 else Z.of_nat pos))
    end
  end.

(* A file written whole: open, pieces, fsync (writecheckpoint, mtd.cc:1506-1523; sync_write_file_contents, file.cc:58-78). *)
Definition write_file (a : name) (pieces : list (list Z)) : list call := Open a :: map (Write a) pieces ++ [Fsync a].
(* commit_checkpoint, mtd.cc:1569-1589, of generation S g with n threads: kvd-ckp-gen through its temporary file, then the
   files of the generation before. rep: the repaired code syncs the directories before it begins and after the rename. *)
Definition commit (rep : bool) (n g : nat) (pieces : list (list Z)) : list call :=
  (if rep then [SyncAll] else []) ++ write_file Tmp pieces ++ [Rename] ++ (if rep then [SyncAll] else []) ++ map (fun i => Unlink (Ck g i)) (seq 0 n).
(* Recovery, mtd.cc:1361-1376, 1330-1339: None: an assertion fails (a file of the checkpoint is not there); Some None: start
   without a checkpoint; Some (Some (g, parts)): the checkpoint read. gen_of: the generation in the text of
   kvd-ckp-gen, or none if it is not such a text (C47). *)
Definition contents (s : fs) (a : name) : option (list Z) := match now s a with Some o => Some (f_cur s o) | None => None end.
(* The files of all threads, recovercheckpoint, mtd.cc:1330-1339, and read_checkpoint's open, 1278-1282. *)
Fixpoint read_parts (s : fs) (g : nat) (l : list nat) : option (list (list Z)) :=
  match l with
  | [] => Some []
  | i :: l' => match contents s (Ck g i), read_parts s g l' with Some b, Some r => Some (b :: r) | _, _ => None end
  end.
Definition recover (gen_of : list Z -> option nat) (n : nat) (s : fs) : option (option (nat * list (list Z))) :=
  match contents s Gen with
  | None => Some None
  | Some t => match gen_of t with
              | None => Some None
              | Some g => match read_parts s g (seq 0 n) with Some r => Some (Some (g, r)) | None => None end
              end
  end.
