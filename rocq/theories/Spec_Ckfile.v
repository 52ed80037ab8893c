(* Checkpoints one after the other, crashes in between, and what recovery may find. *)
From Verif Require Import Lib M_Ckfile.

Definition ckpt := option (nat * list (list Z)).
Definition gen_no (x : ckpt) : nat := match x with Some (g, _) => g | None => 0 end.
Definition on (a : name) (c : call) : bool := match c with Open b | Write b _ | Fsync b => name_eqb b a | _ => false end.
(* The calls of n threads that write the files of generation g, in any interleaving: thread i writes nth i parts, in any
   pieces. *)
Definition writes_parts (n g : nat) (parts : list (list Z)) (l : list call) : Prop :=
  length parts = n /\ Forall (fun c => exists i, (i < n)%nat /\ on (Ck g i) c = true) l /\
  forall i, (i < n)%nat -> exists ps, filter (on (Ck g i)) l = write_file (Ck g i) ps /\ concat ps = nth i parts [].
(* The calls of a whole checkpoint of generation S g. *)
Definition round (rep : bool) (gen_of : list Z -> option nat) (n g : nat) (parts : list (list Z)) (l : list call) : Prop :=
  exists l1 ps, writes_parts n (S g) parts l1 /\ gen_of (concat ps) = Some (S g) /\ l = l1 ++ commit rep n g ps.

(* A server that takes checkpoints, crashes and starts again: file system, generation, and the checkpoints that a crash may
   bring back: those since the start and the one found then; with the repair the last one only. ok: the crashes
   possible. *)
Inductive reach (rep : bool) (ok : list dop -> list bool -> Prop) (gen_of : list Z -> option nat) (n : nat) : fs -> nat -> list ckpt -> Prop :=
| R_start : reach rep ok gen_of n fs0 0 [None]
| R_round s g A parts l : reach rep ok gen_of n s g A -> round rep gen_of n g parts l -> reach rep ok gen_of n (calls s l) (S g) (if rep then [Some (S g, parts)] else A ++ [Some (S g, parts)])
| R_crash s g A parts l1 l2 keep junk x : reach rep ok gen_of n s g A -> round rep gen_of n g parts (l1 ++ l2) -> ok (f_pend (calls s l1)) keep ->
    recover gen_of n (crash keep junk (calls s l1)) = Some x -> reach rep ok gen_of n (crash keep junk (calls s l1)) (gen_no x) [x].
Definition any_order (l : list dop) (keep : list bool) : Prop := True.
