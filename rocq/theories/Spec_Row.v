(* What column updates mean, independently of any row layout. *)
From Verif Require Import Lib.

(* The value a change set gives to column i. *)
Fixpoint lookup (i : Z) (ch : list (Z * list Z)) : option (list Z) :=
  match ch with [] => None | (j, v) :: ch' => if j =? i then Some v else lookup i ch' end.

(* Columns are named in strictly increasing order from lo on. *)
Fixpoint increasing (lo : Z) (ch : list (Z * list Z)) : Prop :=
  match ch with [] => True | (j, _) :: ch' => lo <= j /\ increasing (j + 1) ch' end.

(* One more than the largest column named. *)
Definition top_col (ch : list (Z * list Z)) : Z := fold_right (fun jv n => Z.max (fst jv + 1) n) 0 ch.

(* cols' is cols with exactly the named columns replaced, extended with empty columns to reach the largest
   one. A column that a row does not have reads as empty. *)
Definition updated (cols : list (list Z)) (ch : list (Z * list Z)) (cols' : list (list Z)) : Prop :=
  len cols' = Z.max (len cols) (top_col ch) /\
  forall i, nth i cols' [] = match lookup (Z.of_nat i) ch with Some v => v | None => nth i cols [] end.

(* A row's history, newest first: column changes (the oldest create the row), or replacement by a single column. *)
Inductive rop := RPut (ch : list (Z * list Z)) | RReplace (v : list Z).
(* The last value written to column i; empty if none. *)
Fixpoint last_written (hist : list rop) (i : Z) : list Z :=
  match hist with
  | [] => []
  | RPut ch :: older => match lookup i ch with Some v => v | None => last_written older i end
  | RReplace v :: _ => if i =? 0 then v else []
  end.
Fixpoint columns (hist : list rop) : Z :=
  match hist with
  | [] => 0
  | RPut ch :: older => Z.max (columns older) (top_col ch)
  | RReplace v :: _ => 1
  end.
(* The columns after such a history. *)
Definition row_after (hist : list rop) : list (list Z) :=
  map (fun i => last_written hist (Z.of_nat i)) (seq 0 (Z.to_nat (columns hist))).
(* P holds now and at every earlier point. *)
Fixpoint throughout (P : list rop -> Prop) (hist : list rop) : Prop :=
  match hist with [] => P [] | _ :: older => P hist /\ throughout P older end.
(* Change sets name columns in increasing order. *)
Definition rop_ok (o : rop) : Prop := match o with RPut ch => increasing 0 ch | RReplace _ => True end.
