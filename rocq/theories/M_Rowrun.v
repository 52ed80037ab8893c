(* Row histories run on the three row types that store columns. Histories are newest first, each operation with
   its timestamp. An operation is what apply_put or apply_replace does to a row that is present, kvrow.hh:178-208 and
   222-242; the oldest operation creates the row, kvrow.hh:184-189, 224-228. *)
From Verif Require Import Lib M_Bag M_Array Spec_Row.

(* Bag rows. *)
(* Runs a history (newest first, with timestamps) on a bag row. *)
Fixpoint bag_run (h : list (rop * Z)) : option bag :=
  match h with
  | [] => Some bag_empty
  | (RPut ch, ts) :: older => b <- bag_run older; bag_update b ch ts
  | (RReplace v, ts) :: _ => bag_create1 v ts
  end.
Definition newest {A} (h : list (A * Z)) : Z := match h with [] => 0 | (_, ts) :: _ => ts end.
(* The row fits into 16-bit offsets. *)
Definition fits_bag (h : list rop) : Prop := 4 + 2 * columns h + len (concat (row_after h)) < 2 ^ 16.

(* Array rows, with the heap of columns. *)
(* Runs a history, newest first; the oldest operation creates the row. *)
Fixpoint va_run (hist : list (rop * Z)) : option (cheap * varr) :=
  match hist with
  | [] => None
  | [(RPut ch, ts)] => va_create cheap_empty ch ts
  | [(RReplace v, ts)] => Some (va_create1 cheap_empty v ts)
  | (o, ts) :: older =>
    x <- va_run older;
    let '(h, r) := x in match o with RPut ch => va_put h r ch ts | RReplace v => Some (va_replace h r v ts) end
  end.

(* Versioned array rows. *)
Fixpoint vv_run (hist : list (rop * Z)) : option (cheap * vver) :=
  match hist with
  | [] => None
  | [(RPut ch, ts)] => vv_create cheap_empty ch ts
  | [(RReplace v, ts)] => Some (vv_create1 cheap_empty v ts)
  | (o, ts) :: older =>
    x <- vv_run older;
    let '(h, r) := x in match o with RPut ch => vv_put h r ch ts | RReplace v => Some (vv_replace h r v ts) end
  end.

(* Nothing is written by an empty change set, and last[-2] would not exist. The column count is a short. *)
Definition put_nonempty (o : rop) : Prop := match o with RPut [] => False | _ => True end.
Definition fits_short (h : list rop) : Prop := columns h < 2 ^ 15.

