(* Specification of a checkpoint: what a client sees of a key, which rows and tables can be written. *)
From Coq Require Import Sorting.Sorted.
From Verif Require Import Lib M_Tree M_Scan M_Ckpt M_Bag M_Rowrun Spec_String Spec_Map Spec_Row Spec_Scan.

(* What a client sees of a key whose row is at the address: timestamp and bytes of the row; nothing if the row marks a removal. *)
Definition seen (rows : Z -> bag) (o : option Z) : option (Z * list (option Z)) :=
  match o with
  | Some v => if Z.odd (bag_timestamp (rows v)) then None else Some (bag_timestamp (rows v), bg_s (rows v))
  | None => None
  end.
(* A row with a history of updates within its 16-bit offsets, and a 64-bit timestamp. *)
Definition row_good (b : bag) : Prop :=
  0 <= bag_timestamp b < 2 ^ 64 /\ exists h, Forall (fun o => rop_ok (fst o)) h /\ throughout fits_bag (map fst h) /\ bag_run h = Some b.
(* Bytes asked for by a thread that writes all bindings. *)
Definition ck_space (rows : Z -> bag) (L : list (list Z * Z)) : Z := fold_right (fun kv n => 19 + len (fst kv) + len (bg_s (rows (snd kv))) + n) 0 L.
Definition small_table (rows : Z -> bag) (m : kmap) : Prop := forall L, enum_up m [] true L -> ck_space rows L <= 2 ^ 31.
(* Range boundaries: the first range starts at the empty key; boundaries are keys a scan can start from. *)
Definition starts_ok (starts : list (list Z)) : Prop := hd_error starts = Some [] /\ Forall (fun s => bytes_ok s /\ (length s <= 255)%nat) starts.
(* The ranges do not overlap. *)
Definition starts_apart (starts : list (list Z)) : Prop := StronglySorted lex_le starts /\ ~ In [] (tl starts).
(* The scratch memory has the sizes the code allocates. *)
Definition scratch_ok (e : nat -> scratch) : Prop := forall i, length (sc_key (e i)) = keybuf_size /\ length (sc_buf (e i)) = 256%nat.
