(* Vectors as sequences. *)
From Verif Require Import Lib M_Smallvec.

Definition seqs := nat -> option (list Z).
Definition sput (q : seqs) (i : nat) (l : option (list Z)) : seqs := fun j => if (j =? i)%nat then l else q j.
(* What an operation does to the sequences; None: its precondition fails (a name that is or is not in use, an empty
   vector, a position outside). *)
Definition sstep (q : seqs) (o : vop) : option seqs :=
  match o with
  | New i => match q i with None => Some (sput q i (Some [])) | Some _ => None end
  | Copy i j => match q i, q j with None, Some l => Some (sput q i (Some l)) | _, _ => None end
  | Drop i => match q i with Some _ => Some (sput q i None) | None => None end
  | Push i v => match q i with Some l => Some (sput q i (Some (l ++ [v]))) | None => None end
  | PushAt i j k => match q i, q j with Some l, Some l' => match nth_error l' k with Some v => Some (sput q i (Some (l ++ [v]))) | None => None end | _, _ => None end
  | Pop i => match q i with Some l => if (length l =? 0)%nat then None else Some (sput q i (Some (removelast l))) | None => None end
  | Clear i => match q i with Some _ => Some (sput q i (Some [])) | None => None end
  | Resize i n v => match q i with Some l => Some (sput q i (Some (firstn n l ++ repeat v (n - length l)))) | None => None end
  | Erase i a b => match q i with Some l => if (a <=? b)%nat && (b <=? length l)%nat then Some (sput q i (Some (firstn a l ++ skipn b l))) else None | None => None end
  | Put i k v => match q i with Some l => if (k <? length l)%nat then Some (sput q i (Some (firstn k l ++ v :: skipn (S k) l))) else None | None => None end
  | Assign i j => match q i, q j with Some _, Some l => Some (sput q i (Some l)) | _, _ => None end
  end.
Fixpoint srun (q : seqs) (l : list vop) : option seqs :=
  match l with [] => Some q | o :: l' => match sstep q o with Some q' => srun q' l' | None => None end end.
(* No sequence grows beyond 2^30 elements. *)
Definition small (q : seqs) : Prop := forall i l, q i = Some l -> Z.of_nat (length l) <= 2 ^ 30.
Fixpoint stays_small (q : seqs) (l : list vop) : Prop :=
  small q /\ match l with [] => True | o :: l' => match sstep q o with Some q' => stays_small q' l' | None => True end end.
(* push_back is not given an element of the same vector. *)
Definition no_alias (o : vop) : Prop := match o with PushAt i j _ => i <> j | _ => True end.

(* What the accessors show of vector i: size() and the elements [0] to [size() - 1]. *)
Definition shows (s : vst) (i : nat) (l : list Z) : Prop :=
  exists x, s_env s i = Some x /\ v_size x = length l /\ forall k, (k < length l)%nat -> value (s_mem s) (v_first x) k = nth_error l k.
(* The objects in existence. *)
Definition objects (b : list cell) : nat := length (filter (fun c => match c with Obj _ => true | Raw => false end) b).
