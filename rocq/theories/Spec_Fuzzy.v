(* What recovery should restore: for every key the row left by its updates of epochs before a bound. *)
From Verif Require Import Lib M_Msgpack M_Bag Spec_Log Spec_Row M_Rowrun M_Replay Spec_Replay M_Fuzzy.

(* The updates of key k, newest first, each with its timestamp. *)
Definition of (k : list Z) (h : list item) : list item := filter (fun i => keq (i_key i) k) h.
Definition ops (h : list item) : list (rop * Z) := map (fun i => (i_rop i, i_ts i)) h.
(* Those of epochs before mx. *)
Definition before (mx : Z) (h : list item) : list item := filter (fun i => i_epoch i <? mx) h.

(* Requests name columns in increasing order, and the key is not empty (C25). *)
Definition upd_ok (o : upd) : Prop := match o with UPut cs ch => sent cs ch /\ rop_ok (RPut ch) | UReplace _ => True end.
Definition fev_ok (e : fev) : Prop := match e with FBegin _ _ k o => k <> [] /\ upd_ok o | _ => True end.

(* When a checkpoint starts no thread holds an epoch that is over. *)
Definition calm (s : fstate) : Prop := forall t l k o e, f_pc s t = TEpoch l k o e -> e = f_ge s.
Fixpoint quiet_starts (fix_ : bool) (nlog : nat) (s : fstate) (es : list fev) : Prop :=
  match es with
  | [] => True
  | e :: es' => (e = CStart -> calm s) /\ match fstep fix_ nlog s e with Some s' => quiet_starts fix_ nlog s' es' | None => True end
  end.

(* Every stored update of an epoch before mx is in a log. *)
Definition recorded (mx : Z) (s : fstate) : Prop :=
  forall t, match f_pc s t with TStored _ _ e _ | TOpen _ _ e _ => mx <= e | _ => True end.
(* Rows and change sets fit (C23_marker_refuted). *)
Definition all_fit (h : list item) : Prop := (forall k, throughout fits_bag (map fst (ops (of k h)))) /\ Forall (fun i => marker_fits (i_entry i)) h.

(* The value of a column after updates h of its key; None: the key is absent. *)
Definition column (h : list (rop * Z)) (col : Z) : option (list Z) := match h with [] => None | _ => Some (last_written (map fst h) col) end.
