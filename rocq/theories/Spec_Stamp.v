(* What timestamps are for. *)
From Verif Require Import Lib.

(* An update as seen in the log: key, removal or not, timestamp, timestamp of the version it replaces. *)
Record upd_rec := MkUpd { u_key : list Z; u_rem : bool; u_ts : Z; u_prev : Z }.

(* Later updates of a key have larger timestamps. *)
Definition ts_increase (l : list upd_rec) : Prop :=
  forall l1 a l2 b l3, l = l1 ++ a :: l2 ++ b :: l3 -> u_key a = u_key b -> u_ts a < u_ts b.

(* The latest update of k in a list that starts with the oldest. *)
Definition latest (k : list Z) (l : list upd_rec) : option upd_rec :=
  find (fun u => if list_eq_dec Z.eq_dec (u_key u) k then true else false) (rev l).
(* Every update names the version it replaces: the latest put of its key, or 0 when there is none or it was removed. *)
Definition prev_names (l : list upd_rec) : Prop :=
  forall l1 b l2, l = l1 ++ b :: l2 ->
    u_prev b = match latest (u_key b) l1 with Some a => if u_rem a then 0 else u_ts a | None => 0 end.

(* Replaying a log: the update of k with the largest timestamp decides, whatever the order of the list. *)
Fixpoint largest (k : list Z) (l : list upd_rec) : option upd_rec :=
  match l with
  | [] => None
  | u :: l' =>
    if list_eq_dec Z.eq_dec (u_key u) k then
      match largest k l' with Some v => if u_ts u <? u_ts v then Some v else Some u | None => Some u end
    else largest k l'
  end.
(* The timestamp of the row it leaves, if any. *)
Definition newest (k : list Z) (l : list upd_rec) : option Z :=
  match largest k l with Some u => if u_rem u then None else Some (u_ts u) | None => None end.
