(* What a log file says. *)
From Verif Require Import Lib.

(* The entries of a log. A put creates a row from a change set, a modify changes the row that has timestamp prev. *)
Inductive entry :=
| EPut (key val : list Z) (ts : Z)
| EReplace (key val : list Z) (ts : Z)
| ERemove (key val : list Z) (ts : Z)
| EModify (key val : list Z) (ts prev : Z)
| EEpoch (e : Z)
| EQuiesce
| EWake.

(* Entries that fit the fields of a log record and the limit on keys. *)
Definition kv_ok (key val : list Z) (ts : Z) : Prop := bytes_ok key /\ bytes_ok val /\ len key <= 255 /\ len val < 2 ^ 31 /\ 0 <= ts < 2 ^ 64.
Definition entry_ok (e : entry) : Prop :=
  match e with
  | EPut k v ts | EReplace k v ts | ERemove k v ts => kv_ok k v ts
  | EModify k v ts prev => kv_ok k v ts /\ 0 <= prev < 2 ^ 64
  | EEpoch e => 0 <= e < 2 ^ 64
  | EQuiesce | EWake => True
  end.

Definition update_key (e : entry) : option (list Z) :=
  match e with EPut k _ _ | EReplace k _ _ | ERemove k _ _ | EModify k _ _ _ => Some k | _ => None end.

(* Each update with the epoch it was logged in; cur is the epoch before the list. *)
Fixpoint tagged (cur : Z) (l : list entry) : list (Z * entry) :=
  match l with
  | [] => []
  | EEpoch e :: l' => tagged e l'
  | u :: l' => match update_key u with Some _ => [(cur, u)] | None => [] end ++ tagged cur l'
  end.
(* Epochs of a log never go back. *)
Fixpoint epochs_from (cur : Z) (l : list entry) : Prop :=
  match l with
  | [] => True
  | EEpoch e :: l' => cur <= e /\ epochs_from e l'
  | _ :: l' => epochs_from cur l'
  end.
(* The first and the last epoch of a log; the epoch of the last wake entry; whether the log ends quiescent. 0: none. *)
Fixpoint first_epoch (l : list entry) : Z :=
  match l with [] => 0 | EEpoch e :: l' => if e =? 0 then first_epoch l' else e | _ :: l' => first_epoch l' end.
Fixpoint epoch_after (cur : Z) (l : list entry) : Z :=
  match l with [] => cur | EEpoch e :: l' => epoch_after e l' | _ :: l' => epoch_after cur l' end.
Fixpoint wake_after (cur wake : Z) (l : list entry) : Z :=
  match l with [] => wake | EEpoch e :: l' => wake_after e wake l' | EWake :: l' => wake_after cur cur l' | _ :: l' => wake_after cur wake l' end.
Definition ends_quiescent (l : list entry) : bool := match rev l with [] => true | EQuiesce :: _ => true | _ => false end.
(* Epoch numbers are non-zero and have not wrapped around. *)
Fixpoint epochs_small (l : list entry) : Prop :=
  match l with [] => True | EEpoch e :: l' => 0 < e < 2 ^ 63 /\ epochs_small l' | _ :: l' => epochs_small l' end.
(* The epoch of the first wake entry in an epoch at or after qe. 0: none. *)
Fixpoint first_wake (cur qe : Z) (l : list entry) : Z :=
  match l with
  | [] => 0
  | EEpoch e :: l' => first_wake e qe l'
  | EWake :: l' => if negb (cur =? 0) && (qe <=? cur) then cur else first_wake cur qe l'
  | _ :: l' => first_wake cur qe l'
  end.
(* The updates with epochs in [min_epoch, max_epoch). *)
Definition wanted (min_epoch max_epoch : Z) (l : list entry) : list (Z * entry) :=
  filter (fun x => (min_epoch <=? fst x) && (fst x <? max_epoch)) (tagged 0 l).
(* Updates of non-empty keys. *)
Definition has_key (x : Z * entry) : bool := match update_key (snd x) with Some [] | None => false | _ => true end.
(* A log starts with an epoch, which lies below the replayed range unless that is unbounded. *)
Definition starts_before (min_epoch : Z) (l : list entry) : Prop :=
  match l with EEpoch e :: _ => 0 < e /\ (min_epoch = 0 \/ e < min_epoch) | _ => False end.
(* An update. *)
Definition is_upd (u : entry) : Prop := update_key u <> None.
(* The contents of a log: entries that fit, starting with an epoch, epochs in order. *)
Definition log_ok (l : list entry) : Prop :=
  Forall entry_ok l /\ epochs_from 0 l /\ epochs_small l /\ match l with [] => True | EEpoch _ :: _ => True | _ => False end.
