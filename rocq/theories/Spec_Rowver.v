(* A row as a value: what updates do and what a get answers. *)
From Verif Require Import Lib M_Rowver.

(* Column i becomes c; the row grows if it has to. *)
Fixpoint put1 (cols : list Z) (i : nat) (c : Z) : list Z :=
  match i, cols with
  | O, [] => [c]
  | O, _ :: l => c :: l
  | S i', [] => 0 :: put1 [] i' c
  | S i', x :: l => x :: put1 l i' c
  end.
Definition effect (cols : list Z) (o : wop) : list Z :=
  match o with
  | WPut ch => fold_left (fun l x => put1 l (fst x) (snd x)) ch cols
  | WReplace c => [c]
  end.
Definition value (cols : list Z) (os : list wop) : list Z := fold_left effect os cols.

(* The answer to a get of columns f (none: all); absent columns are null. *)
Definition answer (f : list nat) (cols : list Z) : list Z :=
  match f with [] => cols | _ => map (fun i => nth i cols 0) f end.

(* Change sets are not empty and name columns in increasing order. *)
Fixpoint increasing (ch : list (nat * Z)) : Prop :=
  match ch with
  | [] => True
  | x :: ch' => match ch' with [] => True | y :: _ => (fst x < fst y)%nat end /\ increasing ch'
  end.
Definition wop_ok (o : wop) : Prop := match o with WPut ch => ch <> [] /\ increasing ch | WReplace _ => True end.
Definition ev_ok (e : vev) : Prop := match e with EBegin o => wop_ok o | _ => True end.

(* The updates begun in a run, and those that have ended in a run that leads to s. *)
Definition begun (es : list vev) : list wop := flat_map (fun e => match e with EBegin o => [o] | _ => [] end) es.
Definition ended (es : list vev) (s : vstate) : list wop := match v_w s with None => begun es | Some _ => removelast (begun es) end.

(* The get of thread t that begins after es1 is still the thread's last one after es1 ++ EGet t f :: es2. *)
Definition no_start (t : nat) (es : list vev) : Prop := forall e, In e es -> match e with EGet u _ | EGet1 u _ => u <> t | _ => True end.

(* cols was the row's value at a moment of the last get of thread t: all updates that had ended by then have taken
   effect, and no other. *)
Definition was_value (cols0 : list Z) (es : list vev) (t : nat) (f : list nat) (cols : list Z) : Prop :=
  exists a b c s, es = a ++ EGet t f :: b ++ c /\ no_start t (b ++ c) /\
    vrun (v_init cols0) (a ++ EGet t f :: b) = Some s /\ cols = value cols0 (ended (a ++ EGet t f :: b) s).

(* The updates begun since thread t began its last get. *)
Fixpoint since (t : nat) (es : list vev) : Z :=
  match es with
  | [] => 0
  | e :: es' =>
    if existsb (fun e => match e with EGet u _ | EGet1 u _ => Nat.eqb u t | _ => false end) es' then since t es'
    else match e with EBegin _ => 1 | _ => 0 end + since t es'
  end.
