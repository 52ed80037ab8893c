(** What a program that uses Strings and StringAccums should see: every variable has a
    value of its own, a list of characters, and each operation changes only the variables
    it is said to change. *)

From Coq Require Import List ZArith Bool.
From Verif Require Import M_StringRep.
Import ListNotations.
Open Scope Z_scope.

(** A String is destroyed ([None]), moved away so that it may only be destroyed or
    assigned to ([Some None]), or has a value. *)
Record values := { v_strs : list (option (option (list Z))); v_accs : list (option (list Z)) }.

(** The sizes covered: a bit below 2^30 characters, and fewer than 2^32 Strings. *)
Definition max_len : Z := 2 ^ 30 - 12.
Definition fits (l : list Z) : bool := Z.of_nat (length l) <=? max_len.
Definition room (vs : values) : bool := Z.of_nat (length (v_strs vs)) <? 2 ^ 32 - 2.

Definition value (vs : values) (v : nat) : option (list Z) :=
  match nth_error (v_strs vs) v with Some (Some (Some l)) => Some l | _ => None end.
Definition alive (vs : values) (v : nat) : bool :=
  match nth_error (v_strs vs) v with Some (Some _) => true | _ => false end.
Definition accum (vs : values) (a : nat) : option (list Z) :=
  match nth_error (v_accs vs) a with Some (Some l) => Some l | _ => None end.

(** [n] characters from position [i], which must exist. *)
Definition slice (l : list Z) (i n : Z) : option (list Z) :=
  if (0 <=? i) && (0 <=? n) && (i + n <=? Z.of_nat (length l))
  then Some (firstn (Z.to_nat n) (skipn (Z.to_nat i) l)) else None.

Definition chars (vs : values) (s : src) : option (list Z) :=
  match s with
  | SOut l => Some l
  | SStr w i n => match value vs w with Some l => slice l i n | None => None end
  | SAcc a i n => match accum vs a with Some l => slice l i n | None => None end
  end.

Definition new_str (vs : values) (l : list Z) : option values :=
  if room vs && fits l
  then Some {| v_strs := v_strs vs ++ [Some (Some l)]; v_accs := v_accs vs |} else None.
Definition put_str (vs : values) (v : nat) (x : option (option (list Z))) : values :=
  {| v_strs := put (v_strs vs) v x; v_accs := v_accs vs |}.
Definition let_str (vs : values) (v : nat) (l : list Z) : option values :=
  if alive vs v && fits l then Some (put_str vs v (Some (Some l))) else None.
Definition let_acc (vs : values) (a : nat) (l : list Z) : option values :=
  match accum vs a with
  | Some _ =>
    if fits l then Some {| v_strs := v_strs vs; v_accs := put (v_accs vs) a (Some l) |}
    else None
  | None => None
  end.

(** substr(pos, n): a negative position counts from the end, a negative length leaves
    that many characters off the end, and what lies outside the string is left out. *)
Definition from (l : list Z) (pos : Z) : Z :=
  if pos <? 0 then Z.of_nat (length l) + pos else pos.
Definition upto (l : list Z) (pos n : Z) : Z :=
  if n <? 0 then Z.of_nat (length l) + n else from l pos + n.
Definition substring (l : list Z) (pos n : Z) : list Z :=
  let i := Z.max 0 (from l pos) in
  let j := Z.min (Z.of_nat (length l)) (upto l pos n) in
  firstn (Z.to_nat (j - i)) (skipn (Z.to_nat i) l).

(** The arguments are ints, and so is the end of the substring (unless all of the rest of
    the string is asked for). *)
Definition substr_ints (l : list Z) (pos n : Z) : bool :=
  (- 2 ^ 31 <=? pos) && (pos <? 2 ^ 31) && (- 2 ^ 31 <=? n) && (n <? 2 ^ 31) &&
  ((upto l pos n <? 2 ^ 31) || ((0 <=? from l pos) && (Z.of_nat (length l) <=? n))).

Definition quiet (vs : option values) : option (values * option (list Z)) :=
  match vs with Some vs => Some (vs, None) | None => None end.

(** [with1 x f]: [f] of the value if there is one. *)
Definition with1 {A B} (x : option A) (f : A -> option B) : option B :=
  match x with Some a => f a | None => None end.

(** One statement: the new values and what the user sees, or [None] if the statement is
    not allowed (the variable does not exist, the characters are not there, the sizes are
    beyond those covered). *)
Definition meaning (vs : values) (o : op) : option (values * option (list Z)) :=
  match o with
  | New s => with1 (chars vs s) (fun l => quiet (new_str vs l))
  | Stable l _ => quiet (new_str vs l)
  | Copy w => with1 (value vs w) (fun l => quiet (new_str vs l))
  | MoveNew w =>
    with1 (value vs w) (fun l => quiet (new_str (put_str vs w (Some None)) l))
  | Assign v w => with1 (value vs w) (fun l => quiet (let_str vs v l))
  | MoveTo v w =>
    if Nat.eqb v w then None
    else with1 (value vs w) (fun l =>
           quiet (with1 (let_str vs v l) (fun vs => Some (put_str vs w (Some None)))))
  | Swap v w =>
    with1 (value vs v) (fun lv =>
    with1 (value vs w) (fun lw =>
    quiet (Some (put_str (put_str vs v (Some (Some lw))) w (Some (Some lv))))))
  | AssignChars v s => with1 (chars vs s) (fun l => quiet (let_str vs v l))
  | Append v w =>
    with1 (value vs v) (fun lv =>
    with1 (value vs w) (fun lw => quiet (let_str vs v (lv ++ lw))))
  | AppendChars v s =>
    with1 (value vs v) (fun lv =>
    with1 (chars vs s) (fun l => quiet (let_str vs v (lv ++ l))))
  | Fill v c n =>
    with1 (value vs v) (fun l =>
      if 0 <=? n then quiet (let_str vs v (l ++ repeat c (Z.to_nat n))) else None)
  | Substr w pos n =>
    with1 (value vs w) (fun l =>
      if substr_ints l pos n then quiet (new_str vs (substring l pos n)) else None)
  | CStr v =>
    with1 (value vs v) (fun l => if fits (l ++ [0]) then Some (vs, Some (l ++ [0])) else None)
  | Poke v i c =>
    with1 (value vs v) (fun l =>
      if (0 <=? i) && (i <? Z.of_nat (length l))
      then quiet (Some (put_str vs v (Some (Some (put l (Z.to_nat i) c))))) else None)
  | Unique w => with1 (value vs w) (fun l => quiet (new_str vs l))
  | Shrink v => with1 (value vs v) (fun _ => Some (vs, None))
  | Read v => with1 (value vs v) (fun l => Some (vs, Some l))
  | Destroy v => if alive vs v then Some (put_str vs v None, None) else None
  | ANew => Some ({| v_strs := v_strs vs; v_accs := v_accs vs ++ [Some []] |}, None)
  | AAppend a s =>
    with1 (accum vs a) (fun la =>
    with1 (chars vs s) (fun l => quiet (let_acc vs a (la ++ l))))
  | AChar a c => with1 (accum vs a) (fun la => quiet (let_acc vs a (la ++ [c])))
  | AClear a => quiet (let_acc vs a [])
  | APop a n =>
    with1 (accum vs a) (fun la =>
      if (0 <=? n) && (n <=? Z.of_nat (length la))
      then quiet (let_acc vs a (firstn (length la - Z.to_nat n) la)) else None)
  | ACStr a => with1 (accum vs a) (fun la => Some (vs, Some (la ++ [0])))
  | ATake a =>
    with1 (accum vs a) (fun la =>
    with1 (let_acc vs a []) (fun vs => quiet (new_str vs la)))
  | ATransfer w =>
    with1 (value vs w) (fun l =>
    quiet (Some {| v_strs := put (v_strs vs) w (Some (Some []));
                   v_accs := v_accs vs ++ [Some l] |}))
  | ARead a => with1 (accum vs a) (fun la => Some (vs, Some la))
  | ADestroy a =>
    with1 (accum vs a) (fun _ =>
      Some ({| v_strs := v_strs vs; v_accs := put (v_accs vs) a None |}, None))
  end.

Definition nothing : values := {| v_strs := []; v_accs := [] |}.

Fixpoint meanings (vs : values) (os : list op) : option (values * list (option (list Z))) :=
  match os with
  | [] => Some (vs, [])
  | o :: os =>
    with1 (meaning vs o) (fun '(vs, x) =>
    with1 (meanings vs os) (fun '(vs, xs) => Some (vs, x :: xs)))
  end.

(** No other String refers to the buffer of [v]. *)
Definition alone (st : state) (v : nat) : Prop :=
  forall w r r' b, w <> v ->
    nth_error (strs st) v = Some (Some r) -> nth_error (strs st) w = Some (Some r') ->
    memo_ r = Some b -> memo_ r' <> Some b.

(** Throughout the program, mutable_data and make_transfer are called only on Strings that
    share their buffer with no other String. *)
Fixpoint unshared (st : state) (os : list op) : Prop :=
  match os with
  | [] => True
  | o :: os =>
    match o with Poke v _ _ => alone st v | ATransfer v => alone st v | _ => True end
    /\ forall st' x, step false st o = Fine (st', x) -> unshared st' os
  end.

(** Statements other than mutable_data and make_transfer. *)
Definition ordinary (o : op) : bool :=
  match o with Poke _ _ _ => false | ATransfer _ => false | _ => true end.

(** Every block that is not freed is in use by a String or a StringAccum. *)
Definition used (st : state) : Prop :=
  forall b x, nth_error (hp st) b = Some (Some x) ->
    (exists v r, nth_error (strs st) v = Some (Some r) /\ memo_ r = Some b) \/
    (exists a r, nth_error (accs st) a = Some (Some r) /\ a_blk r = Some b).

(** All variables are destroyed. *)
Definition all_gone (st : state) : Prop :=
  (forall v r, nth_error (strs st) v <> Some (Some r)) /\
  (forall a r, nth_error (accs st) a <> Some (Some r)).
