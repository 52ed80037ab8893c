(* Searching in strings and matching patterns: String_generic::find_left, find_right and glob_match of string.cc. Strings are
   lists of bytes; a read outside of a string is an outcome of its own. Not modelled: lengths of 2^31 and more (length is an
   int), failing allocation in std::vector. *)
From Verif Require Import Lib.

(* Result of a search: an index or -1, or a read outside of the string (undefined behaviour). *)
Inductive fres := At (i : Z) | Wild.
(* Loop upwards over i, with the test of byte or memcmp result ok i; k: iterations left (string.cc:341-344, 355-358). *)
Fixpoint up (ok : Z -> option bool) (i : Z) (k : nat) : fres :=
  match k with O => At (-1) | S k' => match ok i with None => Wild | Some true => At i | Some false => up ok (i + 1) k' end end.
(* Loop downwards to 0 (string.cc:368-371, 383-386). *)
Fixpoint down (ok : Z -> option bool) (i : Z) (k : nat) : fres :=
  match k with O => At (-1) | S k' => match ok i with None => Wild | Some true => At i | Some false => down ok (i - 1) k' end end.
(* s[i] == x, for i inside of s. *)
Definition byte_at (s : list Z) (x : Z) (i : Z) : option bool := if (0 <=? i) && (i <? len s) then Some (nth (Z.to_nat i) s 0 =? x) else None.
(* Equality of byte strings. *)
Fixpoint same (a b : list Z) : bool := match a, b with [], [] => true | x :: a', y :: b' => (x =? y) && same a' b' | _, _ => false end.
(* memcmp(s + i, x, x_len) == 0: all x_len bytes of both must be there, even where an early byte differs. *)
Definition bytes_at (s x : list Z) (i : Z) : option bool := if (0 <=? i) && (i + len x <=? len s) then Some (same (firstn (length x) (skipn (Z.to_nat i) s)) x) else None.
(* find_left of a byte, string.cc:335-345. *)
Definition find_left_c (s : list Z) (start x : Z) : fres :=
  let st := if start <? 0 then 0 else start in up (byte_at s x) st (Z.to_nat (len s - st)).
(* find_left of a string, string.cc:347-360. *)
Definition find_left (s : list Z) (start : Z) (x : list Z) : fres :=
  let st := if start <? 0 then 0 else start in
  if len x =? 0 then At (if st <=? len s then st else -1) else up (bytes_at s x) st (Z.to_nat (len s - len x + 1 - st)).
(* find_right of a byte, string.cc:362-372. *)
Definition find_right_c (s : list Z) (start x : Z) : fres :=
  let st := if len s <=? start then len s - 1 else start in down (byte_at s x) st (Z.to_nat (st + 1)).
(* find_right of a string, string.cc:374-387. rep: the repaired code begins at len - x_len also when start is below len. *)
Definition find_right (rep : bool) (s : list Z) (start : Z) (x : list Z) : fres :=
  let st := if (len s <=? start) || rep && (len s - len x <? start) then len s - len x else start in
  if len x =? 0 then At (if 0 <=? st then st else -1) else down (bytes_at s x) st (Z.to_nat (st + 1)).

(* glob_match, string.cc:403-477. A position *pp of the pattern is the rest of the pattern from there to pend; after: what follows pend
   in the pattern (cut off as a common end). Pointers into one pattern are equal just when the rests are. *)
Inductive cls := COut | CLit | CSet (found : bool) (r : list Z).
(* The members of a class, string.cc:452-457, from *++ec on: each byte up to and with ']' is compared; at pend a byte is
   read before the end is seen. *)
Fixpoint scan_old (after : list Z) (c : Z) (found : bool) (e : list Z) : cls :=
  match e with
  | [] => match after with [] => COut | _ :: _ => CLit end
  | x :: e' => let f := found || (x =? c) in if x =? 93 then CSet f e' else scan_old after c f e'
  end.
(* The repaired loop: do { if ( *ec == *s) found = true; ++ec; } while (ec != pend && *ec != ']'). *)
Fixpoint scan_new (c : Z) (found : bool) (e : list Z) : cls :=
  match e with [] => CLit | x :: e' => if x =? 93 then CSet found e' else scan_new c (found || (x =? c)) e' end.
(* case '[', string.cc:440-464; r: the pattern after it. *)
Definition class (rep : bool) (after : list Z) (c : Z) (r : list Z) : cls :=
  let neg := match r with x :: _ => x =? 94 | [] => false end in
  let e := if neg then tl r else r in
  match e with
  | [] => CLit
  | x :: e' => match (if rep then scan_new c (x =? c) e' else scan_old after c false e') with CSet f q => CSet (Bool.eqb f (negb neg)) q | o => o end
  end.
(* What a position of the pattern makes of a byte: more positions, a match at once, or a read outside of the pattern. *)
Inductive gres := Next (l : list (list Z)) | Yes | Out.
(* normal_char, string.cc:465-469. *)
Definition lit (c x : Z) (r : list Z) (next : list (list Z)) : gres := Next (if x =? c then next ++ [r] else next).
(* The switch, string.cc:425-470, for byte c at position pp; next: nextstate so far. *)
Fixpoint move (rep : bool) (after : list Z) (c : Z) (pp : list Z) (next : list (list Z)) : gres :=
  match pp with
  | [] => Next next
  | x :: r =>
    if x =? 63 then Next (next ++ [r])
    else if x =? 42 then
      match r with
      | [] => Yes
      | _ :: _ => move rep after c r (match rev next with q :: _ => if same q pp then next else next ++ [pp] | [] => next ++ [pp] end)
      end
    else if x =? 92 then match r with [] => lit c x r next | y :: r' => lit c y r' next end
    else if x =? 91 then match class rep after c r with COut => Out | CLit => lit c x r next | CSet f q => Next (if f then next ++ [q] else next) end
    else lit c x r next
  end.
(* All positions, string.cc:421-472. *)
Fixpoint moves (rep : bool) (after : list Z) (c : Z) (state next : list (list Z)) : gres :=
  match state with
  | [] => Next next
  | pp :: state' => match move rep after c pp next with Next n => moves rep after c state' n | o => o end
  end.
(* A position from which only stars remain, string.cc:475-480. *)
Fixpoint stars (p : list Z) : bool := match p with [] => true | x :: p' => (x =? 42) && stars p' end.
(* All bytes, string.cc:419-482; None: undefined behaviour. *)
Fixpoint run (rep : bool) (after : list Z) (s : list Z) (state : list (list Z)) : option bool :=
  match s with
  | [] => Some (existsb stars state)
  | c :: s' =>
    match state with
    | [] => Some false
    | _ :: _ => match moves rep after c state [] with Out => None | Yes => Some true | Next n => run rep after s' n end
    end
  end.
(* The common end, string.cc:408-415, on the reversed pattern and string; the result: what is left of both and what was cut, or
   a mismatch. *)
Fixpoint strip (rp rs after : list Z) : option (list Z * list Z * list Z) :=
  match rp, rs with
  | x :: rp', y :: rs' =>
    if negb (x =? 42) && negb (x =? 63) && negb (x =? 93) && match rp' with z :: _ => negb (z =? 92) | [] => true end
    then if x =? y then strip rp' rs' (x :: after) else None
    else Some (rp, rs, after)
  | _, _ => Some (rp, rs, after)
  end.
(* The whole function. *)
Definition glob_match (rep : bool) (s p : list Z) : option bool :=
  match strip (rev p) (rev s) [] with None => Some false | Some (rp, rs, after) => run rep after (rev rs) [rev rp] end.
