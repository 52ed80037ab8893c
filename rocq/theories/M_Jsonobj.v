(* Json objects, Json::ObjectJson: json.hh:432-479, json.cc:79-213. Items are numbered as in os_; an index -1 is None, an item with next_
   == -2 (erased) is None. Keys are byte strings, values numbers that stand for Jsons. hash is the hash function, String::hashcode
   (C65). Not modelled: memory (os_ and capacity_: grow moves items without changing them), sharing of objects, more than 2^31
   items. *)
From Verif Require Import Lib Spec_Jsonobj.

(* An object: os_ as keys with values and next_, n_, size, hash_ with its size. *)
Record obj := MkObj { o_item : nat -> option (list Z * Z); o_next : nat -> option nat; o_n : nat; o_size : nat; o_head : nat -> option nat; o_hs : nat }.
(* A map with one place changed. *)
Definition put {A} (f : nat -> A) (i : nat) (v : A) : nat -> A := fun j => if (j =? i)%nat then v else f j.
(* ObjectJson(), json.hh:445-448. *)
Definition obj0 : obj := MkObj (fun _ => None) (fun _ => None) 0 0 (fun _ => None) 0.
(* Comparison of keys, String::operator!=, json.cc:143. *)
Definition same_key (a b : list Z) : bool := if list_eq_dec Z.eq_dec a b then true else false.
(* int* b, json.cc:142: an element of hash_ or the next_ of an item. *)
Inductive slot := InHash (b : nat) | InItem (i : nat).
(* The value of b. *)
Definition read (s : obj) (b : slot) : option nat := match b with InHash b => o_head s b | InItem i => o_next s i end.
(* An assignment to the value of b, json.cc:150, 194, 206. *)
Definition write (s : obj) (b : slot) (v : option nat) : obj :=
  match b with
  | InHash b => MkObj (o_item s) (o_next s) (o_n s) (o_size s) (put (o_head s) b v) (o_hs s)
  | InItem i => MkObj (o_item s) (put (o_next s) i v) (o_n s) (o_size s) (o_head s) (o_hs s)
  end.
(* The walks of json.cc:143-146, 168-171, 202-203 and json.hh:461-466: the slot and the item found, or the slot that ends the chain
   with the number of items passed. Bad: an erased item is read, or the chain is longer than the items. *)
Inductive wres := Hit (b : slot) (i : nat) | End (b : slot) (chain : nat) | Bad.
Fixpoint walk (s : obj) (fuel : nat) (k : list Z) (b : slot) (chain : nat) : wres :=
  match read s b with
  | None => End b chain
  | Some i =>
    match fuel with
    | O => Bad
    | S f => match o_item s i with
             | None => Bad
             | Some (k', _) => if same_key k' k then Hit b i else walk s f k (InItem i) (S chain)
             end
    end
  end.

Section H.
Variable hash : list Z -> nat.
(* bucket, json.hh:452-454. If hash_ is empty the mask is all ones in the code and 0 here: any index is outside the vector (walk_key). *)
Definition bucket (s : obj) (k : list Z) : nat := Nat.land (hash k) (o_hs s - 1).
(* The walk from a bucket; hash_[b] outside the vector is undefined behaviour. *)
Definition walk_key (s : obj) (k : list Z) : wres := if (bucket s k <? o_hs s)%nat then walk s (o_n s) k (InHash (bucket s k)) 0 else Bad.
(* find, json.hh:458-469; None: undefined behaviour. *)
Definition find (s : obj) (k : list Z) : option (option nat) :=
  if (o_hs s =? 0)%nat then Some None else match walk_key s k with Hit _ i => Some (Some i) | End _ _ => Some None | Bad => None end.
(* The loop of rehash over the items below i, json.cc:128-135. *)
Fixpoint refill (s : obj) (i : nat) : obj :=
  match i with
  | O => s
  | S j => refill (match o_item s j with
                   | Some (k, _) => let b := bucket s k in MkObj (o_item s) (put (o_next s) j (o_head s b)) (o_n s) (o_size s) (put (o_head s) b (Some j)) (o_hs s)
                   | None => s
                   end) j
  end.
(* rehash, json.cc:125-136. *)
Definition rehash (s : obj) : obj := refill (MkObj (o_item s) (o_next s) (o_n s) (o_size s) (fun _ => None) (o_hs s * 2)) (o_n s).
(* hash_.assign(8, -1) if hash_ is empty, json.cc:140-141, 165-166. *)
Definition ready (s : obj) : obj := if (o_hs s =? 0)%nat then MkObj (o_item s) (o_next s) (o_n s) (o_size s) (fun _ => None) 8 else s.
(* find_insert, json.cc:138-161, and get_insert, 163-186 (with v for null): the index of the item. *)
Definition find_insert (s : obj) (k : list Z) (v : Z) : option (obj * nat) :=
  let s := ready s in
  match walk_key s k with
  | Hit _ i => Some (s, i)
  | End b chain =>
    let n := o_n s in let s := write s b (Some n) in
    let s := MkObj (put (o_item s) n (Some (k, v))) (put (o_next s) n None) (S n) (S (o_size s)) (o_head s) (o_hs s) in
    Some (if (4 <? chain)%nat then rehash s else s, n)
  | Bad => None
  end.
(* set, json.hh:2313-2325: get_insert and assignment of the value. *)
Definition set (s : obj) (k : list Z) (v : Z) : option obj :=
  match find_insert s k 0 with
  | Some (s, i) => match o_item s i with Some (k', _) => Some (MkObj (put (o_item s) i (Some (k', v))) (o_next s) (o_n s) (o_size s) (o_head s) (o_hs s)) | None => None end
  | None => None
  end.
(* erase by key, json.cc:200-213, unset, json.hh:2330-2336. rep: the repaired code returns 0 if hash_ is empty, as find does. *)
Definition erase (rep : bool) (s : obj) (k : list Z) : option (obj * bool) :=
  if rep && (o_hs s =? 0)%nat then Some (s, false)
  else match walk_key s k with
       | Hit b i =>
         let s := write s b (o_next s i) in Some (MkObj (put (o_item s) i None) (o_next s) (o_n s) (o_size s - 1) (o_head s) (o_hs s), true)
       | End _ _ => Some (s, false)
       | Bad => None
       end.
(* erase by iterator, json.cc:188-198, json.hh:2386-2392; None: an erased item, hash_[b] outside the vector or the assertion of line 193. *)
Fixpoint walk_at (s : obj) (fuel p : nat) (b : slot) : option slot :=
  match read s b with
  | None => None
  | Some i => if (i =? p)%nat then Some b else match fuel with O => None | S f => walk_at s f p (InItem i) end
  end.
Definition erase_at (s : obj) (p : nat) : option obj :=
  match o_item s p with
  | None => None
  | Some (k, _) =>
    if (bucket s k <? o_hs s)%nat then
      match walk_at s (o_n s) p (InHash (bucket s k)) with
      | Some b => let s := write s b (o_next s p) in Some (MkObj (put (o_item s) p None) (o_next s) (o_n s) (o_size s - 1) (o_head s) (o_hs s))
      | None => None
      end
    else None
  end.
(* A call of set, insert (json.hh:2362-2368) or erase (json.hh:2330-2336, 2397-2401), named by op of Spec_Jsonobj. *)
Definition step (rep : bool) (s : obj) (o : op) : option obj :=
  match o with Set_ k v => set s k v | Insert k v => option_map fst (find_insert s k v) | Erase k => option_map fst (erase rep s k) end.
(* A sequence of calls; None: undefined behaviour in one of them. *)
Fixpoint run (rep : bool) (s : obj) (l : list op) : option obj := match l with [] => Some s | o :: l' => match step rep s o with Some s' => run rep s' l' | None => None end end.
End H.
(* Iteration, json.hh:548-572: the items in order, erased ones left out. *)
Definition items (s : obj) : list (list Z * Z) := flat_map (fun i => match o_item s i with Some p => [p] | None => [] end) (seq 0 (o_n s)).
