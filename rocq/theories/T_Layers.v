(* C45: lookups, insertions, removals and collections of layers running at the same time, on keys of any length. *)
From Verif Require Import Lib M_Layers Spec_Layers P_Layers5 P_Layers6 P_Layers7.

(* In every run of any number of threads there is a sequence of tables, one for each moment, empty at first, such that every
   finished operation reports what the table of one moment while it ran held for its key, puts and removals change the
   table at that moment and only there, and nothing else changes it: not new layers, not their collection. *)
Theorem C45_layers_linearizable : forall l s, lsteps lstart l s -> exists T, atomic l T.
Proof. exact layers_main. Qed.
Print Assumptions C45_layers_linearizable.
(* A lookup and a put of ka are in a layer that is then emptied and collected; the put starts again and writes ka above; the
   lookup reports that ka is absent, a later one finds it. *)
Example C45_layers_linearizable_ex : exists l s, lsteps lstart l s /\ dead s 1 = true /\
  finished l 7 24 1 ka LGet None /\ finished l 9 23 4 ka (LPut 3) None /\ finished l 25 26 5 ka LGet (Some 3).
Proof. exact layers_example. Qed.

(* At any moment an operation can still finish: a lookup by its own steps alone, at most one more than its key has bytes; a put
   or a removal by its own steps after those that end the collections under way. *)
Theorem C45_can_finish : forall l s t k o L r, lsteps lstart l s -> pcs s t = LAt k o L r -> o <> LGc ->
  exists m s' res, lsteps s m s' /\ pcs s' t = LDone k o res /\ (o = LGet -> (length m <= S (length k))%nat) /\
    forall e, In e m -> snd (fst e) = LGo /\ (fst (fst e) = t \/ o <> LGet /\ exists L' q, pcs s (fst (fst e)) = LKill L' q).
Proof. exact finish_main. Qed.
Print Assumptions C45_can_finish.
(* A put in a collected layer whose row is still there. *)
Example C45_can_finish_ex : exists l s q, lsteps lstart l s /\ pcs s 4 = LAt ka (LPut 3) 1 [10; 11] /\ dead s 1 = true /\ pcs s 3 = LKill 0 q.
Proof. exact finish_example. Qed.
