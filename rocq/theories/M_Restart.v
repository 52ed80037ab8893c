(* When the checkpointer commits a checkpoint (mtd.cc, conc_checkpointer); recovery is M_Logset.recover. Definitions
   only. *)
From Verif Require Import Lib M_Circular Spec_Log M_Logset.

(* mtd.cc:1641-1646: a prepared checkpoint of epochs up to ck_max is committed when max_flushed_epoch is 0 or larger. *)
Definition may_commit (s : lset) (ck_max : Z) : bool := let mfe := max_flushed_epoch s in (mfe =? 0) || elt ck_max mfe.
