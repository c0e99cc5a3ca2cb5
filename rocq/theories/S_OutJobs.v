(** Specification of saving: what the vector, or the stream, holds afterwards. *)
From Coq Require Import ZArith List Bool.
From Verif Require Import Base M_OutOps S_Out M_Heap M_Out.
Import ListNotations.

Definition job_result (j : job) : bytes :=
  match j with ToMemory ops => spec_out ops | ToStream file ops => file ++ spec_out ops end.
