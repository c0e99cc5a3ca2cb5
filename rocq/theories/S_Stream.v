(** Specification: inputs that a stream handles like memory. *)
From Coq Require Import ZArith List Bool.
From Verif Require Import Base M_Types M_Conv M_In S_Doc M_Env M_Event M_Tree M_TreeIO M_ObjIO S_ObjIO S_JsonStream.
Import ListNotations.
Open Scope Z_scope.

(** PSrl: no item has a name of 1024 bytes or more.  JSON: no number or constant is followed by 1000 bytes that do not end it. *)
Definition streamable (x : fp_text) (F : nat) (q : parser) (src : bytes) : Prop :=
  match q with
  | PsrlP _ => forall n q' es b, run_block (parse_items x F q n) (set_block src) = Ok ((q', es), b) -> Forall (fun e => zlen (fst e) < 1024) es
  | MsgpP _ => wf_bytes src
  | JsonP _ => short_literals src
  end.
