(** Storing objects to memory and restoring them from an input: Tree::store, Tree::restore, Tree::to_source and
    Tree::read_source with a switch function (include/Srl/Tree.hpp:117-146, src/lib/Tree.cpp:30-83).  Definitions only. *)
From Coq Require Import ZArith List Bool.
From Verif Require Import Base M_Types M_Conv M_Charset M_In S_Doc M_OutOps M_Env M_Event M_PSrl M_MsgPack M_Json M_Heap M_Out M_Tree M_TreeIO M_Object.
Import ListNotations.
Open Scope Z_scope.

(** Environment::set_input (Environment.cpp:150-155), then [p], which reads items with the parser *)
Definition with_parser {R} (x : fp_text) (fuel : nat) (q : parser) (p : eprog R) : prog (parser * R) :=
  match parser_clear q with
  | PsrlP st => let! (st', r) := ecomp psrl_read p st in Ret (PsrlP st', r)
  | MsgpP st => let! (st', r) := ecomp msgp_read p st in Ret (MsgpP st', r)
  | JsonP st => let! (st', r) := ecomp (json_read x fuel) p st in Ret (JsonP st', r)
  end.
(** Tree.hpp:117-131, Tree.cpp:52-69 with a new tree whose root is named [name]; [hp]: the objects owned by shared pointers,
    [h]: the heap of the Out object *)
Definition store_object (x : fp_text) (F : nat) (w : world) (hp : heap_t) (p : parser) (h : heap) (name : bytes) (t : ct) (v : cv) : res (parser * bytes * heap) :=
  let* (d, tab) := stored_doc F w hp t v name [] in
  let* (p', ops) := write_all x p (stored_events d) in
  let* (bs, h') := save_buffer h ops in Ok (p', bs, h').
(** Tree.hpp:133-146, Tree.cpp:30-50, 77-83: the object and the shared objects made *)
Definition restore_object (x : fp_text) (F : nat) (w : world) (q : parser) (t : ct) (old : cv) : prog (parser * (cv * rstate)) :=
  with_parser x F q (restore_prog F w t old).
