(** Saving and loading whole trees: Node::to_source and Tree::read_source with Environment::set_output / set_input
    (src/lib/Node.cpp:496-512, include/Srl/Node.hpp:184-201, src/lib/Tree.cpp:30-50, 71-75,
    src/lib/Environment.cpp:145-162).  Definitions only. *)
From Coq Require Import ZArith List Bool.
From Verif Require Import Base M_Types M_Conv M_Charset M_In S_Doc M_OutOps M_Env M_Event M_PSrl M_MsgPack M_Json M_Heap M_Out M_Tree.
Import ListNotations.
Open Scope Z_scope.

(** a parser object with what it holds from earlier uses; other formats are not modelled *)
(** PSrl.h:11-55, PMsgPack.h:9-38, PJson.h:10-59 *)
Inductive parser : Type := PsrlP (st : psrl) | MsgpP (st : msgp) | JsonP (st : pjson).
(** Environment.cpp:152, 159: [parser_.clear()] *)
Definition parser_clear (p : parser) : parser :=
  match p with
  | PsrlP st => PsrlP (psrl_clear st) | MsgpP st => MsgpP (msgp_clear st) | JsonP st => JsonP (json_clear st)
  end.

(** Environment::write (Environment.cpp:145-148, 164-194) with a parser of a binary format *)
Definition bin_save {S} (x : fp_text) (w : S -> event -> res (S * list oop)) (st : S) (e : event) : res (S * list oop) :=
  let* e' := env_event false x e in w st e'.

(** set_output, then one call of Environment::write per event *)
(** Environment.cpp:145-162 *)
Definition write_all (x : fp_text) (p : parser) (es : list event) : res (parser * list oop) :=
  match parser_clear p with
  | PsrlP st => let* (st', ops) := write_events (bin_save x psrl_write) st es in Ok (PsrlP st', ops)
  | MsgpP st => let* (st', ops) := write_events (bin_save x msgp_write) st es in Ok (MsgpP st', ops)
  | JsonP st => let* (st', ops) := write_events (json_save x) st es in Ok (JsonP st', ops)
  end.
(** Node.hpp:184-201: to memory; [h] is the heap of the Out object of the tree *)
Definition save_tree (x : fp_text) (p : parser) (h : heap) (k : bytes) (n : node) : res (parser * bytes * heap) :=
  let* (p', ops) := write_all x p (node_events k n) in
  let* (bs, h') := save_buffer h ops in Ok (p', bs, h').

(** Tree::read_source (Tree.cpp:30-50, 71-75); [fuel] bounds the number of events and, for JSON, of characters *)
Definition load_tree (x : fp_text) (fuel : nat) (p : parser) : prog (parser * (bytes * node)) :=
  match parser_clear p with
  | PsrlP st => let! (st', r) := ecomp psrl_read (load_prog fuel) st in Ret (PsrlP st', r)
  | MsgpP st => let! (st', r) := ecomp msgp_read (load_prog fuel) st in Ret (MsgpP st', r)
  | JsonP st => let! (st', r) := ecomp (json_read x fuel) (load_prog fuel) st in Ret (JsonP st', r)
  end.
