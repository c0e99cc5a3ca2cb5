(** Which objects restoring deletes through plain pointers (delete p in Switch<T*>::Paste, include/Srl/Resolve.hpp:447-465,
    703-721).  Definitions only.

    The programs are those of M_Fail.v; here the deletions are collected.  A deletion is named by the way from the object that
    is restored to the pointer: numbers of members and elements.  Simplifications: what the destructor of the deleted object
    does is not modelled; objects made by the restore itself are not counted. *)
From Coq Require Import ZArith List Bool.
From Verif Require Import Base M_Types M_Conv M_TpTools M_Charset M_In S_Doc M_Env M_Event M_PSrl M_MsgPack M_Json M_Tree M_TreeIO M_Object M_ObjIO M_Bits M_Fail.
Import ListNotations.
Open Scope Z_scope.

(** Tree.cpp:77-83: the outcome, and the deletions in their order, whatever the outcome *)
Fixpoint deletions {S R} (step : S -> res (event * S)) (p : oprog R) (s : S) : res (R * S) * list path :=
  match p with
  | ORet r => (Ok (r, s), []) | OThrow => (Err, []) | OUndef u => (UB u, []) | OFuel => (Fuel, [])
  | ORead k => match step s with Ok (e, s') => deletions step (k e) s' | Err => (Err, []) | UB u => (UB u, []) | Fuel => (Fuel, []) end
  | OSet _ _ q => deletions step q s
  | ODel p q => let (r, d) := deletions step q s in (r, p :: d)
  end.
(** Environment.cpp:150-155, Tree.cpp:77-83 *)
Definition with_parser_d {I R} (run : forall A, prog A -> I -> res (A * I)) (x : fp_text) (fuel : nat) (q : parser) (p : oprog R) (i : I) : res R * list path :=
  let out {St} (r : res (R * (St * I)) * list path) : res R * list path := (let* (a, _) := fst r in Ok a, snd r) in
  match parser_clear q with
  | PsrlP st => out (deletions (rd_step run psrl_read) p (st, i))
  | MsgpP st => out (deletions (rd_step run msgp_read) p (st, i))
  | JsonP st => out (deletions (rd_step run (json_read x fuel)) p (st, i))
  end.
(** Tree.hpp:23-41, Tree::restore *)
Definition restore_deletes {I} (run : forall A, prog A -> I -> res (A * I)) (x : fp_text) (F : nat) (w : world) (q : parser) (t : ct) (old : cv) (i : I) : res (cv * rstate) * list path :=
  with_parser_d run x F q (orestore F w t old) i.
(** Node.hpp:74-87, Node::paste *)
Definition paste_deletes (F : nat) (w : world) (t : ct) (old : cv) (n : node) (s : rstate) : res (cv * rstate) * list path :=
  let (r, d) := deletions (fun _ : unit => Err) (opaste_tree F w t old n s) tt in (let* (a, _) := r in Ok a, d).
