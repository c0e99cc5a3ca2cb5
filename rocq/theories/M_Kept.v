(** Model of what a tree holds after Tree::load_source, whether it succeeds or throws, and whether or not [parsing] is still set by
    a Tree::store that threw before (src/lib/Tree.cpp:30-50, 52-75, src/lib/Node.cpp:246-277,
    src/lib/Environment.cpp:86-143).  Definitions only. *)
From Coq Require Import ZArith List Bool.
From Verif Require Import Base M_Types M_Conv M_In S_Doc M_OutOps M_Env M_Event M_PSrl M_MsgPack M_Json M_Tree M_TreeIO M_Object M_Pack.
Import ListNotations.
Open Scope Z_scope.

(** what Environment holds for reading and writing (Environment.h:53-56): [m_next] is parser->read(in), [m_write] is
    Environment::write, once per event.  Simplification: what Out does with the bytes is left out (M_Out). *)
Record machine (S : Type) : Type := mkMachine { m_next : S -> res (event * S); m_write : S -> list event -> res S }.
Arguments mkMachine {S} m_next m_write. Arguments m_next {S} m. Arguments m_write {S} m.

(** one call that may throw: the tree stays as it is *)
(** Node.cpp:246-277: there is no try block *)
Definition keep {A S T} (r : res A) (t : T) (k : A -> res S * T) : res S * T :=
  match r with Ok a => k a | Err => (Err, t) | UB u => (UB u, t) | Fuel => (Fuel, t) end.

(** Node.cpp:246-277 with Environment.cpp:86-143: outcome, and the node afterwards; [fuel] bounds the number of events.  While
    [parsing] is set, store_node hands the scope to the parser and makes a node that belongs to nobody
    (Environment.cpp:88-104); otherwise the new node is in the tree before its items are read. *)
Fixpoint read_keep {S} (m : machine S) (parsing : bool) (fuel : nat) (depth : Z) (n : node) (s : S) : res S * node :=
  match fuel with
  | O => (Fuel, n)
  | S f =>
      keep (m_next m s) n (fun r =>
        let '((name, v), s1) := r in
        if ty_eqb (v_type v) TScopeEnd then (Ok s1, n)
        else if negb (is_scope (v_type v)) then
          keep (store_value n v (name, EUTF8)) n (fun n' => read_keep m parsing f depth n' s1)
        else if max_depth <? depth + 1 then (Err, n)
        else if parsing then
          keep (m_write m s1 [(name, val_type (v_type v)); (name, val_type TScopeEnd)]) n (fun s2 =>
          keep (store_string (name, EUTF8)) n (fun _ =>
          keep (fst (read_keep m parsing f (depth + 1) (empty_node (v_type v)) s2)) n (fun s3 =>
            read_keep m parsing f depth n s3)))
        else
          let (r, c) := read_keep m parsing f (depth + 1) (empty_node (v_type v)) s1 in
          keep (store_node n c (name, EUTF8)) n (fun n' => keep r n' (fun s2 => read_keep m parsing f depth n' s2)))
  end.
(** Tree.cpp:30-50, 71-75: outcome, name and content of the root afterwards.  [old]: type of the root before, or Object if
    the tree is new; Tree::clear keeps it (Tree.cpp:105-115) *)
Definition load_keep {S} (m : machine S) (parsing : bool) (fuel : nat) (old : ty) (s : S) : res S * (bytes * node) :=
  keep (m_next m s) ([], empty_node old) (fun r =>
    let '((name, v), s1) := r in
    if negb (is_scope (v_type v)) then (Err, ([], empty_node old))
    else let (o, n) := read_keep m parsing fuel 0 (empty_node (v_type v)) s1 in (o, (name, n))).

(** the three formats on an input; [run]: M_In.run_block or M_In.run_stream *)
(** Parser.h:19, Node.cpp:254 *)
Definition parser_next {I} (run : forall A, prog A -> I -> res (A * I)) (x : fp_text) (fuel : nat) (s : parser * I) : res (event * (parser * I)) :=
  match fst s with
  | PsrlP st => let* (r, i) := run _ (psrl_read st) (snd s) in Ok (snd r, (PsrlP (fst r), i))
  | MsgpP st => let* (r, i) := run _ (msgp_read st) (snd s) in Ok (snd r, (MsgpP (fst r), i))
  | JsonP st => let* (r, i) := run _ (json_read x fuel st) (snd s) in Ok (snd r, (JsonP (fst r), i))
  end.
(** Environment.cpp:145-148, 164-194, without set_output *)
Definition parser_write (x : fp_text) (p : parser) (es : list event) : res parser :=
  match p with
  | PsrlP st => let* (st', _) := write_events (bin_save x psrl_write) st es in Ok (PsrlP st')
  | MsgpP st => let* (st', _) := write_events (bin_save x msgp_write) st es in Ok (MsgpP st')
  | JsonP st => let* (st', _) := write_events (json_save x) st es in Ok (JsonP st')
  end.
Definition parser_machine {I} (run : forall A, prog A -> I -> res (A * I)) (x : fp_text) (fuel : nat) : machine (parser * I) :=
  mkMachine (parser_next run x fuel) (fun s es => let* p := parser_write x (fst s) es in Ok (p, snd s)).
(** Tree::load_source on a tree; Environment.cpp:150-155 clears the parser *)
Definition load_after {I} (run : forall A, prog A -> I -> res (A * I)) (x : fp_text) (fuel : nat) (parsing : bool) (old : ty) (q : parser) (i : I)
  : res (parser * I) * (bytes * node) :=
  load_keep (parser_machine run x fuel) parsing fuel old (parser_clear q, i).

(** * A tree that is used many times *)
(** Tree.hpp:117-131 store, 48-69 pack, 14-24 and Tree.cpp:71-75 load_source *)
Inductive use : Type := UStore (t : ct) (v : cv) (name : bytes) | UPack (its : list item) | ULoad.
(** what the environment remembers (Environment.h:53-61, M_Object.tenv); a load clears the table (Tree.cpp:32-33, 105-115) and leaves
    [parsing] as it is *)
Definition use_tree (F : nat) (w : world) (hp : heap_t) (e : tenv) (u : use) : tenv :=
  match u with
  | UStore t v name => snd (tree_store F w hp t v name e)
  | UPack its => snd (tree_pack F w hp its (Some e))
  | ULoad => mkTenv (e_parsing e) []
  end.
Definition used (F : nat) (w : world) (hp : heap_t) (us : list use) : tenv := fold_left (use_tree F w hp) us tenv_new.
