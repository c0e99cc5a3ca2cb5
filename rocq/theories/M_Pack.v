(** Model of Tree::pack and Tree::unpack (include/Srl/Tree.hpp:48-79): several named objects without a class around them.
    Definitions only. *)
From Coq Require Import ZArith List Bool.
From Verif Require Import Base M_Types M_Conv M_Charset M_In S_Doc M_OutOps M_Env M_Event M_PSrl M_MsgPack M_Json M_Heap M_Out M_Tree M_TreeIO M_Object M_ObjIO.
Import ListNotations.
Open Scope Z_scope.

(** a name and an object, two of the arguments [items...] *)
(** Tree.hpp:48-69, 127-146: the arguments *)
Record item : Type := mkItem { i_name : bytes; i_type : ct; i_val : cv }.

(** Tree.hpp:61-65 with Node::insert(name, head, tail...) (Node.hpp:19-24): what is handed to the parser, as a document; the root
    has no name.  [F]: fuel.  Simplification: items with names, no Srl::Node or Srl::Value among the objects (these: M_Build.v). *)
Definition pack_doc (F : nat) (w : world) (hp : heap_t) (its : list item) (tab : shared_tab) : res (doc * shared_tab) :=
  match F with
  | O => Fuel
  | S f => let* (ds, tab1) := emits (fun i => emit f w hp (i_type i) (i_val i) (i_name i)) its tab in Ok (DScope [] TObject ds, tab1)
  end.
(** Tree.hpp:48-69 on a tree without ([None]) or with an environment: Tree::clear (Tree.cpp:105-115) empties
    shared_table_store; [parsing] stays set after an exception *)
Definition tree_pack (F : nat) (w : world) (hp : heap_t) (its : list item) (e : option tenv) : res doc * tenv :=
  let tab := match e with
             | None => e_shared tenv_new
             | Some e => e_shared (mkTenv (e_parsing e) [])
             end in
  match pack_doc F w hp its tab with
  | Ok (d, tab') => (Ok d, mkTenv false tab')
  | Err => (Err, mkTenv true tab)
  | UB u => (UB u, mkTenv true tab)
  | Fuel => (Fuel, mkTenv true tab)
  end.
(** the bytes written into memory *)
(** Tree.hpp:48-69 *)
Definition pack_object (x : fp_text) (F : nat) (w : world) (hp : heap_t) (p : parser) (h : heap) (its : list item) : res (parser * bytes * heap) :=
  let* (d, tab) := pack_doc F w hp its [] in
  let* (p', ops) := write_all x p (stored_events d) in
  let* (bs, h') := save_buffer h ops in Ok (p', bs, h').

(** Node::paste(name, head, tail...) (Node.hpp:98-103): paste_field for one after the other, always by name; [i_val] is what the
    object holds before *)
Fixpoint paste_items (F : nat) (w : world) (its : list item) (n : lnode) (s : rstate) : eprog (list cv * lnode * rstate) :=
  match its with
  | [] => ERet ([], n, s)
  | i :: its' =>
      ebind (paste_field w (paste_node F w) F (i_type i) (IdName (i_name i)) (i_val i) n s) (fun r =>
        let '(v, n1, s1) := r in
        ebind (paste_items F w its' n1 s1) (fun q => let '(vs, n', s') := q in ERet (v :: vs, n', s')))
  end.
(** Tree.hpp:71-79 with Tree::prologue_in (Tree.cpp:30-50); [F]: fuel *)
Definition unpack_prog (F : nat) (w : world) (its : list item) : eprog (list cv * rstate) :=
  ERead (fun e =>
    let (name, v) := e in
    if negb (is_scope (v_type v)) then EThrow
    else match F with
         | O => EFuel
         | S f => ebind (paste_items f w its (mkL false (empty_node (v_type v))) rs_new) (fun r => ERet (fst (fst r), snd r))
         end).
Definition unpack_object (x : fp_text) (F : nat) (w : world) (q : parser) (its : list item) : prog (parser * (list cv * rstate)) :=
  with_parser x F q (unpack_prog F w its).
(** Node::paste(name, head, tail...) on a tree that was loaded *)
(** Node.hpp:98-103 *)
Definition paste_tree (F : nat) (w : world) (its : list item) (n : node) (s : rstate) : eprog (list cv * rstate) :=
  ebind (paste_items F w its (mkL true n) s) (fun r => ERet (fst (fst r), snd r)).
