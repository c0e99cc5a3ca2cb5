(** Model of Srl::Union as one of the objects given to Tree::unpack and Node::paste (include/Srl/Resolve.hpp:261-274).
    Definitions only. *)
From Coq Require Import ZArith List Bool.
From Verif Require Import Base M_Types M_Conv M_TpTools M_Charset M_In S_Doc M_OutOps M_Env M_Event M_PSrl M_MsgPack M_Json M_Tree M_TreeIO M_Object M_ObjIO M_Pack.
Import ListNotations.
Open Scope Z_scope.

(** the link that was appended last (Environment.cpp:75-122 return it) *)
Definition last_link {A} (l : list A) : res A := deref (nth_error l (length l - 1)).
Definition last_union (is_node : bool) (n : node) : res union :=
  if is_node then let* q := last_link (n_nodes n) in Ok (UnNode (fst q) (snd q)) else let* q := last_link (n_values n) in Ok (UnValue (fst q) (snd q)).
(** consume_item(id) (Node.cpp:279-327): what the Union refers to stays in the node.  Simplification: the Union is a pointer into
    the lists of the node; it is modelled by what it points to, which nothing below changes. *)
Definition consume_union (F : nat) (k : bytes) (n : lnode) : eprog (union * lnode) :=
  ebind (elift (find_link false (cmp_name (k, EUTF8)) (n_nodes (l_node n)))) (fun i =>
  match pick (n_nodes (l_node n)) i with
  | Some q => ERet (UnNode (fst q) (snd q), n)
  | None =>
      ebind (elift (find_link false (cmp_name (k, EUTF8)) (n_values (l_node n)))) (fun j =>
      match pick (n_values (l_node n)) j with
      | Some q => ERet (UnValue (fst q) (snd q), n)
      | None =>
          ebind (elift (hash_string (k, EUTF8))) (fun h =>
          ebind (scan_item F h k n) (fun r =>
          match fst r with
          | None => EThrow
          | Some is_node => ebind (elift (last_union is_node (l_node (snd r)))) (fun u => ERet (u, snd r))
          end))
      end)
  end).
(** Switch<Union>::Paste (Resolve.hpp:264-272) with paste_field (Node.hpp:132-137): consume_scope is called on the node that
    contains the item (Node.cpp:514-535 sets [parsed]) *)
Definition paste_union (F : nat) (k : bytes) (n : lnode) : eprog (union * lnode) :=
  if l_parsed n then ebind (elift (get_named (l_node n) (k, EUTF8))) (fun u => ERet (u, n))
  else ebind (consume_union F k n) (fun r => ebind (consume_scope F (snd r)) (fun _ => ERet (fst r, mkL true (l_node (snd r))))).

(** names with objects or Unions, and what becomes of them *)
(** Tree.hpp:127-146: the arguments *)
Inductive ask : Type := AskObject (i : item) | AskUnion (k : bytes).
(** Union.h:15-30 *)
Inductive got : Type := GotObject (v : cv) | GotUnion (u : union).
(** Node::paste(name, head, tail...) (Node.hpp:98-103) *)
Fixpoint paste_asks (F : nat) (w : world) (l : list ask) (n : lnode) (s : rstate) : eprog (list got * lnode * rstate) :=
  match l with
  | [] => ERet ([], n, s)
  | a :: l' =>
      ebind (match a with
             | AskObject i => ebind (paste_field w (paste_node F w) F (i_type i) (IdName (i_name i)) (i_val i) n s) (fun r => let '(v, n1, s1) := r in ERet (GotObject v, n1, s1))
             | AskUnion k => ebind (paste_union F k n) (fun r => ERet (GotUnion (fst r), snd r, s))
             end) (fun r =>
        let '(g, n1, s1) := r in
        ebind (paste_asks F w l' n1 s1) (fun q => let '(gs, n', s') := q in ERet (g :: gs, n', s')))
  end.
(** Tree::unpack (Tree.hpp:71-79, Tree.cpp:30-50) *)
Definition unpack_asks (F : nat) (w : world) (l : list ask) : eprog (list got * rstate) :=
  ERead (fun e =>
    let (name, v) := e in
    if negb (is_scope (v_type v)) then EThrow
    else match F with
         | O => EFuel
         | S f => ebind (paste_asks f w l (mkL false (empty_node (v_type v))) rs_new) (fun r => ERet (fst (fst r), snd r))
         end).
Definition unpack_any (x : fp_text) (F : nat) (w : world) (q : parser) (l : list ask) : prog (parser * (list got * rstate)) := with_parser x F q (unpack_asks F w l).
(** Node::paste(name, head, tail...) on a tree *)
(** Node.hpp:98-103 *)
Definition paste_any (F : nat) (w : world) (l : list ask) (n : node) (s : rstate) : eprog (list got * rstate) :=
  ebind (paste_asks F w l (mkL true n) s) (fun r => ERet (fst (fst r), snd r)).
