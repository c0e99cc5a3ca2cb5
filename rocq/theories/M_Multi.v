(** std::multiset, std::multimap and the unordered containers of the standard library.  Proof-free.

    The code is the one for containers in general (Resolve.hpp:468-519) with [c.insert(c.end(), elem)] for sets (533-547) and
    [c.emplace(key, value)] for maps (550-567).  A container is the list of its elements in the order of iteration; storing it
    is storing a sequence of them (Resolve.hpp:478-483).  An element of a map is an object with the members "key" and "value"
    ([w_cls] of its class): Extract (554-556) and Insert (558-566) do what the methods of such a class do; the check that the
    item is a scope (402) is added by this, and cannot fail, since only scopes are elements of nodes.
    std::unordered_set takes the second ElemSwitch only where its two iterator types are the same (libc++); elsewhere it does
    not compile. *)
From Coq Require Import ZArith List Bool.
From Verif Require Import Base M_Types M_Conv M_Charset M_In S_Doc M_OutOps M_Env M_Event M_PSrl M_MsgPack M_Json M_Heap M_Out M_Tree M_TreeIO M_Object M_ObjIO.
Import ListNotations.
Open Scope Z_scope.

(** the key of an element of a map, Resolve.hpp:550-567 *)
Definition entry_key (v : cv) : cv := match v with VList (k :: _) => k | _ => v end.
(** std::multiset::insert with the hint end(), std::multimap::emplace (Resolve.hpp:545, 565): behind the elements that are equivalent *)
Fixpoint minsert (lt : cv -> cv -> bool) (key : cv -> cv) (a : cv) (l : list cv) : list cv :=
  match l with
  | [] => [a]
  | b :: l' => if lt (key a) (key b) then a :: l else b :: minsert lt key a l'
  end.
(** std::unordered_set::insert, std::unordered_map::emplace (Resolve.hpp:545, 565): nothing if there is an equal one; [place]: the new order of iteration *)
Definition uinsert (eqb : cv -> cv -> bool) (place : cv -> list cv -> list cv) (key : cv -> cv) (a : cv) (l : list cv) : list cv :=
  if existsb (fun b => eqb (key a) (key b)) l then l else place a l.
(** std::unordered_multiset::insert and std::unordered_multimap::emplace (Resolve.hpp:545, 565) are [place]. *)

(** Resolve.hpp:494-519 Paste, with [add] for the insertion *)
Definition paste_coll (F : nat) (w : world) (add : cv -> list cv -> list cv) (e : ct) (n : lnode) (s : rstate) : eprog (list cv * lnode * rstate) :=
  match F with
  | O => EFuel
  | S f => if negb (is_scope (n_type (l_node n))) then EThrow
           else each_item f (scoped e) (elem_value w add e) (elem_node w (paste_node f w) add e) [] n s
  end.
(** Tree.cpp:30-50, 77-83, Tree.hpp:23-41, as [restore_prog] *)
Definition restore_coll_prog (F : nat) (w : world) (add : cv -> list cv -> list cv) (e : ct) : eprog (list cv * rstate) :=
  ERead (fun ev =>
    let (name, v) := ev in
    if negb (is_scope (v_type v)) then EThrow
    else ebind (paste_coll F w add e (mkL false (empty_node (v_type v))) rs_new) (fun r => ERet (fst (fst r), snd r))).
(** Tree.hpp:133-146 *)
Definition restore_coll (x : fp_text) (F : nat) (w : world) (q : parser) (add : cv -> list cv -> list cv) (e : ct) : prog (parser * (list cv * rstate)) :=
  with_parser x F q (restore_coll_prog F w add e).
(** Node.hpp:74-87 *)
Definition unwrap_coll (F : nat) (w : world) (add : cv -> list cv -> list cv) (e : ct) (n : node) (s : rstate) : eprog (list cv * rstate) :=
  ebind (paste_coll F w add e (mkL true n) s) (fun r => ERet (fst (fst r), snd r)).
