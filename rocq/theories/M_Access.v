(** Model of the parts of a tree that are reached by name or position, and of Srl::Union as what they are handed out as
    (include/Srl/Union.h:15-71, include/Srl/Union.hpp:15-155, include/Srl/Value.hpp:42-61, include/Srl/Node.hpp:74-87).  Definitions only. *)
From Coq Require Import ZArith List Bool.
From Verif Require Import Base M_Types M_Conv M_TpTools M_In M_Event M_Tree M_Object.
Import ListNotations.
Open Scope Z_scope.

(** Value.hpp:42-61: [T r] is not initialized.  A pointer is compared with null and deleted (Resolve.hpp:707-709) before it is set; the other types that
    are no scopes overwrite it or have a constructor. *)
Definition value_unwrap (w : world) (t : ct) (v : value) : res cv :=
  match t with CPtr _ => UB UbPtr | _ => paste_value w t (w_new w t) v end.
(** Node.hpp:74-87 for scopes: [Ctor<T>::Create()], then paste.  Simplification: [s] is the table of shared objects of the tree, and the one returned is
    the one after success (after an exception: M_Try.v) *)
Definition node_paste (F : nat) (w : world) (t : ct) (old : cv) (n : node) (s : rstate) : eprog (cv * rstate) :=
  ebind (paste_node F w t old (mkL true n) s) (fun r => ERet (fst (fst r), snd r)).

(** A Union refers to a node, to a value, or to nothing (Union.h:18-27, 60-61). *)
Definition handle : Type := option union.
(** Union.hpp:43-48, 68-88: one exception is replaced by another *)
Definition handle_get (u : handle) (name : sstr) : res handle :=
  match u with
  | None | Some (UnValue _ _) => Err
  | Some (UnNode _ n) => let* r := get_named n name in Ok (Some r)
  end.
(** Union.hpp:90-96 with Node.cpp:198-207 *)
Definition handle_try_get (u : handle) (name : sstr) : res (option handle) :=
  match u with
  | None | Some (UnValue _ _) => Ok None
  | Some (UnNode _ n) => let* r := try_get_named n name in Ok (match r with None => None | Some x => Some (Some x) end)
  end.
(** Union.hpp:15-66, 98-132: [scoped t] selects the function; conversion errors are replaced by other exceptions, also if the Union is empty *)
Definition handle_unwrap (F : nat) (w : world) (t : ct) (u : handle) (s : rstate) : eprog (cv * rstate) :=
  if scoped t then match u with Some (UnNode _ n) => node_paste F w t (w_new w t) n s | _ => EThrow end
  else match u with Some (UnValue _ v) => ebind (elift (value_unwrap w t v)) (fun x => ERet (x, s)) | _ => EThrow end.
(** Union.hpp:134-155; [old]: what the object holds before *)
Definition handle_copy (F : nat) (w : world) (t : ct) (old : cv) (u : handle) (s : rstate) : eprog (cv * rstate) :=
  if scoped t then match u with Some (UnNode _ n) => node_paste F w t old n s | _ => EThrow end
  else match u with Some (UnValue _ v) => ebind (elift (paste_value w t old v)) (fun x => ERet (x, s)) | _ => EThrow end.

(** From one item to another: Union::get(name), and Node::get(position) through Union::node() (Union.h:23); a null pointer if the Union is no node *)
Inductive hop : Type := ByName (k : bytes) | ByIndex (i : Z).
Definition take_hop (u : handle) (h : hop) : res handle :=
  match h with
  | ByName k => handle_get u (k, EUTF8)
  | ByIndex i => match u with Some (UnNode _ n) => let* r := get_at n i in Ok (Some r) | _ => UB UbNull end
  end.
Fixpoint follow (u : handle) (hs : list hop) : res handle :=
  match hs with [] => Ok u | h :: hs' => let* u' := take_hop u h in follow u' hs' end.
(** Tree::root() as a Union (Tree.cpp:85-91, Union.h:20) *)
Definition root_of (k : bytes) (n : node) : handle := Some (UnNode k n).
