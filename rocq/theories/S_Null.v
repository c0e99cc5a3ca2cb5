(** Null pointers in containers. *)
From Coq Require Import ZArith List Bool.
From Verif Require Import Base M_Types M_TpTools S_Doc M_Tree M_Object.
Import ListNotations.
Open Scope Z_scope.

Definition null (v : cv) : bool := match v with VNone => true | _ => false end.
(** a pointer to something that is stored with its parts: T* and unique_ptr<T> where T is a class or a container, shared_ptr and weak_ptr of any T *)
Definition to_parts (t : ct) : bool :=
  match t with
  | CPtr e | CUniq e => scoped e
  | CShared _ | CWeak _ => true
  | _ => false
  end.
(** vectors, lists, ... , sets, and hash tables with such pointers *)
Definition of_pointers (t : ct) : bool := match t with CSeq e | CSet e | CTab e => to_parts e | _ => false end.
(** the same container without the null pointers *)
Definition without_nulls (v : cv) : cv :=
  match v with
  | VList vs => VList (filter (fun v => negb (null v)) vs)
  | VTab l => VTab (filter (fun q => negb (null (snd q))) l)
  | _ => v
  end.
(** what a unique_ptr to a number or a string points to after [nullptr] has been stored and restored *)
Definition made_up (w : world) (t : ct) : option cv :=
  match t with
  | CNum _ => Some (VNum 0)
  | CStr _ => Some (w_new w t)
  | _ => None
  end.
(** a null pointer to something with parts, or as [ok] says *)
Definition or_null (ok : ct -> cv -> Prop) (t : ct) (v : cv) : Prop := (null v = true /\ to_parts t = true) \/ ok t v.
