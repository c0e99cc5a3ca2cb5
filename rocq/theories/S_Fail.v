(** What restoring that fails may leave behind. *)
From Coq Require Import ZArith List Bool.
From Verif Require Import Base M_Types M_Object M_Fail.
Import ListNotations.
Open Scope Z_scope.

(** types of the parts that are written in place *)
Definition member_types (w : world) (t : ct) : option (list ct) :=
  match t with
  | CCls c | CTup c => Some (map f_type (w_cls w c))
  | CArr n e => Some (repeat e n)
  | CPair a b => Some [a; b]
  | _ => None
  end.
(** an object with all its members; bytes are bytes *)
Inductive formed (w : world) : ct -> cv -> Prop :=
| fm_any t v : member_types w t = None -> (t = CBits -> exists s, v = VStr s) -> formed w t v
| fm_mem t ts vs : member_types w t = Some ts -> Forall2 (formed w) ts vs -> formed w t (VList vs).

(** the members of an object *)
Definition consists (o : obj) (l : list obj) : Prop := o = OMem l \/ exists vs, o = OVal (VList vs) /\ l = map OVal vs.
(** a complete value of the type *)
Definition complete (w : world) (t : ct) (o : obj) : Prop := exists v, whole o = Some v /\ formed w t v.
(** [x] before and [o] after restoring failed: unchanged; or a table with some entries; or other bytes; or a pointer to a deleted
    object; or, member by member: complete ones, one that is itself torn (or complete), unchanged ones *)
Inductive torn (w : world) : ct -> obj -> obj -> Prop :=
| tn_same t x : torn w t x x
| tn_tab e x l : torn w (CTab e) x (OVal (VTab l))
| tn_bits x s : torn w CBits x (OVal (VStr s))
| tn_ptr e x : held x <> VNone -> torn w (CPtr e) x (ODead (held x))
| tn_poly u x : held x <> VNone -> torn w (CPoly u) x (ODead (held x))
| tn_mem t ts1 u ts2 x l1 m l2 o l1' m' : member_types w t = Some (ts1 ++ u :: ts2) -> consists x (l1 ++ m :: l2) -> consists o (l1' ++ m' :: l2) ->
    length l1 = length ts1 -> Forall2 (complete w) ts1 l1' -> torn w u m m' \/ complete w u m' -> torn w t x o.

(** types without raw pointers among the parts written in place *)
Inductive owned (w : world) : ct -> Prop :=
| ow_any t : member_types w t = None -> match t with CPtr _ | CPoly _ => False | _ => True end -> owned w t
| ow_mem t ts : member_types w t = Some ts -> Forall (owned w) ts -> owned w t.
(** types of objects that are assigned at the end *)
Definition assigned (w : world) (t : ct) : Prop :=
  member_types w t = None /\ match t with CTab _ | CBits | CPtr _ | CPoly _ => False | _ => True end.
