(** The plain pointers of an object.  Specification of property C95. *)
From Coq Require Import ZArith List Bool.
From Verif Require Import Base M_Types M_Object.
Import ListNotations.
Open Scope Z_scope.

(** ways to the plain pointers, not null, among the members and elements of the object itself: those of its classes, arrays, pairs
    and tuples, not those in containers, tables and other objects it points to *)
Fixpoint own_pointers (w : world) (t : ct) (v : cv) {struct v} : list (list nat) :=
  let fix parts (i : nat) (ts : list ct) (vs : list cv) {struct vs} : list (list nat) :=
    match ts, vs with u :: ts', x :: vs' => map (cons i) (own_pointers w u x) ++ parts (S i) ts' vs' | _, _ => [] end in
  match t, v with
  | CPtr _, VNone | CPoly _, VNone => []
  | CPtr _, _ | CPoly _, _ => [[]]
  | CCls c, VList vs | CTup c, VList vs => parts 0%nat (map f_type (w_cls w c)) vs
  | CPair a b, VList vs => parts 0%nat [a; b] vs
  | CArr _ e, VList vs => parts 0%nat (map (fun _ => e) vs) vs
  | _, _ => []
  end.
(** the part of an object at the end of a way *)
Fixpoint part_at (p : list nat) (v : cv) : option cv :=
  match p with
  | [] => Some v
  | i :: p' => match v with VList vs => match nth_error vs i with Some x => part_at p' x | None => None end | _ => None end
  end.
(** [d] is [l] with some elements left out *)
Inductive selection {A} : list A -> list A -> Prop :=
| sl_nil : selection [] []
| sl_take a d l : selection d l -> selection (a :: d) (a :: l)
| sl_leave a d l : selection d l -> selection d (a :: l).
(** no class has optional members *)
Definition complete_classes (w : world) : Prop := forall c f, In f (w_cls w c) -> f_opt f = false.
