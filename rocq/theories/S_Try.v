(** Trying types on a part of a tree. *)
From Coq Require Import ZArith List Bool.
From Verif Require Import Base M_Types M_Conv M_TpTools M_In M_Event M_Tree M_Object M_Access.
Import ListNotations.
Open Scope Z_scope.

(** Union::unwrap throws, at a tree with these shared objects in its table *)
Definition refuses (F : nat) (w : world) (t : ct) (u : handle) (s : rstate) : Prop := handle_unwrap F w t u s = EThrow.
(** the first of the types that Union::unwrap does not refuse is at position [i]; the object is [v] *)
Inductive first_of (F : nat) (w : world) (u : handle) (s : rstate) : list ct -> nat -> cv -> rstate -> Prop :=
| fo_here t ts v s' : handle_unwrap F w t u s = ERet (v, s') -> first_of F w u s (t :: ts) O v s'
| fo_next t ts i v s' : refuses F w t u s -> first_of F w u s ts i v s' -> first_of F w u s (t :: ts) (S i) v s'.
