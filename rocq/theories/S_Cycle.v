(** Graphs of shared objects that lead back to themselves. *)
From Coq Require Import ZArith List Bool.
From Verif Require Import Base M_Types S_Doc M_Object S_ObjStore S_Agree.
Import ListNotations.
Open Scope Z_scope.

(** from [v] a shared object can be reached that can be reached from itself *)
Definition cyclic (hp : heap_t) (v : cv) : Prop :=
  exists path back a, part hp v path = Some (VRef a) /\ back <> [] /\ part hp (VRef a) back = Some (VRef a).

(** an object of its type, whatever its shared pointers point to ([storable] with one rank for all) *)
Definition typed (w : world) (hp : heap_t) (leaf : ct -> cv -> Prop) (t : ct) (v : cv) : Prop := storable w hp (fun _ => 0%nat) leaf 1 t v.
Definition typed_heap (w : world) (hp : heap_t) (leaf : ct -> cv -> Prop) : Prop :=
  (forall a e x, nth_error hp a = Some (e, x) -> typed w hp leaf e x) /\ zlen hp < two64.
