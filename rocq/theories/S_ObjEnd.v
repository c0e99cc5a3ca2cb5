(** When restoring an object must come to an end, whatever the input. *)
From Coq Require Import ZArith List Bool.
From Verif Require Import Base M_Types M_Conv M_Charset M_In S_Doc M_Event M_Tree M_TreeIO M_Object M_ObjIO S_ObjSafe.
Import ListNotations.
Open Scope nat_scope.

(** pointers to pointers: how many are pasted from one and the same node *)
Fixpoint pointers (t : ct) : nat :=
  match t with CPtr e | CUniq e => S (pointers e) | _ => O end.
(** the texts of doubles consist of bytes; the table of classes answers; at most [h] pointers follow one another *)
Definition bounded (w : world) (t : ct) (h : nat) : Prop :=
  (forall d, wf_bytes (x_dtoa (w_fp w) d)) /\ (forall u id, w_reg w u id <> Fuel) /\ (forall p, part w t p -> (pointers p <= h)%nat).

(** the items in a tree *)
Fixpoint tree_size (n : node) : nat :=
  match n with mkNode _ vs ns => length vs + (fix go (l : list (bytes * node)) : nat := match l with [] => O | q :: l' => S (tree_size (snd q)) + go l' end) ns end.

(** the answer is there from a certain amount of fuel on, and more fuel does not change it *)
Definition settles {A} (run : nat -> res A) (enough : nat) : Prop := exists r, r <> Fuel /\ forall F, enough <= F -> run F = r.
