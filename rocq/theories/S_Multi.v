(** What containers with equivalent elements and unordered containers are. *)
From Coq Require Import ZArith List Bool Sorted Sorting.Permutation.
From Verif Require Import Base M_Object S_Restored.
Import ListNotations.

(** sorted, equivalent elements next to each other *)
Definition in_order (lt : cv -> cv -> bool) (key : cv -> cv) (l : list cv) : Prop := StronglySorted (fun a b => lt (key b) (key a) = false) l.
(** the elements [us], sorted, and equivalent ones in the order they had; [P]: the keys that are ordered *)
Definition stably_sorted (P : cv -> Prop) (lt : cv -> cv -> bool) (key : cv -> cv) (us r : list cv) : Prop :=
  in_order lt key r /\ Permutation us r /\ forall k, P k -> filter (fun a => equiv lt k (key a)) r = filter (fun a => equiv lt k (key a)) us.
(** equality as the hash containers need it *)
Definition equality (eqb : cv -> cv -> bool) : Prop :=
  (forall a, eqb a a = true) /\ (forall a b, eqb a b = eqb b a) /\ (forall a b c, eqb a b = true -> eqb b c = true -> eqb a c = true).
(** no two of them are equal *)
Fixpoint distinct (eqb : cv -> cv -> bool) (key : cv -> cv) (l : list cv) : Prop :=
  match l with [] => True | a :: l' => existsb (fun b => eqb (key a) (key b)) l' = false /\ distinct eqb key l' end.
(** a new element comes somewhere *)
Definition placing (place : cv -> list cv -> list cv) : Prop := forall a l, Permutation (a :: l) (place a l).
