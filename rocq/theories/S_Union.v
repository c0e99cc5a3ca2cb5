(** What a Union refers to. *)
From Coq Require Import ZArith List Bool.
From Verif Require Import Base M_Types S_Doc M_Tree S_Tree.
Import ListNotations.
Open Scope Z_scope.

(** an item of a document, in a tree *)
Definition refers (d : doc) : union := match d with DVal k v => UnValue k v | DScope k _ _ => UnNode k (doc_node d) end.
(** the first item of that name, and the items up to it *)
Definition item_named (k : bytes) (its : list doc) : option doc := find (fun d => bytes_eqb (doc_name d) k) its.
Fixpoint items_to (k : bytes) (its : list doc) : list doc :=
  match its with [] => [] | d :: r => d :: if bytes_eqb (doc_name d) k then [] else items_to k r end.
(** the items up to the last one that has one of these names, and those of them without such a name *)
Definition has_name (ks : list bytes) (d : doc) : bool := existsb (bytes_eqb (doc_name d)) ks.
Fixpoint upto_names (ks : list bytes) (its : list doc) : list doc :=
  match its with
  | [] => []
  | d :: r => match upto_names ks r with [] => if has_name ks d then [d] else [] | l => d :: l end
  end.
Definition without (ks : list bytes) (its : list doc) : list doc := filter (fun d => negb (has_name ks d)) its.
