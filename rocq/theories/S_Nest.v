(** Objects that contain each other as deep as one likes: struct T { std::vector<T> kids; }, each with at most one element.
    Specification of property C94. *)
From Coq Require Import ZArith List Bool.
From Verif Require Import Base M_Types S_Doc M_Event M_PSrl M_MsgPack M_Json S_MsgPack M_TreeIO M_Object.
Import ListNotations.
Open Scope Z_scope.

(** class [c] has one member, [k], a vector of objects of class [c] *)
Definition nesting_class (w : world) (c : nat) (k : bytes) : Prop := w_cls w c = [mkField k false (CSeq (CCls c))] /\ exists o, w_new w (CCls c) = VList [o].
(** [n] + 1 objects inside each other *)
Fixpoint nest (n : nat) : cv := match n with O => VList [VList []] | S m => VList [VList [nest m]] end.
(** the number of objects inside each other *)
Fixpoint height (v : cv) : nat := match v with VList [VList [x]] => S (height x) | _ => 1%nat end.

(** optional members are numbers, strings, characters, blocks or pointers to these *)
Definition simple_options (w : world) : Prop := forall c f, In f (w_cls w c) -> f_opt f = true -> scoped (f_type f) = false.
(** the numbers of items that the format can count; nothing about how deep they are *)
Definition counts_fit (p : parser) (d : doc) : Prop :=
  match p with PsrlP _ => Z.of_nat (length (events d)) < 2 ^ 63 | MsgpP _ => small_scopes d | JsonP _ => True end.
