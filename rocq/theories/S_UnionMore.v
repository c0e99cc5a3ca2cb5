(** Objects that are asked for one after the other. *)
From Coq Require Import ZArith List Bool.
From Verif Require Import Base M_Types S_Doc M_Object M_Pack S_Object.
Import ListNotations.
Open Scope Z_scope.

(** each of the objects with the meaning of its item in the document *)
Fixpoint said_each (F : nat) (w : world) (its : list doc) (os : list item) (s : rstate) : res (list cv * rstate) :=
  match os with
  | [] => Ok ([], s)
  | o :: os' =>
      let* (r, _) := dfield w true (said F w true) (i_type o) (IdName (i_name o)) (i_val o) its s in
      let* (vs, s2) := said_each F w its os' (snd r) in Ok (fst r :: vs, s2)
  end.
