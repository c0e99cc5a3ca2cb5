(** Driving a parser through a whole document.  Definitions only. *)
From Coq Require Import ZArith List Bool.
From Verif Require Import Base M_Types M_In S_Doc M_OutOps.
Import ListNotations.

(** the calls parser.write(value, name, out) of one document in order (Environment.cpp:145-194, Tree.cpp:60-65) *)
Fixpoint write_events {S} (w : S -> event -> res (S * list oop)) (st : S) (es : list event) : res (S * list oop) :=
  match es with
  | [] => Ok (st, [])
  | e :: es' =>
      let* (st1, o1) := w st e in
      let* (st2, o2) := write_events w st1 es' in
      Ok (st2, o1 ++ o2)
  end.

(** n calls of parser.read(source) (Tree.cpp:41-44, Node.cpp) *)
Fixpoint read_events {S} (r : S -> prog (S * event)) (n : nat) (st : S) : prog (S * list event) :=
  match n with
  | O => Ret (st, [])
  | S n' =>
      let! (st1, e) := r st in
      let! (st2, es) := read_events r n' st1 in
      Ret (st2, e :: es)
  end.
