(** When restoring does not depend on what the object held before. *)
From Coq Require Import ZArith List Bool.
From Verif Require Import Base M_Types M_Conv M_TpTools M_In S_Doc M_Env M_Event M_Tree M_TreeIO M_Object M_ObjIO.
Import ListNotations.
Open Scope Z_scope.

(** the next [n] items of a source *)
Fixpoint first_items (n : nat) : eprog (list event) :=
  match n with O => ERet [] | S m => ERead (fun e => ebind (first_items m) (fun es => ERet (e :: es))) end.
(** however many items are read from the input, none of them is Null *)
Definition no_null (es : list event) : Prop := Forall (fun e : event => v_type (snd e) <> TNull) es.
Definition block_without_null (x : fp_text) (F : nat) (q : parser) (b : blk) : Prop :=
  forall n q' es b', run_block (with_parser x F q (first_items n)) b = Ok ((q', es), b') -> no_null es.
Definition stream_without_null (x : fp_text) (F : nat) (q : parser) (s : strm) : Prop :=
  forall n q' es b', run_stream (with_parser x F q (first_items n)) s = Ok ((q', es), b') -> no_null es.
(** no value of a tree is Null *)
Inductive tree_without_null : node -> Prop :=
| twn_node t vs ns : Forall (fun q : bytes * value => v_type (snd q) <> TNull) vs -> Forall (fun q : bytes * node => tree_without_null (snd q)) ns -> tree_without_null (mkNode t vs ns).

(** types whose objects are overwritten completely: everything that is not made anew (members of classes, elements of arrays,
    pairs and tuples) is neither optional nor a character array; [strs]: it may be a string *)
Inductive rewritten (strs : bool) (w : world) : ct -> Prop :=
| rw_new t : match t with CCls _ | CArr _ _ | CPair _ _ | CTup _ | CChars _ _ => False | CStr _ => strs = true | _ => True end -> rewritten strs w t
| rw_cls c : Forall (fun f => f_opt f = false /\ rewritten strs w (f_type f)) (w_cls w c) -> rewritten strs w (CCls c)
| rw_tup c : Forall (fun f => rewritten strs w (f_type f)) (w_cls w c) -> rewritten strs w (CTup c)
| rw_arr n e : rewritten strs w e -> rewritten strs w (CArr n e)
| rw_pair a b : rewritten strs w a -> rewritten strs w b -> rewritten strs w (CPair a b).
