(** Which objects a tree holds without a loss, and which sequences of operations give them back. *)
From Coq Require Import ZArith List Bool.
From Verif Require Import Base M_Types M_Conv M_TpTools M_Tree M_Object S_ObjStore M_Pack S_Pack M_Insert.
Import ListNotations.
Open Scope Z_scope.

(** The values of the C++ types without parts, all of them: there is no format that could not carry one.  Strings consist of
    whole characters, in any encoding and not necessarily valid in it *)
Definition any_value (t : ct) (v : cv) : Prop :=
  cpp_value false t v /\ match t, v with CStr e, VStr s => zlen s mod unit_size e = 0 | _, _ => True end.

(** Operations that insert objects under different names and ask for them.  [there]: the names that the tree had at the beginning;
    [done]: what was inserted so far; [todo]: those of them whose turn has not come.  Objects can be asked for once, in the order in which they were
    inserted; objects without shared pointers, of types without shared pointers, as often as one likes and in any order.
    The last argument: what the operations give. *)
Definition free (w : world) (i : item) : Prop := plain (i_val i) = true /\ unshared w (i_type i).
Inductive in_turn (w : world) (hp : heap_t) (there : list bytes) : list item -> list item -> list tree_op -> list cv -> Prop :=
| it_end done todo : in_turn w hp there done todo [] []
| it_insert done todo i ops vs : ~ In (i_name i) there -> ~ In (i_name i) (map i_name done) ->
    in_turn w hp there (done ++ [i]) (todo ++ [i]) ops vs -> in_turn w hp there done todo (OpInsert hp i :: ops) vs
| it_paste done todo i o ops vs : i_name o = i_name i -> i_type o = i_type i -> shape w (i_type o) (i_val o) ->
    in_turn w hp there done todo ops vs -> in_turn w hp there done (i :: todo) (OpPaste o :: ops) (i_val i :: vs)
| it_free done todo i o ops vs : In i done -> free w i -> i_name o = i_name i -> i_type o = i_type i -> shape w (i_type o) (i_val o) ->
    in_turn w hp there done todo ops vs -> in_turn w hp there done todo (OpPaste o :: ops) (i_val i :: vs)
| it_skip done todo i ops vs : free w i -> in_turn w hp there done todo ops vs -> in_turn w hp there done (i :: todo) ops vs.
Definition inserted (ops : list tree_op) : list item := flat_map (fun o => match o with OpInsert _ i => [i] | OpPaste _ => [] end) ops.
(** the names in a node *)
Definition names_in (n : node) : list bytes := map fst (n_values n) ++ map fst (n_nodes n).
(** what can be made from a root of that type: tables and pairs are read from objects only *)
Fixpoint takes (tp : ty) (t : ct) : bool :=
  match t with CTab _ | CPair _ _ => ty_eqb tp TObject | CPtr e | CUniq e => takes tp e | _ => true end.
