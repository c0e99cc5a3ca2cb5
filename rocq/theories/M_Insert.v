(** Model of a tree into which objects are put and from which they are taken: Tree::load_object, Tree::clear (include/Srl/Tree.hpp:160-165,
    src/lib/Tree.cpp:105-127), Node::insert and Node::paste on the root (include/Srl/Node.hpp:12-24, 74-103).  Definitions only. *)
From Coq Require Import ZArith List Bool.
From Verif Require Import Base M_Types M_Conv M_In S_Doc M_Event M_Tree M_Object M_Pack.
Import ListNotations.
Open Scope Z_scope.

(** A tree with its environment (Environment.h:40-60) while nothing is being stored: the root, shared_table_store, and
    shared_table_restore with the objects it refers to.  Simplification: in shared_table_store an address is a position in the
    heap of the program (M_Object.v); the heap of the program is given to each operation, since it changes between them. *)
Record tree : Type := mkTree { t_root : node; t_store : shared_tab; t_objs : rstate }.
(** Tree.cpp:117-127 create_env *)
Definition new_tree (tp : ty) : tree := mkTree (empty_node (if ty_eqb tp TArray then TArray else TObject)) [] rs_new.
(** Tree.cpp:105-115 clear, Environment.cpp:220-226: the root keeps its type.  Objects taken from the tree before stay where they are; the
    tree does not know them any more, so they are left out of [t_objs]. *)
Definition clear_tree (t : tree) : tree := mkTree (empty_node (n_type (t_root t))) [] rs_new.
(** Tree.cpp:30-50 and 71-75 load_source: clear, then a root made from the input ([n]: what was loaded, M_Tree.load_prog) *)
Definition loaded_tree (n : node) : tree := mkTree n [] rs_new.

(** the calls made inside a scope, on a node (Node.hpp:150-153) *)
Fixpoint insert_docs (ds : list doc) (n : node) : res node :=
  match ds with [] => Ok n | d :: ds' => let* n' := insert_doc d n in insert_docs ds' n' end.
(** Node.hpp:12-17 on the root: root().insert(name, object) *)
Definition insert_root (F : nat) (w : world) (hp : heap_t) (i : item) (t : tree) : res tree :=
  let* (n, tab) := insert_object F w hp (i_type i) (i_val i) (i_name i) (t_store t) (t_root t) in Ok (mkTree n tab (t_objs t)).
(** Tree.hpp:160-165 with TypeSwitch::Insert (Tree.hpp:18, 32-34): the items of a scope are put into the root, without a check
    that the pointer to a polymorphic object is not null; anything else becomes a value without a name *)
Definition load_object (F : nat) (w : world) (hp : heap_t) (ty : ct) (v : cv) (t : tree) : res tree :=
  let t0 := clear_tree t in
  if null_root ty v then UB UbNull
  else if scoped ty then
    let* (d, tab) := emit F w hp ty v [] (t_store t0) in
    let* n := insert_docs (match d with DScope _ _ its => its | DVal _ _ => [] end) (t_root t0) in Ok (mkTree n tab (t_objs t0))
  else insert_root F w hp (mkItem [] ty v) t0.
(** Node.hpp:89-137 on the root: root().paste(name, object); [i_val]: what the object holds before *)
Definition paste_root (F : nat) (w : world) (i : item) (t : tree) : eprog (cv * tree) :=
  ebind (paste_field w (paste_node F w) F (i_type i) (IdName (i_name i)) (i_val i) (mkL true (t_root t)) (t_objs t)) (fun r =>
    ERet (fst (fst r), mkTree (t_root t) (t_store t) (snd r))).
(** Node.hpp:74-87: root().paste(object); for types that are not scopes root().paste_field(0, object) *)
Definition unwrap_root (F : nat) (w : world) (ty : ct) (old : cv) (t : tree) : eprog (cv * tree) :=
  ebind (unwrap_prog F w ty old (t_root t) (t_objs t)) (fun r => ERet (fst r, mkTree (t_root t) (t_store t) (snd r))).

(** a sequence of these operations; [hp]: the heap at that time *)
(** Node.hpp:12-17, 89-96 *)
Inductive tree_op : Type := OpInsert (hp : heap_t) (i : item) | OpPaste (i : item).
(** Node.hpp:12-17, 89-96 *)
Fixpoint run_ops (F : nat) (w : world) (ops : list tree_op) (t : tree) : eprog (list cv * tree) :=
  match ops with
  | [] => ERet ([], t)
  | OpInsert hp i :: ops' => ebind (elift (insert_root F w hp i t)) (run_ops F w ops')
  | OpPaste i :: ops' => ebind (paste_root F w i t) (fun r => ebind (run_ops F w ops' (snd r)) (fun q => ERet (fst r :: fst q, snd q)))
  end.
