(** Model of documents put together by hand: Node::insert for objects, Values, Nodes, initializer lists and ScopeWraps (include/Srl/Node.hpp:12-72,
    include/Srl/ScopeWrap.h:12-29, src/lib/Node.cpp:146-164, src/lib/Environment.cpp:86-143), in a tree and while something is being stored
    (Tree::pack, include/Srl/Tree.hpp:48-69).  Definitions only. *)
From Coq Require Import ZArith List Bool.
From Verif Require Import Base M_Types M_Conv M_Charset M_In S_Doc M_OutOps M_Env M_Event M_PSrl M_MsgPack M_Json M_Heap M_Out M_Tree M_TreeIO M_Object M_ObjIO M_Pack.
Import ListNotations.
Open Scope Z_scope.

(** One call of Node::insert.  [own]: the node is of the tree it is inserted into.  A ScopeWrap is the list of the insertions that its function makes into the node it
    is given; [alive]: the std::function that the ScopeWrap refers to (ScopeWrap.h:15-17, 26: it keeps a reference to the parameter of its constructor) exists when
    it is called, as it does if the ScopeWrap is a temporary, or if it was made from a std::function and not from a lambda.
    Simplification: names are in UTF-8. *)
Inductive ins : Type :=
| InObj (i : item)
| InValue (k : bytes) (v : value)
| InNode (k : bytes) (c : node) (own : bool)
| InList (k : bytes) (t : ct) (vs : list cv)
| InScope (k : bytes) (tp : ty) (alive : bool) (l : list ins).

(** one after the other *)
Section Each.
  Context {A S : Type} (f : A -> S -> res S).
  (** the calls of Node.hpp:19-24, 42-56 *)
  Fixpoint steps (l : list A) (s : S) : res S := match l with [] => Ok s | a :: l' => let* s' := f a s in steps l' s' end.
End Each.
Section Collect.
  Context {A : Type} (f : A -> shared_tab -> res (list event * shared_tab)).
  (** the same calls while storing, Node.hpp:143-148 *)
  Fixpoint collect (l : list A) (tab : shared_tab) : res (list event * shared_tab) :=
    match l with
    | [] => Ok ([], tab)
    | a :: l' => let* (es, tab1) := f a tab in let* (es', tab2) := collect l' tab1 in Ok (es ++ es', tab2)
    end.
End Collect.

(** While nothing is being stored: the node afterwards, and shared_table_store.  Simplification: a new node is added before what is inside it is inserted;
    this could be seen after an exception only. *)
Fixpoint put (F : nat) (w : world) (hp : heap_t) (c : ins) (s : node * shared_tab) : res (node * shared_tab) :=
  let (n, tab) := s in
  match c with
  | InObj i => insert_object F w hp (i_type i) (i_val i) (i_name i) tab n                                       (* Node.hpp:12-17 *)
  | InValue k v => let* n' := store_value n v (k, EUTF8) in Ok (n', tab)                                        (* Node.hpp:67-72, Node.cpp:146-154 *)
  | InNode k c own => let* n' := (if own then store_node n c (k, EUTF8) else store_foreign n c (k, EUTF8)) in Ok (n', tab)   (* Node.hpp:60-65, Environment.cpp:107-121 *)
  | InList k t vs =>                                                                                            (* Node.hpp:26-40, Node.cpp:161-164 *)
      let* (c, tab1) := steps (fun v s => insert_object F w hp t v [] (snd s) (fst s)) vs (empty_node TArray, tab) in
      let* n' := store_node n c (k, EUTF8) in Ok (n', tab1)
  | InScope k tp alive l =>                                                                                     (* Node.hpp:54-55 *)
      if negb alive then UB UbDangling
      else let* (c, tab1) := steps (put F w hp) l (empty_node tp, tab) in
           let* n' := store_node n c (k, EUTF8) in Ok (n', tab1)
  end.

(** Environment.cpp:88-105: a node is written; the node that is made in 104 is not part of the tree *)
Fixpoint write_node (name : bytes) (n : node) : list event :=
  let (t, vs, ns) := n in
  (name, val_type t) :: vs ++ flat_map (fun q => write_node (fst q) (snd q)) ns ++ [(name, val_type TScopeEnd)].
(** While something is being stored: what is handed to Environment::write.  The elements of an initializer list are inserted into the node that
    Environment::store_node returns, and this is not part of what is written (Node.hpp:29-32, Environment.cpp:88-105). *)
Fixpoint put_writes (F : nat) (w : world) (hp : heap_t) (c : ins) (tab : shared_tab) : res (list event * shared_tab) :=
  match c with
  | InObj i => let* (d, tab1) := emit F w hp (i_type i) (i_val i) (i_name i) tab in Ok (stored_events d, tab1)   (* Node.hpp:12-17 *)
  | InValue k v => Ok ([(k, v)], tab)                                                                           (* Node.cpp:148-149 *)
  | InNode k c _ => Ok (write_node k c, tab)                                                                    (* Environment.cpp:88-105 *)
  | InList k t vs =>                                                                                            (* Node.hpp:26-40 *)
      let* (es, tab1) := collect (fun v tab => let* (d, tab1) := emit F w hp t v [] tab in Ok (stored_events d, tab1)) vs tab in
      Ok (write_node k (empty_node TArray) ++ es, tab1)
  | InScope k tp alive l =>                                                                                     (* Node.hpp:46-51 *)
      if negb alive then UB UbDangling
      else let* (es, tab1) := collect (put_writes F w hp) l tab in Ok ((k, val_type tp) :: es ++ [(k, val_type TScopeEnd)], tab1)
  end.

(** root().insert(...) several times on a tree whose root is [n] *)
(** Node.hpp:12-72 *)
Definition build (F : nat) (w : world) (hp : heap_t) (l : list ins) (n : node) (tab : shared_tab) : res (node * shared_tab) := steps (put F w hp) l (n, tab).
(** Tree.hpp:48-69: Tree::pack, and the bytes written into memory *)
Definition pack_writes (F : nat) (w : world) (hp : heap_t) (l : list ins) : res (list event) :=
  let* (es, _) := collect (put_writes F w hp) l [] in Ok (([], val_type TObject) :: es ++ [([], val_type TScopeEnd)]).
Definition pack_build (x : fp_text) (F : nat) (w : world) (hp : heap_t) (p : parser) (h : heap) (l : list ins) : res (parser * bytes * heap) :=
  let* es := pack_writes F w hp l in
  let* (p', ops) := write_all x p es in
  let* (bs, h') := save_buffer h ops in Ok (p', bs, h').
