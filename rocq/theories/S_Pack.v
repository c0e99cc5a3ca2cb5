(** Several named objects, and a class with these members. *)
From Coq Require Import ZArith List Bool.
From Verif Require Import Base M_Types M_TpTools M_In M_Heap M_Tree M_TreeIO S_TreeIO M_Object S_ObjStore M_Pack.
Import ListNotations.
Open Scope Z_scope.

(** the class [c] has exactly these members, none of them optional *)
Definition class_of (w : world) (c : nat) (its : list item) : Prop := w_cls w c = map (fun i => mkField (i_name i) false (i_type i)) its.
Definition named (its : list item) : Prop := Forall (fun i => 0 < zlen (i_name i)) its.

(** the object packed under a name *)
Definition packed (its : list item) (k : bytes) (t : ct) (v : cv) : Prop := exists i, In i its /\ i_name i = k /\ i_type i = t /\ i_val i = v.

(** a set of types that contains the types of all parts and no shared pointer *)
Definition part_types (w : world) (t u : ct) : Prop :=
  match t with
  | CNum _ | CStr _ | CChar _ | CChars _ _ | CBits => False
  | CCls c | CTup c => exists f, In f (w_cls w c) /\ u = f_type f
  | CSeq e | CSet e | CTab e | CArr _ e | CPtr e | CUniq e | CShared e | CWeak e => u = e
  | CMap k e | CPair k e => u = k \/ u = e
  | CPoly b => exists id c f, w_reg w b id = Ok (Some c) /\ In f (w_cls w c) /\ u = f_type f
  end.
Definition unshared (w : world) (t : ct) : Prop :=
  exists U : ct -> Prop, U t /\ (forall t u, U t -> part_types w t u -> U u) /\ (forall e, ~ U (CShared e) /\ ~ U (CWeak e)).

(** Tree::pack writes [bs] (if they are less than 2^32 bytes) into memory; [F]: enough fuel *)
Definition packs_as (w : world) (hp : heap_t) (p : parser) (its : list item) (bs : bytes) : Prop :=
  exists size p', forall F m, (size <= F)%nat -> zlen bs < 2 ^ 32 -> exists h, pack_object (w_fp w) F w hp p (heap_init m) its = Ok (p', bs, h).
(** Tree::unpack with a parser of the same format reads [bs], whatever follows, as the objects [vs] and the shared objects [s] *)
Definition unpacks_as (w : world) (p : parser) (bs : bytes) (ask : list item) (vs : list cv) (s : rstate) : Prop :=
  exists size, forall q F before rest, same_format p q -> (size <= F)%nat ->
    exists q' b', run_block (unpack_object (w_fp w) F w q ask) (mkBlk before (bs ++ rest)) = Ok ((q', (vs, s)), b').
(** Loading the bytes into a tree and Node::paste with the same names and objects *)
Definition pastes_as (w : world) (p : parser) (bs : bytes) (ask : list item) (vs : list cv) (s : rstate) : Prop :=
  exists size k n, loads_as (w_fp w) p bs k n /\ forall F, (size <= F)%nat -> paste_tree F w ask n rs_new = ERet (vs, s).
