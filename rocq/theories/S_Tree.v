(** Specification vocabulary for trees: the document a tree stands for and the tree a document becomes. *)
From Coq Require Import ZArith List Bool.
From Verif Require Import Base M_Types M_Conv M_Charset S_Charset S_Doc M_Tree.
Import ListNotations.
Open Scope Z_scope.

(** a tree as a document: in every scope first the values, then the nodes *)
Fixpoint tree_doc (name : bytes) (n : node) : doc :=
  let (t, vs, ns) := n in
  DScope name t (map (fun q => DVal (fst q) (snd q)) vs ++
    (fix go (l : list (bytes * node)) : list doc := match l with [] => [] | (k, c) :: l' => tree_doc k c :: go l' end) ns).

(** the values among the items of a scope, and its scopes *)
Definition vals_of (its : list doc) : list (bytes * value) :=
  flat_map (fun d => match d with DVal k v => [(k, v)] | DScope _ _ _ => [] end) its.
Fixpoint doc_node (d : doc) : node :=
  match d with
  | DVal _ _ => empty_node TNull
  | DScope _ t its =>
      mkNode t (vals_of its)
        ((fix go (l : list doc) : list (bytes * node) :=
            match l with
            | [] => []
            | DVal _ _ :: l' => go l'
            | (DScope k _ _ as s) :: l' => (k, doc_node s) :: go l'
            end) its)
  end.
Definition doc_name (d : doc) : bytes := match d with DVal k _ => k | DScope k _ _ => k end.

(** the items of every scope with the values first *)
Fixpoint values_first (d : doc) : doc :=
  match d with
  | DVal k v => DVal k v
  | DScope k t its =>
      DScope k t (filter (fun d => match d with DVal _ _ => true | _ => false end) its ++
        (fix go (l : list doc) : list doc :=
            match l with
            | [] => []
            | DVal _ _ :: l' => go l'
            | (DScope _ _ _ as s) :: l' => values_first s :: go l'
            end) its)
  end.

(** values are values, scopes are objects or arrays *)
Definition plain_value (v : value) : Prop := is_scope (v_type v) = false /\ v_type v <> TScopeEnd.
Fixpoint shaped (d : doc) : Prop :=
  match d with
  | DVal _ v => plain_value v
  | DScope _ t its => is_scope t = true /\
      (fix all (l : list doc) : Prop := match l with [] => True | x :: l' => shaped x /\ all l' end) its
  end.

(** the first item of that name, in order *)
Definition first_named {A} (k : bytes) (l : list (bytes * A)) : option (bytes * A) := find (fun q => bytes_eqb (fst q) k) l.

(** the item that a path of positions leads to *)
Fixpoint at_path (n : node) (p : path) : option (bytes * node) :=
  match p with
  | [] => None
  | [i] => nth_error (n_nodes n) i
  | i :: p' => match nth_error (n_nodes n) i with Some (_, c) => at_path c p' | None => None end
  end.
(** the order of a document: a node comes before the nodes inside it and before its later siblings *)
Fixpoint before (p q : path) : Prop :=
  match p, q with
  | [], [] => False
  | [], _ :: _ => True
  | _ :: _, [] => False
  | i :: p', j :: q' => (i < j)%nat \/ (i = j /\ before p' q')
  end.
(** without the first element that satisfies p *)
Fixpoint remove_first {A} (p : A -> bool) (l : list A) : list A :=
  match l with [] => [] | x :: l' => if p x then l' else x :: remove_first p l' end.
(** the UTF-8 name a string stands for: itself, or the same text in UTF-8 *)
Definition names (q : sstr) (k : bytes) : Prop :=
  (snd q = EUTF8 /\ k = fst q) \/
  exists cs, Forall scalar cs /\ snd q <> EUnknown /\ fst q = text (snd q) cs /\ k = text EUTF8 cs.
(** the value at a position of the node a path leads to; the empty path leads to the node itself *)
Definition value_at_path (n : node) (p : path) (i : nat) : option (bytes * value) :=
  match p with
  | [] => nth_error (n_values n) i
  | _ => match at_path n p with Some (_, c) => nth_error (n_values c) i | None => None end
  end.
Definition vbefore (a b : path * nat) : Prop := before (fst a) (fst b) \/ (fst a = fst b /\ (snd a < snd b)%nat).
