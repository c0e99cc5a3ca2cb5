(** Restoring from a tree, item by item: what each member or element is made from.  Independent of the functions that restore
    (M_Object) except for the restoring of a single value and of a single node. *)
From Coq Require Import ZArith List Bool Sorted.
From Verif Require Import Base M_Types S_Doc M_Tree S_Tree M_Object S_Object.
Import ListNotations.
Open Scope Z_scope.

(** an object of type [t], [old] before, made from an item: from a value, or from a scope (Node::unwrap / paste on it) *)
Definition made (F : nat) (w : world) (t : ct) (old : cv) (d : doc) (s : rstate) (v : cv) (s' : rstate) : Prop :=
  match d with
  | DVal _ x => paste_value w t old x = Ok v /\ s' = s
  | DScope _ _ _ => unwrap_prog F w t old (doc_node d) s = ERet (v, s')
  end.
(** the first item of that name that can be a [t]: a scope for types with parts, a value for the others *)
Definition item_for (t : ct) (k : bytes) (its : list doc) : option doc :=
  find (fun d => Bool.eqb (is_sc d) (scoped t) && bytes_eqb (doc_name d) k) its.
Definition items_for (t : ct) (its : list doc) : list doc := filter (fun d => Bool.eqb (is_sc d) (scoped t)) its.

(** the members of a class, one after the other: from the first item of their name, and an optional one without an item keeps
    its value *)
Inductive members (F : nat) (w : world) (its : list doc) : list field -> list cv -> rstate -> list cv -> rstate -> Prop :=
| no_members olds s : members F w its [] olds s [] s
| member_there f fs old olds d s v s1 vs s2 : item_for (f_type f) (f_name f) its = Some d -> made F w (f_type f) old d s v s1 ->
    members F w its fs olds s1 vs s2 -> members F w its (f :: fs) (old :: olds) s (v :: vs) s2
| member_absent f fs old olds s vs s2 : item_for (f_type f) (f_name f) its = None -> f_opt f = true ->
    members F w its fs olds s vs s2 -> members F w its (f :: fs) (old :: olds) s (old :: vs) s2.

(** elements: each one made from its item, into a new object *)
Inductive elements (F : nat) (w : world) (t : ct) : list doc -> rstate -> list cv -> rstate -> Prop :=
| no_elements s : elements F w t [] s [] s
| element d its s v s1 vs s2 : made F w t (w_new w t) d s v s1 -> elements F w t its s1 vs s2 -> elements F w t (d :: its) s (v :: vs) s2.
(** entries of a map: each one made from a scope with a key and a value *)
Inductive entries (F : nat) (w : world) (k e : ct) : list doc -> rstate -> list (cv * cv) -> rstate -> Prop :=
| no_entries s : entries F w k e [] s [] s
| entry d its s dk a s1 dv b s2 l s3 : item_for k str_key (items d) = Some dk -> made F w k (w_new w k) dk s a s1 ->
    item_for e str_value (items d) = Some dv -> made F w e (w_new w e) dv s1 b s2 ->
    entries F w k e its s2 l s3 -> entries F w k e (d :: its) s ((a, b) :: l) s3.
(** elements of an array: made into the elements that are there *)
Inductive array_elements (F : nat) (w : world) (t : ct) : list cv -> list doc -> rstate -> list cv -> rstate -> Prop :=
| no_array_elements s : array_elements F w t [] [] s [] s
| array_element old olds d its s v s1 vs s2 : made F w t old d s v s1 -> array_elements F w t olds its s1 vs s2 ->
    array_elements F w t (old :: olds) (d :: its) s (v :: vs) s2.

(** a finite map in which the first entry of a key counts *)
Definition first_counts (l l' : list (bytes * cv)) : Prop :=
  NoDup (map fst l') /\ forall k, find (fun q => bytes_eqb (fst q) k) l' = find (fun q => bytes_eqb (fst q) k) l.
(** an ordered container in which the first of equivalent elements counts *)
Definition equiv (lt : cv -> cv -> bool) (a b : cv) : bool := negb (lt a b) && negb (lt b a).
(** [lt] orders the values that satisfy [P] *)
Definition weak_order (P : cv -> Prop) (lt : cv -> cv -> bool) : Prop :=
  (forall a, P a -> lt a a = false) /\ (forall a b c, P a -> P b -> P c -> lt a b = true -> lt b c = true -> lt a c = true) /\
  (forall a b c, P a -> P b -> P c -> equiv lt a b = true -> equiv lt b c = true -> equiv lt a c = true).
Definition ordered_first {A} (lt : cv -> cv -> bool) (key : A -> cv) (l l' : list A) : Prop :=
  forall P, weak_order P lt -> Forall (fun a => P (key a)) l ->
    StronglySorted (fun a b => lt (key a) (key b) = true) l' /\ (forall k, P k -> find (fun a => equiv lt k (key a)) l' = find (fun a => equiv lt k (key a)) l).

(** A class whose members are all values: the members, from the items of an object; the outcome of the first one that fails *)
Fixpoint flat (w : world) (its : list doc) (fs : list field) (olds : list cv) : res (list cv) :=
  match fs, olds with
  | [], _ => Ok []
  | f :: fs', old :: olds' =>
      let* v := match item_for (f_type f) (f_name f) its with
                | Some (DVal _ x) => paste_value w (f_type f) old x
                | Some (DScope _ _ _) => Err
                | None => if f_opt f then Ok old else Err
                end in
      let* vs := flat w its fs' olds' in Ok (v :: vs)
  | _ :: _, [] => Err
  end.
Definition all_values (fs : list field) : Prop := Forall (fun f => scoped (f_type f) = false) fs.
(** no scope has the name of an optional member *)
Definition clear_options (fs : list field) (its : list doc) : Prop :=
  forall f d, In f fs -> f_opt f = true -> In d its -> is_sc d = true -> doc_name d <> f_name f.
