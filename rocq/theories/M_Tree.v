(** Model of Node and Tree (src/lib/Node.cpp, src/lib/Tree.cpp, include/Srl/Node.hpp, Tree.hpp) and of the functions
    of Environment that store names, nodes and values (src/lib/Environment.cpp).  Definitions only.

    Simplifications.  A link (Environment.h:20-26) is a pair of the stored name and the field: the hash of a link is
    computed from that name by create_link / create_node and never changed (Environment.cpp:75-84, 124-131), so it is
    recomputed here where it is compared.  Interned names (str_table) and copies of data on the heap are values.  A
    Node that is part of a tree has [parsed = true] (Node.h:112-114, 123, Node.cpp:257); nodes that are being read lazily are
    in M_Object.  What a tree holds after an exception: M_Kept. *)
From Coq Require Import ZArith List Bool.
From Verif Require Import Base M_Types M_Conv M_Charset M_In S_Doc M_OutOps M_Env M_Event.
Import ListNotations.
Open Scope Z_scope.

(** Node.h:116-123: type, values, nodes *)
Inductive node : Type := mkNode (t : ty) (values : list (bytes * value)) (nodes : list (bytes * node)).
Definition n_type (n : node) : ty := let (t, _, _) := n in t.
Definition n_values (n : node) : list (bytes * value) := let (_, v, _) := n in v.
Definition n_nodes (n : node) : list (bytes * node) := let (_, _, s) := n in s.
Definition empty_node (t : ty) : node := mkNode t [] [].

(** an Srl::String: bytes and encoding (String.h) *)
(** String.h:17-50 *)
Definition sstr : Type := (bytes * enc)%type.

(** String.hpp:16-34, [this == a]; the conversion does not throw and yields nothing on malformed text *)
Definition str_eq (this a : sstr) : res bool :=
  if (zlen (fst this) =? 0) && (zlen (fst a) =? 0) then Ok true
  else if enc_eqb (snd a) (snd this) then Ok (bytes_eqb (fst this) (fst a))
  else let* tmp := conv_charset_vec (snd this) (snd a) (fst a) false in Ok (bytes_eqb (fst this) tmp).

(** Environment.cpp:36-48, Node.cpp:117-122: hash of the name in UTF-8 *)
Definition hash_string (s : sstr) : res Z := let* c := env_name (fst s) (snd s) in fnv1a c.
(** Environment.cpp:50-73: the interned name *)
Definition store_string (s : sstr) : res bytes :=
  if zlen (fst s) <? 1 then Ok [] else env_name (fst s) (snd s).

(** * Search (Node.cpp:37-138) *)

(** Node.cpp:46-47: compare<Name> *)
Definition cmp_name {A} (name : sstr) (l : bytes * A) : res bool := str_eq (fst l, EUTF8) name.
(** Node.cpp:49-54: compare<Hash | Name> *)
Definition cmp_hash_name {A} (h : Z) (name : sstr) (l : bytes * A) : res bool :=
  let* lh := fnv1a (fst l) in if lh =? h then cmp_name name l else Ok false.

(** Node.cpp:81-115 without Remove and Check_Duplicate (no caller sets the latter): position of the first match;
    [throw] = option Throw *)
Fixpoint find_loop {A} (cmp : A -> res bool) (i : nat) (l : list A) : res (option nat) :=
  match l with
  | [] => Ok None
  | x :: l' => let* b := cmp x in if b then Ok (Some i) else find_loop cmp (S i) l'
  end.
Definition find_link {A} (throw : bool) (cmp : A -> res bool) (l : list A) : res (option nat) :=
  let* r := find_loop cmp 0 l in
  match r with None => if throw then Err else Ok None | Some i => Ok (Some i) end.
(** list::erase *)
(** Node.cpp:67, 99, 335, 379 *)
Fixpoint erase {A} (i : nat) (l : list A) : list A :=
  match l, i with [], _ => [] | _ :: l', O => l' | x :: l', S i' => x :: erase i' l' end.
(** Node.cpp:81-115 with Remove *)
Definition remove_link {A} (cmp : A -> res bool) (l : list A) : res (list A) :=
  let* r := find_loop cmp 0 l in
  match r with None => Ok l | Some i => Ok (erase i l) end.
(** Node.cpp:59-79: [throw] = option Throw; a result of [None] is a null pointer *)
Definition link_at {A} (throw : bool) (i : Z) (l : list A) : res (option A) :=
  if (0 <=? i) && (i <? zlen l) then Ok (nth_error l (Z.to_nat i)) else if throw then Err else Ok None.
Definition remove_at {A} (i : Z) (l : list A) : list A :=
  if (0 <=? i) && (i <? zlen l) then erase (Z.to_nat i) l else l.
(** reading through the returned pointer *)
(** Node.cpp:166-230 *)
Definition deref {A} (o : option A) : res A := match o with Some a => Ok a | None => UB UbNull end.
(** Node.cpp:55-79 *)
Definition pick {A} (l : list A) (i : option nat) : option A := match i with None => None | Some i => nth_error l i end.

(** Node.cpp:166-182 [value(name)], [node(name)] *)
Definition lookup {A} (l : list (bytes * A)) (name : sstr) : res (bytes * A) :=
  let* h := hash_string name in
  let* i := find_link true (cmp_hash_name h name) l in deref (pick l i).
Definition value_named (n : node) (name : sstr) : res (bytes * value) := lookup (n_values n) name.
Definition node_named (n : node) (name : sstr) : res (bytes * node) := lookup (n_nodes n) name.
(** Node.cpp:185-195 *)
Definition value_at (n : node) (i : Z) : res (bytes * value) := let* l := link_at true i (n_values n) in deref l.
Definition node_at (n : node) (i : Z) : res (bytes * node) := let* l := link_at true i (n_nodes n) in deref l.

(** Union.h:18-27, 60-61: what a Union refers to *)
Inductive union : Type := UnNode (name : bytes) (n : node) | UnValue (name : bytes) (v : value).
(** Node.cpp:220-231 *)
Definition get_named (n : node) (name : sstr) : res union :=
  let* i := find_link false (cmp_name name) (n_values n) in
  match pick (n_values n) i with
  | Some (k, v) => Ok (UnValue k v)
  | None =>
      let* j := find_link true (cmp_name name) (n_nodes n) in
      let* s := deref (pick (n_nodes n) j) in Ok (UnNode (fst s) (snd s))
  end.
(** Node.cpp:233-244 *)
Definition get_at (n : node) (i : Z) : res union :=
  let* s := link_at false i (n_nodes n) in
  match s with
  | Some (k, c) => Ok (UnNode k c)
  | None => let* v := link_at false i (n_values n) in let* v := deref v in Ok (UnValue (fst v) (snd v))
  end.
(** Node.cpp:198-218: exceptions become "nothing", undefined behaviour does not *)
Definition attempt {A} (r : res A) : res (option A) :=
  match r with Ok a => Ok (Some a) | Err => Ok None | UB u => UB u | Fuel => Fuel end.
Definition try_get_named (n : node) (name : sstr) : res (option union) := attempt (get_named n name).
Definition try_get_at (n : node) (i : Z) : res (option union) := attempt (get_at n i).

(** Node.cpp:664-684 on a node that is parsed *)
Definition has_named {A} (l : list (bytes * A)) (name : sstr) : res bool :=
  let* i := find_link false (cmp_name name) l in Ok (match i with Some _ => true | None => false end).
Definition has_value (n : node) (name : sstr) : res bool := has_named (n_values n) name.
Definition has_node (n : node) (name : sstr) : res bool := has_named (n_nodes n) name.
(** Node.hpp:203-211 *)
Definition num_values (n : node) : Z := zlen (n_values n).
Definition num_nodes (n : node) : Z := zlen (n_nodes n).

(** * Inserting (not while an object is being stored) *)

(** Environment.cpp:75-84, 133-143 *)
Definition store_value (n : node) (v : value) (name : sstr) : res node :=
  let* k := store_string name in Ok (mkNode (n_type n) (n_values n ++ [(k, v)]) (n_nodes n)).
(** Environment.cpp:119-122: a node of the same tree is copied *)
Definition store_node (n c : node) (name : sstr) : res node :=
  let* k := store_string name in Ok (mkNode (n_type n) (n_values n) (n_nodes n ++ [(k, c)])).
(** Environment.cpp:107-117: a node of another tree is rebuilt in this one *)
Fixpoint rebuild (c : node) : res node :=
  let (t, vs, ns) := c in
  let* n1 := (fix go (l : list (bytes * node)) (acc : node) : res node :=
                match l with
                | [] => Ok acc
                | (k, s) :: l' => let* s' := rebuild s in let* acc' := store_node acc s' (k, EUTF8) in go l' acc'
                end) ns (empty_node t) in
  (fix go (l : list (bytes * value)) (acc : node) : res node :=
     match l with
     | [] => Ok acc
     | (k, v) :: l' => let* acc' := store_value acc v (k, EUTF8) in go l' acc'
     end) vs n1.
Definition store_foreign (n c : node) (name : sstr) : res node := let* c' := rebuild c in store_node n c' name.

(** * Removing (Node.cpp:634-662); a pointer to an item of the list is its position *)
Definition remove_value_named (n : node) (name : sstr) : res node :=
  let* l := remove_link (cmp_name name) (n_values n) in Ok (mkNode (n_type n) l (n_nodes n)).
Definition remove_node_named (n : node) (name : sstr) : res node :=
  let* l := remove_link (cmp_name name) (n_nodes n) in Ok (mkNode (n_type n) (n_values n) l).
Definition remove_value_at (n : node) (i : Z) : node := mkNode (n_type n) (remove_at i (n_values n)) (n_nodes n).
Definition remove_node_at (n : node) (i : Z) : node := mkNode (n_type n) (n_values n) (remove_at i (n_nodes n)).

(** * Traversal (Node.cpp:561-632).  The callback sees references; a reference is the path of positions that leads to
    the item, so the order of calls is the list of those paths (with the items). *)
Definition path : Type := list nat.
(** foreach_node *)
(** Node.cpp:561-571 *)
Fixpoint each_node (recursive : bool) (n : node) : list (path * (bytes * node)) :=
  let (_, _, ns) := n in
  (fix go (i : nat) (l : list (bytes * node)) : list (path * (bytes * node)) :=
     match l with
     | [] => []
     | (k, c) :: l' =>
         ([i], (k, c)) :: (if recursive then map (fun q => (i :: fst q, snd q)) (each_node recursive c) else []) ++ go (S i) l'
     end) O ns.
(** the values of one node, each with the path of the node and its position *)
(** Node.cpp:573-578 *)
Definition own_values (p : path) (n : node) : list (path * nat * (bytes * value)) :=
  combine (map (fun i => (p, i)) (seq 0 (length (n_values n)))) (n_values n).
(** foreach_value *)
(** Node.cpp:573-584 *)
Definition each_value (recursive : bool) (n : node) : list (path * nat * (bytes * value)) :=
  own_values [] n ++ (if recursive then flat_map (fun q => own_values (fst q) (snd (snd q))) (each_node true n) else []).
(** find_nodes / find_values; the comparison does not throw *)
(** Node.cpp:590-594, 603-607 *)
Fixpoint filter_res {A} (f : A -> res bool) (l : list A) : res (list A) :=
  match l with
  | [] => Ok []
  | x :: l' => let* b := f x in let* r := filter_res f l' in Ok (if b then x :: r else r)
  end.
(** Node.cpp:586-597 *)
Definition find_nodes (recursive : bool) (n : node) (name : sstr) : res (list (path * (bytes * node))) :=
  filter_res (fun q => cmp_name name (snd q)) (each_node recursive n).
(** Node.cpp:599-610 *)
Definition find_values (recursive : bool) (n : node) (name : sstr) : res (list (path * nat * (bytes * value))) :=
  filter_res (fun q => cmp_name name (snd q)) (each_value recursive n).

(** * Saving (Node.cpp:496-512); the events handed to Environment::write *)
Fixpoint node_events (name : bytes) (n : node) : list event :=
  let (t, vs, ns) := n in
  (name, val_type t) :: vs ++
  (fix go (l : list (bytes * node)) : list event := match l with [] => [] | (k, c) :: l' => node_events k c ++ go l' end) ns ++
  [(name, val_type TScopeEnd)].
(** Node::to_source of a node whose name pointer is set or not (Node.h:120, Node.cpp:511 dereferences it) *)
Definition to_source_events (name_ptr : option bytes) (n : node) : res (list event) :=
  match name_ptr with Some k => Ok (node_events k n) | None => UB UbNull end.

(** * Loading *)

(** a program that asks the parser for one event after the other *)
(** Node.cpp:246-277, 329-535: the calls of parser->read *)
Inductive eprog (R : Type) : Type :=
| ERet (r : R) | EThrow | EUndef (u : ub) | EFuel | ERead (k : event -> eprog R).
Arguments ERet {R} r. Arguments EThrow {R}. Arguments EUndef {R} u. Arguments EFuel {R}. Arguments ERead {R} k.
(** Node.cpp:246-277: statements one after the other *)
Fixpoint ebind {A B} (p : eprog A) (f : A -> eprog B) : eprog B :=
  match p with
  | ERet a => f a | EThrow => EThrow | EUndef u => EUndef u | EFuel => EFuel
  | ERead k => ERead (fun e => ebind (k e) f)
  end.
(** Node.cpp:246-277: statements that do not read *)
Definition elift {A} (r : res A) : eprog A :=
  match r with Ok a => ERet a | Err => EThrow | UB u => EUndef u | Fuel => EFuel end.
(** with the reader of a format, a program on its input *)
(** Parser.h:19: read of the parser that is used *)
Fixpoint ecomp {St R} (rd : St -> prog (St * event)) (p : eprog R) (st : St) : prog (St * R) :=
  match p with
  | ERet r => Ret (st, r) | EThrow => Throw | EUndef u => Undef u | EFuel => OutOfFuel
  | ERead k => let! (st', e) := rd st in ecomp rd (k e) st'
  end.
(** on a list of events; [None]: they do not suffice *)
(** Parser.h:19, Node.cpp:254 *)
Fixpoint erun {R} (p : eprog R) (es : list event) : option (res (R * list event)) :=
  match p with
  | ERet r => Some (Ok (r, es)) | EThrow => Some Err | EUndef u => Some (UB u) | EFuel => Some Fuel
  | ERead k => match es with [] => None | e :: es' => erun (k e) es' end
  end.

(** Node.cpp:10 *)
Definition max_depth : Z := 128.
(** Node.cpp:246-277; [fuel] bounds the number of events *)
Fixpoint read_source (fuel : nat) (depth : Z) (n : node) : eprog node :=
  match fuel with
  | O => EFuel
  | S f =>
      ERead (fun e =>
        let (name, v) := e in
        if ty_eqb (v_type v) TScopeEnd then ERet n
        else if negb (is_scope (v_type v)) then
          ebind (elift (store_value n v (name, EUTF8))) (read_source f depth)
        else if max_depth <? depth + 1 then EThrow
        else ebind (read_source f (depth + 1) (empty_node (v_type v))) (fun c =>
             ebind (elift (store_node n c (name, EUTF8))) (read_source f depth)))
  end.
(** Tree.cpp:30-50, 71-75: name and content of the root *)
Definition load_prog (fuel : nat) : eprog (bytes * node) :=
  ERead (fun e =>
    let (name, v) := e in
    if negb (is_scope (v_type v)) then EThrow
    else ebind (read_source fuel 0 (empty_node (v_type v))) (fun n => ERet (name, n))).
