(** Model of Tree objects as objects: construction, moves, destruction, the environment they own and its pointer back to the tree
    (include/Srl/Tree.h:21-29, 76-79, src/lib/Tree.cpp:8-28, 85-91, 105-136, include/Srl/Environment.h:45-47,
    include/Srl/Node.h:112-114).  Definitions only. *)
From Coq Require Import ZArith List Bool Arith.
From Verif Require Import Base M_Types M_Tree.
Import ListNotations.
Open Scope nat_scope.

(** Tree.h:77-79: env, root_node.  A pointer to an environment is its number; [o_root]: number of the environment whose heap holds the
    node that root_node points to *)
Record tobj : Type := mkTobj { o_env : option nat; o_root : option nat }.
(** Environment.h:47-49: the address of the tree, and the root it holds *)
Record envo : Type := mkEnvo { en_tree : nat; en_root : node }.
(** the trees there are, by address; the environments there are; numbers from [s_next] on are unused *)
(** Tree.h:77-79, Environment.h:45-47 *)
Record tstate : Type := mkTst { s_trees : nat -> option tobj; s_envs : nat -> option envo; s_next : nat }.
(** no tree was constructed, Tree.h:21-29 *)
Definition tstate0 : tstate := mkTst (fun _ => None) (fun _ => None) 0.
(** Tree.cpp:13-23: an assignment *)
Definition put {A} (m : nat -> A) (i : nat) (a : A) : nat -> A := fun j => if j =? i then a else m j.
(** Tree.h:77-79 *)
Definition set_tree (st : tstate) (a : nat) (t : option tobj) : tstate := mkTst (put (s_trees st) a t) (s_envs st) (s_next st).
(** Environment.h:45-47 *)
Definition set_env (st : tstate) (e : nat) (v : option envo) : tstate := mkTst (s_trees st) (put (s_envs st) e v) (s_next st).

(** Tree.cpp:117-127 *)
Definition create_env (st : tstate) (a : nat) (tp : ty) : tstate :=
  let e := s_next st in
  mkTst (put (s_trees st) a (Some (mkTobj (Some e) (Some e))))
        (put (s_envs st) e (Some (mkEnvo a (empty_node (if ty_eqb tp TArray then TArray else TObject))))) (S e).
(** ~unique_ptr, or the old value of a unique_ptr that is assigned to *)
(** Tree.h:77: unique_ptr<Environment> *)
Definition drop_env (st : tstate) (e : option nat) : tstate := match e with None => st | Some e => set_env st e None end.
(** Tree.cpp:13-23: [a] = std::move([b]); both exist.  In the order of the code; assigning a unique_ptr to itself changes nothing *)
Definition move_tree (st : tstate) (a b : nat) : res tstate :=
  match s_trees st a, s_trees st b with
  | Some ta, Some tb =>
      let st1 := set_tree st a (Some (mkTobj (o_env ta) (o_root tb))) in
      let st2 := if a =? b then st1
                 else drop_env (set_tree (set_tree st1 b (Some (mkTobj None (o_root tb)))) a (Some (mkTobj (o_env tb) (o_root tb)))) (o_env ta) in
      let* st3 := match s_trees st2 a with
                  | Some (mkTobj (Some e) _) =>
                      match s_envs st2 e with Some v => Ok (set_env st2 e (Some (mkEnvo a (en_root v)))) | None => UB UbDangling end
                  | _ => Ok st2
                  end in
      match s_trees st3 b with Some t => Ok (set_tree st3 b (Some (mkTobj (o_env t) None))) | None => UB UbDangling end
  | _, _ => UB UbDangling
  end.
(** Tree.cpp:85-91 root(): the environment, and the state *)
Definition tree_root (st : tstate) (a : nat) : res (nat * tstate) :=
  match s_trees st a with
  | None => UB UbDangling
  | Some t =>
      let st1 := match o_env t with None => create_env st a TObject | Some _ => st end in
      match s_trees st1 a with
      | Some (mkTobj _ (Some e)) => Ok (e, st1)
      | _ => UB UbNull
      end
  end.
(** something done with the root: reading, inserting, removing, saving.  New nodes are made by way of Environment::tree and
    Tree::get_env (Node.h:112-114, Environment.cpp:108, 127, Node.cpp:163, 272).  Simplifications: every use does that, and if
    that tree has another environment this is taken to be undefined (its nodes would be in another heap). *)
Definition use_root (st : tstate) (a : nat) (f : node -> res node) : res tstate :=
  let* (e, st1) := tree_root st a in
  match s_envs st1 e with
  | None => UB UbDangling
  | Some v =>
      match s_trees st1 (en_tree v) with
      | None => UB UbDangling
      | Some t =>
          match o_env t with
          | Some e' => if e' =? e then let* n := f (en_root v) in Ok (set_env st1 e (Some (mkEnvo (en_tree v) n))) else UB UbHeap
          | None => UB UbHeap
          end
      end
  end.
(** what a program does with trees; [DNew]: Tree(), [DNewType]: Tree(tp), [DCtor a b]: Tree a(std::move(b)), [DMove a b]: a = std::move(b),
    [DSwap a b]: std::swap, through a tree of its own at the address [c], [DEnd]: destructor, [DUse]: the root is used, [DClear]: Tree::clear, [DLoad a f]: load_source
    ([f]: the root that is there afterwards, from the kind of root before) *)
(** Tree.h:21-60 *)
Inductive deed : Type :=
| DNew (a : nat) | DNewType (a : nat) (tp : ty) | DCtor (a b : nat) | DMove (a b : nat) | DSwap (a b c : nat) | DEnd (a : nat)
| DUse (a : nat) (f : node -> res node) | DClear (a : nat) | DLoad (a : nat) (f : ty -> node).
(** the address is free: the caller's business *)
Definition do_deed (st : tstate) (d : deed) : res tstate :=
  match d with
  | DNew a => Ok (set_tree st a (Some (mkTobj None None)))
  | DNewType a tp => Ok (create_env st a tp)
  | DCtor a b => move_tree (set_tree st a (Some (mkTobj None None))) a b
  | DMove a b => move_tree st a b
  | DSwap a b c =>
      let* st1 := move_tree (set_tree st c (Some (mkTobj None None))) c a in
      let* st2 := move_tree st1 a b in
      let* st3 := move_tree st2 b c in
      match s_trees st3 c with Some t => Ok (set_tree (drop_env st3 (o_env t)) c None) | None => UB UbDangling end
  | DEnd a =>
      match s_trees st a with Some t => Ok (set_tree (drop_env st (o_env t)) a None) | None => UB UbDangling end
  | DUse a f => use_root st a f
  | DClear a => (* Tree.cpp:105-115 *)
      match s_trees st a with
      | None => UB UbDangling
      | Some (mkTobj None _) => Ok st
      | Some (mkTobj (Some e) _) => use_root st a (fun n => Ok (empty_node (n_type n)))
      end
  | DLoad a f => (* Tree.cpp:30-50, 71-75 *)
      use_root st a (fun n => Ok (f (n_type n)))
  end.
(** Tree.h:21-60 *)
Fixpoint do_deeds (st : tstate) (ds : list deed) : res tstate :=
  match ds with [] => Ok st | d :: ds' => let* st' := do_deed st d in do_deeds st' ds' end.
(** what a tree shows: its root, or nothing if it has none *)
(** Tree.cpp:85-91 *)
Definition shows (st : tstate) (a : nat) : option (option node) :=
  match s_trees st a with
  | None => None
  | Some (mkTobj None _) => Some None
  | Some (mkTobj (Some e) _) => match s_envs st e with Some v => Some (Some (en_root v)) | None => None end
  end.
