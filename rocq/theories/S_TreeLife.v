(** Specification vocabulary: trees as values.  A variable holds a tree, which is a root or nothing; moving hands it over. *)
From Coq Require Import ZArith List Bool Arith.
From Verif Require Import Base M_Types M_Tree M_TreeLife.
Import ListNotations.
Open Scope nat_scope.

(** the variables there are and what they hold *)
Definition vars : Type := nat -> option (option node).
Definition assign (v : vars) (a : nat) (x : option (option node)) : vars := fun b => if Nat.eqb b a then x else v b.
Definition no_content : node := empty_node TObject.
Definition the_root (x : option node) : node := match x with Some n => n | None => no_content end.
(** trees are values; nothing else is undefined than what the user's function does *)
Definition value_deed (v : vars) (d : deed) : res vars :=
  match d with
  | DNew a => Ok (assign v a (Some None))
  | DNewType a tp => Ok (assign v a (Some (Some (empty_node (if ty_eqb tp TArray then TArray else TObject)))))
  | DCtor a b | DMove a b => match v b with Some x => Ok (assign (assign v a (Some x)) b (Some None)) | None => UB UbDangling end
  | DSwap a b c => match v a, v b with Some x, Some y => Ok (assign (assign (assign v a (Some y)) b (Some x)) c None) | _, _ => UB UbDangling end
  | DEnd a => Ok (assign v a None)
  | DUse a f => match v a with Some x => let* n := f (the_root x) in Ok (assign v a (Some (Some n))) | None => UB UbDangling end
  | DClear a => match v a with Some (Some n) => Ok (assign v a (Some (Some (empty_node (n_type n))))) | Some None => Ok v | None => UB UbDangling end
  | DLoad a f => match v a with Some x => Ok (assign v a (Some (Some (f (n_type (the_root x)))))) | None => UB UbDangling end
  end.
Fixpoint value_deeds (v : vars) (ds : list deed) : res vars :=
  match ds with [] => Ok v | d :: ds' => let* v' := value_deed v d in value_deeds v' ds' end.
(** a C++ program can do this: variables are made at free addresses and used while they exist; nothing is moved to itself *)
Definition allowed (v : vars) (d : deed) : Prop :=
  match d with
  | DNew a | DNewType a _ => v a = None
  | DCtor a b => v a = None /\ v b <> None
  | DMove a b => v a <> None /\ v b <> None /\ a <> b
  | DSwap a b c => v a <> None /\ v b <> None /\ a <> b /\ v c = None
  | DEnd a | DUse a _ | DClear a | DLoad a _ => v a <> None
  end.
Fixpoint proper (v : vars) (ds : list deed) : Prop :=
  match ds with
  | [] => True
  | d :: ds' => allowed v d /\ match value_deed v d with Ok v' => proper v' ds' | _ => True end
  end.
