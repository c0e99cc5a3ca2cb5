(** Unwrapping from a tree from which objects were unwrapped before. *)
From Coq Require Import ZArith List Bool.
From Verif Require Import Base M_Types M_Conv M_TpTools M_In S_Doc M_Tree M_Object S_ObjSafe.
Import ListNotations.
Open Scope Z_scope.

(** no part of an object of this type is a shared or weak pointer *)
Definition unshared (w : world) (t : ct) : Prop := forall e, ~ part w t (CShared e) /\ ~ part w t (CWeak e).

(** somewhere in the tree is a shared object with this key *)
Inductive key_in (w : world) (k : Z) : node -> Prop :=
| ki_here t vs ns v : In (str_shared_key, v) vs -> paste_value w (CNum TUI64) (VNum 0) v = Ok (VNum k) -> key_in w k (mkNode t vs ns)
| ki_below t vs ns q : In q ns -> key_in w k (snd q) -> key_in w k (mkNode t vs ns).
(** the keys of the tree are not those of the objects unwrapped before *)
Definition new_keys (w : world) (s : rstate) (n : node) : Prop := forall k, key_in w k n -> find_key k (r_tab s) = None.
(** no shared object contains one that has the same key *)
Inductive keys_apart (w : world) : node -> Prop :=
| ka_node t vs ns : Forall (fun q : bytes * node => keys_apart w (snd q)) ns ->
    (forall v k, In (str_shared_key, v) vs -> paste_value w (CNum TUI64) (VNum 0) v = Ok (VNum k) -> Forall (fun q : bytes * node => ~ key_in w k (snd q)) ns) ->
    keys_apart w (mkNode t vs ns).

(** an object that refers to shared objects, [d] places further on in memory *)
Fixpoint moved (d : nat) (v : cv) : cv :=
  match v with
  | VNum n => VNum n
  | VStr s => VStr s
  | VList l => VList (map (moved d) l)
  | VMap l => VMap (map (fun q => (moved d (fst q), moved d (snd q))) l)
  | VTab l => VTab (map (fun q => (fst q, moved d (snd q))) l)
  | VNone => VNone
  | VSome x => VSome (moved d x)
  | VRef a => VRef (d + a)
  | VPoly c l => VPoly c (map (moved d) l)
  end.
(** the shared objects of [s], and behind them those of [s1] *)
Definition behind (s s1 : rstate) : rstate :=
  let d := length (r_heap s) in
  mkRs (r_heap s ++ map (fun q => (fst q, moved d (snd q))) (r_heap s1)) (map (fun q => (fst q, (d + snd q)%nat)) (r_tab s1) ++ r_tab s).
(** objects fresh from their constructors refer to nothing; the order of sets and maps does not look at addresses *)
Definition no_pointers (v : cv) : Prop := forall d, moved d v = v.
Definition address_free (w : world) : Prop := (forall t, no_pointers (w_new w t)) /\ (forall d a b, w_lt w (moved d a) (moved d b) = w_lt w a b).
(** the table and the shared objects of [s] are still there in [s'] *)
Definition later (s s' : rstate) : Prop :=
  (forall k a, find_key k (r_tab s) = Some a -> find_key k (r_tab s') = Some a) /\ (forall a q, nth_error (r_heap s) a = Some q -> nth_error (r_heap s') a = Some q).
