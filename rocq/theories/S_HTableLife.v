(** Specification of the lifetime of the objects held by a container. *)
From Coq Require Import ZArith List Bool Permutation.
From Verif Require Import Base M_HTable S_HTable M_HTableLife.
Import ListNotations.

Section Life.
Context {K V : Type}.

(** [history alive h alive']: in the order of [h] every object destroyed is alive at that moment; objects alive before
    and after *)
Inductive history : list (obj K V) -> list (event K V) -> list (obj K V) -> Prop :=
| h_end : forall L L', Permutation L L' -> history L [] L'
| h_made : forall L x h L', history (x :: L) h L' -> history L (Made x :: h) L'
| h_gone : forall L x L1 h L', Permutation L (x :: L1) -> history L1 h L' -> history L (Gone x :: h) L'.

(** the objects of a finite map *)
Definition objects (m : list (K * V)) : list (obj K V) := flat_map (fun x => [TKey (fst x); TVal (snd x)]) m.

(** the objects constructed in a history *)
Fixpoint constructed (h : list (event K V)) : list (obj K V) :=
  match h with [] => [] | Made x :: r => x :: constructed r | Gone _ :: r => constructed r end.

(** what a client of a map expects to be constructed: an insertion of a new key its key and value, an update the
    value only, an insertion of a key that is there nothing *)
Variable keq : K -> K -> bool.
Definition expected (m : list (K * V)) (op : mop K V) : list (obj K V) :=
  match op with
  | MInsert k v => match lookup keq m k with Some _ => [] | None => [TKey k; TVal v] end
  | MUpsert k v => match lookup keq m k with Some _ => [TVal v] | None => [TKey k; TVal v] end
  | _ => []
  end.
Fixpoint expected_run (m : list (K * V)) (ops : list (mop K V)) : list (obj K V) :=
  match ops with [] => [] | op :: r => expected m op ++ expected_run (fst (spec_step keq m op)) r end.
End Life.
