(** Specification of a finite map, and the operations of a client. *)
From Coq Require Import ZArith List Bool.
From Verif Require Import Base M_HTable.
Import ListNotations.

Section Map.
Context {K V : Type}.
Variable keq : K -> K -> bool.

Inductive mop : Type :=
| MGet (k : K) | MInsert (k : K) (v : V) | MUpsert (k : K) (v : V) | MRemove (k : K) | MExtract (k : K)
| MRemoveIf (p : K -> V -> bool) | MClear | MSize.
(** what the client sees *)
Inductive mout : Type := OVal (o : option V) | OIns (existed : bool) (v : V) | ONone | OSize (n : Z).

(** a finite map is a list of bindings, one per key *)
Fixpoint lookup (m : list (K * V)) (k : K) : option V :=
  match m with
  | [] => None
  | (k', v) :: r => if keq k' k then Some v else lookup r k
  end.
Definition without (m : list (K * V)) (k : K) : list (K * V) := filter (fun x => negb (keq (fst x) k)) m.

Definition spec_step (m : list (K * V)) (op : mop) : list (K * V) * mout :=
  match op with
  | MGet k => (m, OVal (lookup m k))
  | MInsert k v => match lookup m k with Some v' => (m, OIns true v') | None => ((k, v) :: m, OIns false v) end
  | MUpsert k v => match lookup m k with Some _ => ((k, v) :: without m k, OIns true v) | None => ((k, v) :: m, OIns false v) end
  | MRemove k => (without m k, ONone)
  | MExtract k => (without m k, OVal (lookup m k))
  | MRemoveIf p => (filter (fun x => negb (p (fst x) (snd x))) m, ONone)
  | MClear => ([], ONone)
  | MSize => (m, OSize (Z.of_nat (length m)))
  end.
Fixpoint spec_map (m : list (K * V)) (ops : list mop) : list (K * V) * list mout :=
  match ops with
  | [] => (m, [])
  | op :: r => let (m1, o) := spec_step m op in let (m2, os) := spec_map m1 r in (m2, o :: os)
  end.

(** the same operations on the table *)
Variable hash : K -> Z.
Variable lf : Z -> Z.
Definition table_step (t : htab K V) (op : mop) : res (htab K V * mout) :=
  match op with
  | MGet k => let* v := ht_get keq hash t k in Ok (t, OVal v)
  | MInsert k v => let* (r, t1) := ht_insert keq hash lf t k v in Ok (t1, OIns (fst r) (snd r))
  | MUpsert k v => let* (r, t1) := ht_upsert keq hash lf t k v in Ok (t1, OIns (fst r) (snd r))
  | MRemove k => let* t1 := ht_remove keq hash t k in Ok (t1, ONone)
  | MExtract k => let* (v, t1) := ht_extract keq hash t k in Ok (t1, OVal v)
  | MRemoveIf p => let* t1 := ht_remove_if t p in Ok (t1, ONone)
  | MClear => Ok (ht_clear t, ONone)
  | MSize => Ok (t, OSize (t_elems t))
  end.
Fixpoint table_run (t : htab K V) (ops : list mop) : res (htab K V * list mout) :=
  match ops with
  | [] => Ok (t, [])
  | op :: r => let* (t1, o) := table_step t op in let* (t2, os) := table_run t1 r in Ok (t2, o :: os)
  end.
End Map.
Arguments mop : clear implicits.
Arguments mout : clear implicits.

(** a visit that stops after the first binding for which [stop] holds *)
Fixpoint visited {A} (stop : A -> bool) (l : list A) : list A :=
  match l with [] => [] | x :: r => if stop x then [x] else x :: visited stop r end.
