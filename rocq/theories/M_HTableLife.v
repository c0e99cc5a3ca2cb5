(** Model of the lifetime of the keys and values of Lib::HTable (include/Srl/Hash.h, include/Srl/Hash.hpp).
    Definitions only.

    Every operation of M_HTable.v is accompanied by the list of constructor and destructor calls it makes on keys and
    values stored in the table.  Simplifications: keys and values have destructors (for trivially destructible types
    destroy_item and destroy_all are empty, Hash.h:120-150); constructors do not throw; the object that extract
    returns belongs to the caller and is not counted. *)
From Coq Require Import ZArith List Bool.
From Verif Require Import Base M_HTable S_HTable.
Import ListNotations.
Open Scope Z_scope.

Section Life.
Context {K V : Type}.
Variable keq : K -> K -> bool.
Variable hash : K -> Z.
Variable lf : Z -> Z.

(** Hash.h:96-105: the two objects of an entry *)
Inductive obj : Type := TKey (k : K) | TVal (v : V).
(** Hash.hpp:180-181, 198-200, 362-367: placement new and explicit destructor calls *)
Inductive event : Type := Made (x : obj) | Gone (x : obj).

(** Hash.hpp:160-213: the objects insert_hash constructs and destroys *)
Definition insert_life (t : htab K V) (h : Z) (update : bool) (k : K) (v : V) : res (list event) :=
  let* t1 := if (t_limit t <? 1) || (t_limit t <=? t_elems t) then redistribute lf t else Ok t in
  let* p := slot t1 (get_bucket (t_cap t1) h) in
  let* (f, _) := ht_find keq (fuel_of t1) (t_mem t1) p None h k in
  match f with
  | Some a =>
      let* e := rd (t_mem t1) a in
      if update then Ok [Gone (TVal (e_val e)); Made (TVal v)] else Ok []
  | None => Ok [Made (TKey k); Made (TVal v)]
  end.

(** Hash.hpp:329-361: destroy_item<Entry>, which destroys the members in reverse order *)
Definition remove_life (t : htab K V) (k : K) : res (list event) :=
  let* (f, t1) := get_rm keq t k (hash k) in
  match f with
  | Some a => let* e := rd (t_mem t1) a in Ok [Gone (TVal (e_val e)); Gone (TKey (e_key e))]
  | None => Ok []
  end.

(** Hash.hpp:294-317: one chain of remove_if *)
Fixpoint rm_chain_life (fuel : nat) (t : htab K V) (i : Z) (p prev : option nat) (rm : K -> V -> bool) (n nd : Z)
  : res (htab K V * Z * Z * list event) :=
  match fuel with
  | O => Fuel
  | S f =>
      match p with
      | None => Ok (t, n, nd, [])
      | Some a =>
          let* e := rd (t_mem t) a in
          if rm (e_key e) (e_val e) then
            let* t1 := match prev with
                       | Some q => let* m := set_next (t_mem t) q (e_next e) in Ok (set_mem t m)
                       | None => Ok (set_slot t i (e_next e))
                       end in
            let t2 := mkHtab (t_cap t1) (t_limit t1) (t_elems t1) (t_table t1) (t_cache t1 ++ [a]) (t_mem t1) (t_alive t1) in
            let* (r, evs) := rm_chain_life f t2 i (e_next e) prev rm (n + 1) (nd + 1) in
            Ok (r, Gone (TKey (e_key e)) :: Gone (TVal (e_val e)) :: evs)
          else rm_chain_life f t i (e_next e) (Some a) rm (n + 1) nd
      end
  end.
(** Hash.hpp:289-323 *)
Fixpoint rm_loop_life (fuel : nat) (t : htab K V) (i n nd : Z) (rm : K -> V -> bool) : res (htab K V * Z * list event) :=
  match fuel with
  | O => Fuel
  | S f =>
      if t_cap t <=? i then Ok (t, nd, [])
      else
        let* p := slot t i in
        let* (r, evs) := rm_chain_life (fuel_of t) t i p None rm n nd in
        let '(t1, n1, nd1) := r in
        if t_elems t1 <=? n1 then Ok (t1, nd1, evs)
        else let* (r2, evs2) := rm_loop_life f t1 (i + 1) n1 nd1 rm in Ok (r2, evs ++ evs2)
  end.
(** Hash.hpp:279-327 *)
Definition remove_if_life (t : htab K V) (rm : K -> V -> bool) : res (htab K V * list event) :=
  if t_elems t <? 1 then Ok (t, [])
  else
    let* (r, evs) := rm_loop_life (S (Z.to_nat (t_cap t))) t 0 0 0 rm in
    let '(t1, nd) := r in
    Ok (mkHtab (t_cap t1) (t_limit t1) (t_elems t1 - nd) (t_table t1) (t_cache t1) (t_mem t1) (t_alive t1), evs).

(** Hash.hpp:376-380: the callback of destroy_all *)
Definition destroy_entry (x : K * V) : list event := [Gone (TKey (fst x)); Gone (TVal (snd x))].
(** Hash.hpp:369-381, Hash.h:50: destroy_all, the destructor *)
Definition destroy_all (t : htab K V) : res (list event) :=
  let* l := ht_foreach t in Ok (flat_map destroy_entry l).

(** Hash.hpp:215-227 *)
Definition clear_life (t : htab K V) : res (list event) :=
  if t_elems t <? 1 then Ok [] else destroy_all t.

(** one operation of a client, Hash.h:52-80 *)
Definition life_step (t : htab K V) (op : mop K V) : res (htab K V * list event) :=
  match op with
  | MGet k => let* _ := ht_get keq hash t k in Ok (t, [])
  | MInsert k v => let* evs := insert_life t (hash k) false k v in let* (_, t1) := ht_insert keq hash lf t k v in Ok (t1, evs)
  | MUpsert k v => let* evs := insert_life t (hash k) true k v in let* (_, t1) := ht_upsert keq hash lf t k v in Ok (t1, evs)
  | MRemove k => let* evs := remove_life t k in let* t1 := ht_remove keq hash t k in Ok (t1, evs)
  | MExtract k => let* evs := remove_life t k in let* (_, t1) := ht_extract keq hash t k in Ok (t1, evs)
  | MRemoveIf p => remove_if_life t p
  | MClear => let* evs := clear_life t in Ok (ht_clear t, evs)
  | MSize => Ok (t, [])
  end.
(** Hash.h:52-80 *)
Fixpoint life_run (t : htab K V) (ops : list (mop K V)) : res (htab K V * list event) :=
  match ops with
  | [] => Ok (t, [])
  | op :: r => let* (t1, e1) := life_step t op in let* (t2, e2) := life_run t1 r in Ok (t2, e1 ++ e2)
  end.

(** Hash.hpp:11-29: dst = std::move(src): destination, source afterwards, destructor calls *)
Definition assign_life (dst src : htab K V) : res (htab K V * htab K V * list event) :=
  let* evs := destroy_all dst in
  let (d, s) := ht_move src in Ok (d, s, evs).
End Life.
Arguments obj : clear implicits.
Arguments event : clear implicits.
