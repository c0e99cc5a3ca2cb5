(** Model of Lib::HTable (include/Srl/Hash.h, include/Srl/Hash.hpp).  Definitions only.

    Entries live at addresses (positions of a list) and are linked by their [next] pointers.  Simplifications: a new
    entry gets an address never used before unless it comes from mem_cache (that blocks of the allocator do not overlap
    is C49); the load factor is an arbitrary function [lf] with [lf c = (size_t)(c * load_factor)]; the capacity
    does not reach 2^32 (the loops of foreach_break and remove_if count in 32 bits); destructors and constructors of keys and values do nothing else. *)
From Coq Require Import ZArith List Bool.
From Verif Require Import Base.
Import ListNotations.
Open Scope Z_scope.

Section HTable.
Context {K V : Type}.
Variable keq : K -> K -> bool.   (* operator== of the key *)
Variable hash : K -> Z.          (* hash_fnc *)
Variable lf : Z -> Z.

(** Hash.h:96-105 *)
Record entry : Type := mkEntry { e_hash : Z; e_next : option nat; e_key : K; e_val : V }.
(** Hash.h:107-117.  [t_alive]: the memory behind [t_table] has not been given back (C48) *)
Record htab : Type := mkHtab {
  t_cap : Z; t_limit : Z; t_elems : Z; t_table : option (list (option nat)); t_cache : list nat;
  t_mem : list entry; t_alive : bool }.

(** Hash.h:47-48 *)
Definition ht_new (buckets : Z) : htab := mkHtab buckets 0 0 None [] [] true.

(** Hash.hpp:31-39 *)
Definition get_bucket (cap h : Z) : Z :=
  (if cap <=? 4294967295 then Z.lxor h (Z.shiftr h 32) else h) mod cap.

Definition rd (mem : list entry) (a : nat) : res entry :=
  match nth_error mem a with Some e => Ok e | None => UB UbDangling end.
Fixpoint upd {A} (i : nat) (x : A) (l : list A) : list A :=
  match l, i with [], _ => [] | _ :: l', O => x :: l' | y :: l', S i' => y :: upd i' x l' end.
(** entry->next = p *)
(** Hash.hpp:63-90, 126-141, 205, 304-306 *)
Definition set_next (mem : list entry) (a : nat) (p : option nat) : res (list entry) :=
  let* e := rd mem a in Ok (upd a (mkEntry (e_hash e) p (e_key e) (e_val e)) mem).
(** table[b] *)
(** Hash.hpp:103, 126, 173, 259 *)
Definition slot (t : htab) (b : Z) : res (option nat) :=
  match t_table t with
  | None => UB UbNull
  | Some tb =>
      if negb (t_alive t) then UB UbDangling
      else match nth_error tb (Z.to_nat b) with Some p => Ok p | None => UB UbOob end
  end.
(** table[b] = p *)
(** Hash.hpp:63-90, 126-141, 205, 304-306 *)
Definition set_slot (t : htab) (b : Z) (p : option nat) : htab :=
  mkHtab (t_cap t) (t_limit t) (t_elems t)
         (match t_table t with Some tb => Some (upd (Z.to_nat b) p tb) | None => None end) (t_cache t) (t_mem t) (t_alive t).
(** Hash.hpp:190-208 *)
Definition set_mem (t : htab) (m : list entry) : htab :=
  mkHtab (t_cap t) (t_limit t) (t_elems t) (t_table t) (t_cache t) m (t_alive t).

(** The search loop of get, get_rm and insert_hash (Hash.hpp:103-110, 126-141, 173-188): entry found or not, and the
    entry before it *)
Fixpoint ht_find (fuel : nat) (mem : list entry) (p prev : option nat) (h : Z) (k : K) : res (option nat * option nat) :=
  match fuel with
  | O => Fuel
  | S f =>
      match p with
      | None => Ok (None, prev)
      | Some a =>
          let* e := rd mem a in
          if (e_hash e =? h) && keq (e_key e) k then Ok (Some a, prev)
          else ht_find f mem (e_next e) (Some a) h k
      end
  end.
Definition fuel_of (t : htab) : nat := S (length (t_mem t)).

(** Hash.hpp:92-113 *)
Definition ht_get (t : htab) (k : K) : res (option V) :=
  if t_elems t <? 1 then Ok None
  else
    let h := hash k in
    let* p := slot t (get_bucket (t_cap t) h) in
    let* (f, _) := ht_find (fuel_of t) (t_mem t) p None h k in
    match f with
    | Some a => let* e := rd (t_mem t) a in Ok (Some (e_val e))
    | None => Ok None
    end.

(** Hash.hpp:41-46 *)
Definition set_capacity (t : htab) (n : Z) : htab :=
  mkHtab (Z.max 1 n) (Z.max (t_elems t + 10) (lf n)) (t_elems t) (t_table t) (t_cache t) (t_mem t) (t_alive t).

(** Hash.hpp:73-79: the last entry of a chain *)
Fixpoint last_entry (fuel : nat) (mem : list entry) (a : nat) : res nat :=
  match fuel with
  | O => Fuel
  | S f => let* e := rd mem a in match e_next e with None => Ok a | Some b => last_entry f mem b end
  end.
(** Hash.hpp:65-84: one old chain *)
Fixpoint move_chain (fuel : nat) (cap : Z) (mem : list entry) (nt : list (option nat)) (p : option nat)
  : res (list entry * list (option nat)) :=
  match fuel with
  | O => Fuel
  | S f =>
      match p with
      | None => Ok (mem, nt)
      | Some a =>
          let* e := rd mem a in
          let b := Z.to_nat (get_bucket cap (e_hash e)) in
          let* (mem1, nt1) :=
            match nth_error nt b with
            | None => UB UbOob
            | Some None => Ok (mem, upd b (Some a) nt)
            | Some (Some s) =>
                let* l := last_entry (S (length mem)) mem s in
                let* m := set_next mem l (Some a) in Ok (m, nt)
            end in
          let* e1 := rd mem1 a in
          let* mem2 := set_next mem1 a None in
          move_chain f cap mem2 nt1 (e_next e1)
      end
  end.
(** Hash.hpp:64-85 *)
Fixpoint move_chains (cap : Z) (mem : list entry) (nt : list (option nat)) (old : list (option nat))
  : res (list entry * list (option nat)) :=
  match old with
  | [] => Ok (mem, nt)
  | p :: r =>
      let* (mem1, nt1) := move_chain (S (length mem)) cap mem nt p in
      move_chains cap mem1 nt1 r
  end.
(** Hash.hpp:48-89.  heap.put_mem of the old table: see C49 *)
Definition redistribute (t : htab) : res htab :=
  if t_limit t =? 0 then
    let t1 := set_capacity t (t_cap t) in
    Ok (mkHtab (t_cap t1) (t_limit t1) (t_elems t1) (Some (repeat None (Z.to_nat (t_cap t1)))) (t_cache t1) (t_mem t1) true)
  else
    let t1 := set_capacity t (t_cap t * 2) in
    match t_table t with
    | None => UB UbNull
    | Some old =>
        if negb (t_alive t) then UB UbDangling else
        let* (m, nt) := move_chains (t_cap t1) (t_mem t) (repeat None (Z.to_nat (t_cap t1))) old in
        Ok (mkHtab (t_cap t1) (t_limit t1) (t_elems t1) (Some nt) (t_cache t1) m true)
    end.

(** Hash.hpp:169-213: [insert_hash] after making room *)
Definition insert_at (t : htab) (h : Z) (update : bool) (k : K) (v : V) : res ((bool * V) * htab) :=
  let b := get_bucket (t_cap t) h in
  let* p := slot t b in
  let* (f, prev) := ht_find (fuel_of t) (t_mem t) p None h k in
  match f with
  | Some a =>
      let* e := rd (t_mem t) a in
      if update
      then Ok ((true, v), set_mem t (upd a (mkEntry (e_hash e) (e_next e) (e_key e) v) (t_mem t)))
      else Ok ((true, e_val e), t)
  | None =>
      let ne := mkEntry h None k v in
      let '(a, mem, cache) :=
        match rev (t_cache t) with
        | a :: r => (a, upd a ne (t_mem t), rev r)
        | [] => (length (t_mem t), t_mem t ++ [ne], [])
        end in
      let t1 := mkHtab (t_cap t) (t_limit t) (t_elems t) (t_table t) cache mem (t_alive t) in
      let* t2 := match prev with
                 | Some q => let* m := set_next mem q (Some a) in Ok (set_mem t1 m)
                 | None => Ok (set_slot t1 b (Some a))
                 end in
      Ok ((false, v), mkHtab (t_cap t2) (t_limit t2) (t_elems t2 + 1) (t_table t2) (t_cache t2) (t_mem t2) (t_alive t2))
  end.
(** Hash.hpp:160-213 *)
Definition insert_hash (t : htab) (h : Z) (update : bool) (k : K) (v : V) : res ((bool * V) * htab) :=
  let* t1 := if (t_limit t <? 1) || (t_limit t <=? t_elems t) then redistribute t else Ok t in
  insert_at t1 h update k v.
(** Hash.hpp:146-158 *)
Definition ht_insert (t : htab) (k : K) (v : V) := insert_hash t (hash k) false k v.
Definition ht_upsert (t : htab) (k : K) (v : V) := insert_hash t (hash k) true k v.

(** Hash.hpp:115-144 *)
Definition get_rm (t : htab) (k : K) (h : Z) : res (option nat * htab) :=
  if t_elems t <? 1 then Ok (None, t)
  else
    let b := get_bucket (t_cap t) h in
    let* p := slot t b in
    let* (f, prev) := ht_find (fuel_of t) (t_mem t) p None h k in
    match f with
    | None => Ok (None, t)
    | Some a =>
        let* e := rd (t_mem t) a in
        match prev with
        | Some q => let* m := set_next (t_mem t) q (e_next e) in Ok (Some a, set_mem t m)
        | None => Ok (Some a, set_slot t b (e_next e))
        end
    end.
Definition recycle (t : htab) (a : nat) : htab :=
  mkHtab (t_cap t) (t_limit t) (t_elems t - 1) (t_table t) (t_cache t ++ [a]) (t_mem t) (t_alive t).
(** Hash.hpp:330-341 *)
Definition ht_remove (t : htab) (k : K) : res htab :=
  let* (f, t1) := get_rm t k (hash k) in
  match f with Some a => Ok (recycle t1 a) | None => Ok t1 end.
(** Hash.hpp:343-361 *)
Definition ht_extract (t : htab) (k : K) : res (option V * htab) :=
  let* (f, t1) := get_rm t k (hash k) in
  match f with
  | Some a => let* e := rd (t_mem t1) a in Ok (Some (e_val e), recycle t1 a)
  | None => Ok (None, t1)
  end.

(** Hash.hpp:215-227 *)
Definition ht_clear (t : htab) : htab :=
  if t_elems t <? 1 then t
  else mkHtab (t_cap t) 0 0 (t_table t) [] (t_mem t) (t_alive t).

(** Hash.hpp:238-267: the entries shown to the callback, in order; [stop] is what the callback returns.
    The boolean result: the callback asked to stop *)
Fixpoint walk (fuel : nat) (mem : list entry) (p : option nat) (stop : K -> V -> bool) : res (list (K * V) * bool) :=
  match fuel with
  | O => Fuel
  | S f =>
      match p with
      | None => Ok ([], false)
      | Some a =>
          let* e := rd mem a in
          if stop (e_key e) (e_val e) then Ok ([(e_key e, e_val e)], true)
          else let* (r, s) := walk f mem (e_next e) stop in Ok ((e_key e, e_val e) :: r, s)
      end
  end.
Fixpoint foreach_loop (t : htab) (fuel : nat) (i n : Z) (stop : K -> V -> bool) : res (list (K * V)) :=
  match fuel with
  | O => Fuel
  | S f =>
      if t_cap t <=? i then Ok []
      else
        let* p := slot t i in
        let* (l, s) := walk (fuel_of t) (t_mem t) p stop in
        if s then Ok l
        else
          let n := n + zlen l in
          if t_elems t <=? n then Ok l
          else let* r := foreach_loop t f (i + 1) n stop in Ok (l ++ r)
  end.
Definition ht_foreach_break (t : htab) (stop : K -> V -> bool) : res (list (K * V)) :=
  if t_elems t <? 1 then Ok [] else foreach_loop t (S (Z.to_nat (t_cap t))) 0 0 stop.
(** Hash.hpp:269-277 *)
Definition ht_foreach (t : htab) : res (list (K * V)) := ht_foreach_break t (fun _ _ => false).

(** Hash.hpp:279-327 [remove_if]: one chain; n and n_deleted *)
Fixpoint rm_chain (fuel : nat) (t : htab) (i : Z) (p prev : option nat) (rm : K -> V -> bool) (n nd : Z)
  : res (htab * Z * Z) :=
  match fuel with
  | O => Fuel
  | S f =>
      match p with
      | None => Ok (t, n, nd)
      | Some a =>
          let* e := rd (t_mem t) a in
          if rm (e_key e) (e_val e) then
            let* t1 := match prev with
                       | Some q => let* m := set_next (t_mem t) q (e_next e) in Ok (set_mem t m)
                       | None => Ok (set_slot t i (e_next e))
                       end in
            let t2 := mkHtab (t_cap t1) (t_limit t1) (t_elems t1) (t_table t1) (t_cache t1 ++ [a]) (t_mem t1) (t_alive t1) in
            rm_chain f t2 i (e_next e) prev rm (n + 1) (nd + 1)
          else rm_chain f t i (e_next e) (Some a) rm (n + 1) nd
      end
  end.
Fixpoint rm_loop (fuel : nat) (t : htab) (i n nd : Z) (rm : K -> V -> bool) : res (htab * Z) :=
  match fuel with
  | O => Fuel
  | S f =>
      if t_cap t <=? i then Ok (t, nd)
      else
        let* p := slot t i in
        let* (r, nd1) := rm_chain (fuel_of t) t i p None rm n nd in
        let '(t1, n1) := r in
        if t_elems t1 <=? n1 then Ok (t1, nd1) else rm_loop f t1 (i + 1) n1 nd1 rm
  end.
Definition ht_remove_if (t : htab) (rm : K -> V -> bool) : res htab :=
  if t_elems t <? 1 then Ok t
  else
    let* (t1, nd) := rm_loop (S (Z.to_nat (t_cap t))) t 0 0 0 rm in
    Ok (mkHtab (t_cap t1) (t_limit t1) (t_elems t1 - nd) (t_table t1) (t_cache t1) (t_mem t1) (t_alive t1)).

(** Hash.hpp:384-448 [Iterator]: bucket and entry *)
Fixpoint skip_empty (t : htab) (fuel : nat) (b : Z) : res (Z * option nat) :=
  match fuel with
  | O => Fuel
  | S f =>
      if t_cap t <=? b then Ok (b, None)
      else
        let* p := slot t b in
        match p with Some a => Ok (b, Some a) | None => skip_empty t f (b + 1) end
  end.
Definition it_advance (t : htab) (it : Z * option nat) : res (Z * option nat) :=
  match t_table t with
  | None => Ok it
  | Some _ =>
      match it with
      | (b, Some a) =>
          let* e := rd (t_mem t) a in
          match e_next e with
          | Some c => Ok (b, Some c)
          | None => skip_empty t (S (Z.to_nat (t_cap t))) (b + 1)
          end
      | (b, None) => skip_empty t (S (Z.to_nat (t_cap t))) b
      end
  end.
(** for(auto kv : table): begin(), then ++ until the entry is null *)
(** Hash.hpp:385-430, Hash.h:84-91 *)
Fixpoint it_loop (t : htab) (fuel : nat) (it : Z * option nat) : res (list (K * V)) :=
  match fuel with
  | O => Fuel
  | S f =>
      match snd it with
      | None => Ok []
      | Some a =>
          let* e := rd (t_mem t) a in
          let* it' := it_advance t it in
          let* r := it_loop t f it' in Ok ((e_key e, e_val e) :: r)
      end
  end.
(** Hash.h:84-91 *)
Definition ht_iterate (t : htab) : res (list (K * V)) :=
  let* it := it_advance t (0, None) in it_loop t (fuel_of t) it.

(** Hash.hpp:11-29 [operator=(HTable&&)]: destination, source afterwards.  The entries and the table stay in the
    source's heap *)
Definition ht_move (src : htab) : htab * htab :=
  (mkHtab (t_cap src) (t_limit src) (t_elems src) (t_table src) (t_cache src) (t_mem src) (t_alive src),
   mkHtab (t_cap src) 0 0 (t_table src) [] (t_mem src) (t_alive src)).
(** the source's destructor frees its heap *)
(** Hash.h:41-45, Heap.cpp:249-265 *)
Definition after_free (dst : htab) : htab :=
  mkHtab (t_cap dst) (t_limit dst) (t_elems dst) (t_table dst) (t_cache dst) (t_mem dst) false.

End HTable.
Arguments entry : clear implicits.
Arguments htab : clear implicits.
