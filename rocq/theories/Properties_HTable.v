(** Results about Lib::HTable (C46-C48). *)
From Coq Require Import ZArith List Bool Permutation Lia.
From Verif Require Import Base M_HTable S_HTable P_HTable.
Import ListNotations.
Open Scope Z_scope.

(** C46: whatever the hash function, the load factor and the initial number of buckets are, every sequence of
    insert/upsert/get/remove/extract/remove_if/clear/num_entries gives exactly the answers of a finite map.  In
    particular no operation dereferences a null or dangling pointer and no chain loops. *)
Theorem C46_htable_finite_map : forall (K V : Type) (keq : K -> K -> bool) (hash : K -> Z) (lf : Z -> Z),
  (forall a b, keq a b = true <-> a = b) ->
  forall (buckets : Z) (ops : list (mop K V)),
  exists t, table_run keq hash lf (ht_new buckets) ops = Ok (t, snd (spec_map keq [] ops)).
Proof. exact @htable_finite_map. Qed.
Print Assumptions C46_htable_finite_map.

(** a table of one bucket in which all keys collide: growth, recycling of a removed entry, updating *)
Example C46_example :
  let ops := [MInsert 1 10; MInsert 2 20; MInsert 1 11; MRemove 2; MInsert 3 30; MUpsert 1 12; MGet 1; MGet 2; MExtract 3;
              MSize; MRemoveIf (fun k _ => k =? 1); MSize; MClear; MGet 1; MInsert 4 40; MGet 4] in
  match table_run Z.eqb (fun _ => 5) (fun c => c) (ht_new 1) ops with
  | Ok (_, o) => o = [OIns false 10; OIns false 20; OIns true 10; ONone; OIns false 30; OIns true 12; OVal (Some 12); OVal None;
                      OVal (Some 30); OSize 1; ONone; OSize 0; ONone; OVal None; OIns false 40; OVal (Some 40)]
  | _ => False
  end.
Proof. vm_compute. reflexivity. Qed.
Fixpoint fill (n : nat) : list (mop Z Z) :=
  match n with O => [] | S m => fill m ++ [MInsert (Z.of_nat m * 64) (Z.of_nat m)] end.
(** forty keys in one bucket of four: the table grows twice *)
Example C46_example_growth :
  match table_run Z.eqb (fun k => k) (fun c => c) (ht_new 4) (fill 40 ++ [MGet 640; MGet 1; MSize]) with
  | Ok (t, o) => skipn 40 o = [OVal (Some 10); OVal None; OSize 40] /\ t_cap t = 32
  | _ => False
  end.
Proof. vm_compute. split; reflexivity. Qed.

(** C47: foreach shows the callback every binding of the map exactly once; a callback that asks to stop has seen
    a prefix of that sequence, up to the binding at which it asked. *)
Theorem C47_foreach : forall (K V : Type) (keq : K -> K -> bool) (hash : K -> Z) (lf : Z -> Z),
  (forall a b, keq a b = true <-> a = b) ->
  forall (buckets : Z) (ops : list (mop K V)) t outs,
  table_run keq hash lf (ht_new buckets) ops = Ok (t, outs) ->
  exists l, ht_foreach t = Ok l /\ Permutation l (fst (spec_map keq [] ops)) /\ NoDup (map fst l) /\
  forall stop, ht_foreach_break t stop = Ok (visited (fun x => stop (fst x) (snd x)) l).
Proof. exact @htable_foreach. Qed.
Print Assumptions C47_foreach.

(** Full statement for the iterator: for every reachable table it visits exactly the bindings of the map.
    False: clear() forgets the entries but keeps the pointer to the table, which the iterator follows. *)
Theorem C47_iterator_refuted : exists (buckets : Z) (ops : list (mop Z Z)) t outs,
  table_run Z.eqb (fun k => k) (fun c => c) (ht_new buckets) ops = Ok (t, outs) /\
  t_elems t = 0 /\ fst (spec_map Z.eqb [] ops) = [] /\ ht_iterate t = Ok [(1, 10)].
Proof.
  eexists 4, [MInsert 1 10; MClear], _, _. split; [vm_compute; reflexivity|]. vm_compute. auto.
Qed.
Print Assumptions C47_iterator_refuted.

(** Missing: tables on which clear() was called and nothing was inserted since.  For every other reachable table
    (nothing cleared, or at least one entry since) the iterator visits every binding once. *)
Theorem C47_iterator_partial : forall (K V : Type) (keq : K -> K -> bool) (hash : K -> Z) (lf : Z -> Z),
  (forall a b, keq a b = true <-> a = b) ->
  forall (buckets : Z) (ops : list (mop K V)) t outs,
  table_run keq hash lf (ht_new buckets) ops = Ok (t, outs) ->
  ~ In MClear ops \/ fst (spec_map keq [] ops) <> [] ->
  exists l, ht_iterate t = Ok l /\ Permutation l (fst (spec_map keq [] ops)) /\ NoDup (map fst l) /\ ht_foreach t = Ok l.
Proof. exact @htable_iterate. Qed.
Print Assumptions C47_iterator_partial.

Example C47_example :
  match table_run Z.eqb (fun k => k) (fun c => c) (ht_new 2) [MInsert 1 10; MInsert 2 20; MInsert 3 30; MRemove 2; MInsert 4 40] with
  | Ok (t, _) => ht_iterate t = Ok [(4, 40); (1, 10); (3, 30)] /\ ht_foreach t = Ok [(4, 40); (1, 10); (3, 30)] /\
                 ht_foreach_break t (fun k _ => k =? 1) = Ok [(4, 40); (1, 10)]
  | _ => False
  end.
Proof. vm_compute. auto. Qed.

(** Full statement of C48: after [dst = std::move(src)] and the destruction of src, dst answers as src did.
    False: the entries stay in the heap of src; the first access after its destruction follows a dangling pointer. *)
Theorem C48_move_refuted : exists (ops : list (mop Z Z)) t outs,
  table_run Z.eqb (fun k => k) (fun c => c) (ht_new 64) ops = Ok (t, outs) /\
  ht_get Z.eqb (fun k => k) t 1 = Ok (Some 10) /\
  ht_get Z.eqb (fun k => k) (after_free (fst (ht_move t))) 1 = UB UbDangling.
Proof. eexists [MInsert 1 10], _, _. split; [vm_compute; reflexivity|]. vm_compute. auto. Qed.
Print Assumptions C48_move_refuted.

(** Missing: any use of the destination after the source was destroyed.  While the source is alive the destination
    answers every further sequence of operations as the source would have, and the source itself behaves as an empty
    table. *)
Theorem C48_move_partial : forall (K V : Type) (keq : K -> K -> bool) (hash : K -> Z) (lf : Z -> Z),
  (forall a b, keq a b = true <-> a = b) ->
  forall (buckets : Z) (ops ops2 : list (mop K V)) t outs,
  table_run keq hash lf (ht_new buckets) ops = Ok (t, outs) ->
  (exists t2, table_run keq hash lf (fst (ht_move t)) ops2 = Ok (t2, snd (spec_map keq (fst (spec_map keq [] ops)) ops2))) /\
  (exists t2, table_run keq hash lf (snd (ht_move t)) ops2 = Ok (t2, snd (spec_map keq [] ops2))).
Proof. exact @htable_move. Qed.
Print Assumptions C48_move_partial.

Example C48_example :
  match table_run Z.eqb (fun k => k) (fun c => c) (ht_new 2) [MInsert 1 10; MInsert 3 30] with
  | Ok (t, _) => let (d, s) := ht_move t in
      match table_run Z.eqb (fun k => k) (fun c => c) d [MGet 3; MInsert 5 50; MSize], table_run Z.eqb (fun k => k) (fun c => c) s [MGet 3; MInsert 3 31; MGet 3] with
      | Ok (_, o1), Ok (_, o2) => o1 = [OVal (Some 30); OIns false 50; OSize 3] /\ o2 = [OVal None; OIns false 31; OVal (Some 31)]
      | _, _ => False
      end
  | _ => False
  end.
Proof. vm_compute. auto. Qed.
