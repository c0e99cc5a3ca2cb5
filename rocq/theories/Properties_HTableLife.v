(** Lifetime of the keys and values of Lib::HTable (C92). *)
From Coq Require Import ZArith List Bool Permutation Lia.
From Verif Require Import Base M_HTable S_HTable P_HTable M_HTableLife S_HTableLife P_HTableLife.
Import ListNotations.
Open Scope Z_scope.

(** C92: for every hash function, load factor, initial number of buckets and sequence of operations: the constructor
    and destructor calls on keys and values form a history in which only living objects are destroyed, the objects
    alive are at the end exactly those of the finite map, and after the destructor of the table none is left.
    Nothing is constructed beyond the key and the value of a new key and the value of an update: the arguments of an
    insertion that finds its key are not used. *)
Theorem C92_destroyed_once : forall (K V : Type) (keq : K -> K -> bool) (hash : K -> Z) (lf : Z -> Z),
  (forall a b, keq a b = true <-> a = b) ->
  forall (buckets : Z) (ops : list (mop K V)),
  exists t outs h hd,
  life_run keq hash lf (ht_new buckets) ops = Ok (t, h) /\ table_run keq hash lf (ht_new buckets) ops = Ok (t, outs) /\
  destroy_all t = Ok hd /\
  history [] h (objects (fst (spec_map keq [] ops))) /\ history [] (h ++ hd) [] /\
  constructed (h ++ hd) = expected_run keq [] ops.
Proof. exact @destroyed_once. Qed.
Print Assumptions C92_destroyed_once.

(** colliding keys, an update, an insertion that finds its key, a removed entry whose memory is used again, clear *)
Example C92_example :
  let ops := [MInsert 1 10; MInsert 2 20; MInsert 1 11; MUpsert 1 12; MRemove 2; MInsert 3 30; MRemoveIf (fun k _ => k =? 1);
              MInsert 4 40; MClear; MInsert 5 50] in
  match life_run Z.eqb (fun _ => 5) (fun c => c) (ht_new 1) ops with
  | Ok (t, h) =>
      h = [Made (TKey 1); Made (TVal 10); Made (TKey 2); Made (TVal 20); Gone (TVal 10); Made (TVal 12); Gone (TVal 20); Gone (TKey 2);
           Made (TKey 3); Made (TVal 30); Gone (TKey 1); Gone (TVal 12); Made (TKey 4); Made (TVal 40);
           Gone (TKey 3); Gone (TVal 30); Gone (TKey 4); Gone (TVal 40); Made (TKey 5); Made (TVal 50)] /\
      destroy_all t = Ok [Gone (TKey 5); Gone (TVal 50)]
  | _ => False
  end.
Proof. vm_compute. auto. Qed.

(** Full statement for move assignment: whatever tables are destination and source, and in whichever order the two are
    destroyed afterwards, every object is destroyed exactly once.
    False: the entries stay in the source's heap.  A destination that outlives the source reads freed memory in its
    destructor. *)
Theorem C92_move_refuted : exists (ops : list (mop Z Z)) src d s h ha,
  life_run Z.eqb (fun k => k) (fun c => c) (ht_new 64) ops = Ok (src, h) /\
  assign_life (ht_new 64) src = Ok (d, s, ha) /\ destroy_all s = Ok [] /\ destroy_all (after_free d) = UB UbDangling.
Proof.
  eexists [MInsert 1 10], _, _, _, _, _. split; [vm_compute; reflexivity|]. split; [vm_compute; reflexivity|]. vm_compute. auto.
Qed.
Print Assumptions C92_move_refuted.

(** Missing: a source destroyed before its destination.  Otherwise the assignment destroys exactly the objects of the
    old destination; those of the source belong to the destination from then on; the source may be used again and
    destroys only what was put in it since. *)
Theorem C92_move_partial : forall (K V : Type) (keq : K -> K -> bool) (hash : K -> Z) (lf : Z -> Z),
  (forall a b, keq a b = true <-> a = b) ->
  forall (b1 b2 : Z) (ops1 ops2 ops3 ops4 : list (mop K V)) dst src h1 h2,
  life_run keq hash lf (ht_new b1) ops1 = Ok (dst, h1) -> life_run keq hash lf (ht_new b2) ops2 = Ok (src, h2) ->
  exists d s ha d2 s2 h3 h4 hd hs,
  assign_life dst src = Ok (d, s, ha) /\
  life_run keq hash lf d ops3 = Ok (d2, h3) /\ life_run keq hash lf s ops4 = Ok (s2, h4) /\
  destroy_all d2 = Ok hd /\ destroy_all s2 = Ok hs /\
  history (objects (fst (spec_map keq [] ops1))) ha [] /\
  history (objects (fst (spec_map keq [] ops2))) (h3 ++ hd) [] /\
  history [] (h4 ++ hs) [].
Proof. exact @assigned_once. Qed.
Print Assumptions C92_move_partial.

Example C92_example_move :
  match life_run Z.eqb (fun k => k) (fun c => c) (ht_new 2) [MInsert 1 10], life_run Z.eqb (fun k => k) (fun c => c) (ht_new 4) [MInsert 2 20; MInsert 3 30] with
  | Ok (dst, _), Ok (src, _) =>
      match assign_life dst src with
      | Ok (d, s, ha) => ha = [Gone (TKey 1); Gone (TVal 10)] /\ destroy_all d = Ok [Gone (TKey 2); Gone (TVal 20); Gone (TKey 3); Gone (TVal 30)] /\
                         destroy_all s = Ok []
      | _ => False
      end
  | _, _ => False
  end.
Proof. vm_compute. auto. Qed.
