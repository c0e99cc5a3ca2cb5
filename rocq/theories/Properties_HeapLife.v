(** Property C78: the life of heaps: memory is deleted once, none is lost, moved memory stays where it is. *)
From Coq Require Import ZArith List Bool Lia Permutation.
From Verif Require Import Base M_Heap S_Heap M_HeapLife S_HeapLife P_HeapLife.
Import ListNotations.
Open Scope Z_scope.

(** Full statement: everything below for every program, copies included, and assigning a heap to itself changes
    nothing.  False: the copy constructor (Heap.h:42) copies the pointers of the chain *)
Theorem C78_copy_refuted : exists ops, Forall (fun op => uncopied op \/ op = LCopy 0) ops /\
  let st := life_run ops life_init in
  exists b, l_fblocks st = [b; b].
Proof.
  exists [LNew (fun _ _ => 0); LUse 0 (HGet 10 1); LCopy 0; LEnd 0; LEnd 1]. split.
  - repeat (constructor; [cbn; try tauto; left; repeat split; cbn; auto; lia|]). constructor.
  - exists (0%nat, 0%nat). vm_compute. reflexivity.
Qed.
(** A block held by the client is gone after its heap was assigned to itself *)
Theorem C78_self_refuted : exists ops i x y, Forall uncopied ops /\
  obj (life_run ops life_init) i = Some x /\ In y (ho_held x) /\
  ~ exists_at (life_step (life_run ops life_init) (LMove i i)) (ho_space x) (hb_blk y).
Proof.
  exists [LNew (fun _ _ => 0); LUse 0 (HGet 10 1)], 0%nat.
  eexists _, (mkHb 0 0 10 1). split; [repeat constructor; cbn; auto; lia|].
  split; [vm_compute; reflexivity|]. split; [left; reflexivity|].
  intros [_ N]. apply N. vm_compute. auto.
Qed.
(** as for every heap *)
Theorem C78_self : forall ops i x, Forall uncopied ops ->
  let st := life_run ops life_init in
  obj st i = Some x ->
  let st' := life_step st (LMove i i) in
  forall y, In y (ho_held x) -> In (ho_space x, hb_blk y) (l_fblocks st').
Proof. exact life_self. Qed.

(** Programs that do not copy heaps: whatever was obtained from the system has been deleted once or belongs to exactly
    one object that exists *)
Theorem C78_accounted : forall ops, Forall uncopied ops -> accounted (life_run ops life_init).
Proof. exact life_accounted. Qed.
(** nothing is deleted twice, and nothing that was not obtained *)
Theorem C78_once_partial : forall ops, Forall uncopied ops ->
  let st := life_run ops life_init in
  NoDup (l_fblocks st) /\ incl (l_fblocks st) (l_blocks st) /\ NoDup (l_flinks st) /\ incl (l_flinks st) (l_links st).
Proof. exact life_once. Qed.
(** when every object is destroyed nothing is left *)
Theorem C78_no_leak : forall ops, Forall uncopied ops ->
  let st := life_run ops life_init in
  (forall i, obj st i = None) ->
  Permutation (l_blocks st) (l_fblocks st) /\ Permutation (l_links st) (l_flinks st).
Proof. exact life_no_leak. Qed.
(** blocks that clients hold are in memory that exists *)
Theorem C78_valid_partial : forall ops, Forall uncopied ops ->
  let st := life_run ops life_init in
  forall i x y, obj st i = Some x -> In y (ho_held x) ->
  exists_at st (ho_space x) (hb_blk y) /\ placed_block (h_blocks (ho_heap x)) y.
Proof. exact life_valid. Qed.
(** and no two of them share an address, whichever heaps they come from *)
Theorem C78_disjoint : forall ops, Forall uncopied ops ->
  let st := life_run ops life_init in
  forall i k i' k' s b o, held_at st i k s b o -> held_at st i' k' s b o -> i = i' /\ k = k'.
Proof. exact life_disjoint. Qed.
(** moving: the target is what the source was, the source is empty, the others are as they were *)
Theorem C78_moved : forall st i j x m, obj st i = Some x -> obj st j = Some m -> i <> j ->
  let st' := life_step st (LMove i j) in
  obj st' i = Some m /\ (forall k, k <> i -> k <> j -> obj st' k = obj st k) /\
  exists e, obj st' j = Some e /\ ho_held e = [] /\ h_blocks (ho_heap e) = [] /\ h_cap (ho_heap e) = h_cap (ho_heap m).
Proof. exact life_moved. Qed.

(** After [clear] the memory is used again: a request that fits into one of the blocks needs no new one *)
Theorem C78_cleared : forall m ops sz align B, Forall op_ok ops ->
  let h := fst (client_run ops (heap_init m, [])) in
  In B (h_blocks h) -> sz + align - 1 <= B ->
  h_blocks (fst (client_run (ops ++ [HClear; HGet sz align]) (heap_init m, []))) = h_blocks h.
Proof. exact cleared_reuse_client. Qed.
(** but the same requests in the same order may need more than the first time: blocks come before the rests of blocks in
    the list of free segments *)
Theorem C78_again_refuted : exists ops, Forall op_ok ops /\ forall m,
  let h := fst (client_run ops (heap_init m, [])) in
  let h' := fst (client_run (ops ++ [HClear] ++ ops) (heap_init m, [])) in
  h_blocks h = [1024; 2048; 4096] /\ h_blocks h' = [1024; 2048; 4096; 8192].
Proof.
  exists [HGet 600 1; HGet 2000 1; HGet 400 1; HGet 4000 1]. split.
  - repeat (constructor; [cbn; split; [lia|auto]|]). constructor.
  - intro m. vm_compute. auto.
Qed.

Print Assumptions C78_copy_refuted.
Print Assumptions C78_self_refuted.
Print Assumptions C78_self.
Print Assumptions C78_accounted.
Print Assumptions C78_once_partial.
Print Assumptions C78_no_leak.
Print Assumptions C78_valid_partial.
Print Assumptions C78_disjoint.
Print Assumptions C78_moved.
Print Assumptions C78_cleared.
Print Assumptions C78_again_refuted.

(** two heaps, one moved onto the other, both used again and destroyed *)
Definition ex_life : list lop :=
  [LNew (fun _ _ => 0); LNew (fun _ _ => 7); LUse 0 (HGet 10 1); LUse 1 (HGet 600 1); LUse 1 (HGet 700 8);
   LUse 1 (HStore 0 [1; 2; 3]); LMove 0 1; LUse 0 (HGet 5000 1); LUse 1 (HGet 3 1); LUse 0 HClear; LUse 0 (HGet 600 1)].
Example C78_ex : let st := life_run ex_life life_init in
  l_blocks st = [(0, 0); (1, 0); (1, 1); (1, 2); (3, 0)]%nat /\ l_fblocks st = [(0, 0)]%nat /\
  map (option_map (fun o => (ho_space o, map hb_blk (ho_held o)))) (l_objs st) = [Some (1, [0]); Some (3, [0])]%nat /\
  l_fblocks (life_run (ex_life ++ [LEnd 0; LEnd 1]) life_init) = [(0, 0); (1, 0); (1, 1); (1, 2); (3, 0)]%nat.
Proof. vm_compute. repeat split; reflexivity. Qed.
Example C78_ex_ok : Forall uncopied (ex_life ++ [LEnd 0; LEnd 1]) /\
  (forall i, obj (life_run (ex_life ++ [LEnd 0; LEnd 1]) life_init) i = None).
Proof.
  split; [repeat constructor; cbn; auto; lia|]. intros [|[|i]]; vm_compute; auto. destruct i; reflexivity.
Qed.
