(** Property C93: which restored shared objects outlive the tree. *)
From Coq Require Import ZArith List Bool Lia.
From Verif Require Import Base Lemmas M_Types M_Conv M_Charset M_Heap M_In S_Doc M_Event M_PSrl M_MsgPack M_Json M_Tree S_Tree M_TreeIO S_TreeIO M_Object S_Object S_ObjStore M_ObjIO S_ObjIO S_Agree S_Own M_Own
  P_ObjIO P_ObjFit P_Own Properties_Object Properties_Cycle.
Import ListNotations.
Open Scope Z_scope.

(** Whatever the bytes, from memory or a stream, directly or from a tree: when the table of the tree is cleared after an object
    has been restored, no shared pointer is released twice, and exactly those shared objects are destroyed to which no way over
    owning pointers leads from the restored object.  ([plain]: no shared pointers in what the constructors make and in the
    object before.) *)
Theorem C93_survivors : forall w F q t old, (forall t, plain (w_new w t) = true) -> plain old = true ->
  let right c s := exists dead, expired w t c s = Ok dead /\ forall a, (a < length (r_heap s))%nat -> (In a dead <-> ~ owned w (r_heap s) t c a) in
  (forall b q' c s b', run_block (restore_object (w_fp w) F w q t old) b = Ok ((q', (c, s)), b') -> right c s) /\
  (forall b q' c s b', run_stream (restore_object (w_fp w) F w q t old) b = Ok ((q', (c, s)), b') -> right c s) /\
  (forall n c s, unwrap_prog F w t old n rs_new = ERet (c, s) -> right c s).
Proof.
  intros w F q t old NEW PO right. destruct (restored_survive w F q t old NEW PO) as (A & B & C). split; [|split].
  - intros b q' c s b' E. exact (A _ _ _ _ E).
  - intros b q' c s b' E. exact (B _ _ _ _ E).
  - intros n c s E. exact (C _ _ E).
Qed.
Print Assumptions C93_survivors.

(** For every graph that can be stored: behind any way, through shared or weak pointers, the restored pointer points to an object
    that outlives the tree iff the stored object owns the object there. *)
Theorem C93_owned_survive : forall w p hp lev n t v name old, regular w -> constructs w -> (forall t, plain (w_new w t) = true) -> plain old = true ->
  S_ObjStore.heap_ok w hp lev (carried (w_fp w) p) -> storable w hp lev (carried (w_fp w) p) n t v -> S_ObjStore.shape w t old -> name_fits p name -> names_fit w p hp v ->
  exists d tab size, (forall F, (size <= F)%nat -> stored_doc F w hp t v name [] = Ok (d, tab)) /\
  (size_fits p d -> exists bs c s dead, stores_as w hp p name t v bs /\ restores_as w p bs t old c s /\ unwraps_as w p bs t old c s /\ expired w t c s = Ok dead /\
     forall way a, part hp v way = Some (VRef a) -> exists b, part (r_heap s) c way = Some (VRef b) /\ (b < length (r_heap s))%nat /\ (In b dead <-> ~ owned w hp t v a)).
Proof. exact owned_survive. Qed.
Print Assumptions C93_owned_survive.

(** what is destroyed when the tree of an object stored and restored is cleared; directly and from a tree *)
Definition own_io (p : parser) (hp : heap_t) (t : ct) (v : cv) : res (cv * res (list nat) * res (list nat)) :=
  let* bs := ring_bytes p hp t v in let* (c, s) := ring_back p bs t in let* (c', s') := ring_tree p bs t in
  Ok (c, expired ring_world t c s, expired ring_world t c' s').
Definition formats : list parser := [PsrlP psrl_init; MsgpP msgp_init; json_p].
(** Full statement: whatever a restored shared or weak pointer points to is alive after the tree is gone, as what the stored one
    points to is.  False: a list of observers, whose objects are owned elsewhere in the program that stores it. *)
Theorem C93_alive_refuted : exists hp t v x, part hp v [Item 0; Target] = Some x /\
  Forall (fun p => own_io p hp t v = Ok (VList [VRef 0], Ok [0%nat], Ok [0%nat])) formats.
Proof.
  exists [(CCls 4, VList [VNum 7; VList []])], (CSeq (CWeak (CCls 4))), (VList [VRef 0]), (VList [VNum 7; VList []]). split; [reflexivity|].
  repeat apply Forall_cons; [..|apply Forall_nil]; vm_compute; reflexivity.
Qed.
Print Assumptions C93_alive_refuted.
(** the observers stand before the owners: all of a kid, its kids and a kid twice survive; of the graph below a node that is observed only
    what is owned survives *)
Example C93_ex :
  let both := CPair (CSeq (CWeak (CCls 4))) (CSeq (CShared (CCls 4))) in
  Forall (fun p =>
    own_io p kids_tree both (VList [VList [VRef 0]; VList [VRef 0]]) = Ok (VList [VList [VRef 2]; VList [VRef 2]], Ok [], Ok []) /\
    own_io p kids_tree both (VList [VList [VRef 0]; VList [VRef 1]]) = Ok (VList [VList [VRef 2]; VList [VRef 0]], Ok [1; 2]%nat, Ok [1; 2]%nat) /\
    own_io p kids_tree both (VList [VList [VRef 0]; VList [VRef 2]]) = Ok (VList [VList [VRef 2]; VList [VRef 1]], Ok [2]%nat, Ok [2]%nat) /\
    own_io p kids_tree both (VList [VList [VRef 0]; VList []]) = Ok (VList [VList [VRef 2]; VList []], Ok [0; 1; 2]%nat, Ok [0; 1; 2]%nat)) formats.
Proof. repeat apply Forall_cons; [..|apply Forall_nil]; (split; [|split; [|split]]); vm_compute; reflexivity. Qed.
(** ownership in the stored graph *)
Example C93_ex_owned :
  let both := CPair (CSeq (CWeak (CCls 4))) (CSeq (CShared (CCls 4))) in
  owned ring_world kids_tree both (VList [VList [VRef 0]; VList [VRef 2]]) 1 /\ ~ owned ring_world kids_tree both (VList [VList [VRef 0]; VList [VRef 2]]) 0.
Proof.
  cbv zeta. split.
  - exists [Item 1; Item 0; Target; Item 1; Item 1], (CCls 4). reflexivity.
  - intros H. apply owned_reaches in H. assert (X : forall a, reaches (held ring_world kids_tree) (strong ring_world (CPair (CSeq (CWeak (CCls 4))) (CSeq (CShared (CCls 4)))) (VList [VList [VRef 0]; VList [VRef 2]])) a -> a = 2%nat \/ a = 1%nat).
    { intros a R. induction R as [a I|a b R [->| ->] I]; cbn in I; repeat (destruct I as [I|I]; [subst; auto|]); destruct I. }
    destruct (X _ H); discriminate.
Qed.
