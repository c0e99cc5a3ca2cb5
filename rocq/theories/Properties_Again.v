(** C71: unwrapping several objects from one tree. *)
From Coq Require Import ZArith List Bool Lia.
From Verif Require Import Base M_Types M_Conv M_TpTools M_In S_Doc M_Env M_Event M_Tree M_TreeIO M_PSrl M_MsgPack M_Json M_Object M_ObjIO S_ObjSafe S_Again P_Again P_Try Properties_Object.
Import ListNotations.
Open Scope Z_scope.

(** * C71.  Full statement: Node::unwrap and Node::paste give an object that is made from the tree as it is now, and that has
    nothing in common with the objects unwrapped before.  Not true of objects with shared pointers: the tree remembers the
    shared objects by their keys. *)
Definition ag_tree (bs : bytes) : node := match run_block (load_tree ex_fp 400 json_p) (mkBlk [] bs) with Ok (r, _) => snd (snd r) | _ => empty_node TNull end.
Definition ag_unwrap (t : ct) (n : node) (s : rstate) : eprog (cv * rstate) := unwrap_prog 400 ex_world t (ex_new t) n s.
(** a shared_ptr<int>: the value is replaced after it was unwrapped; unwrapping again gives the old one *)
Definition ag_one : node := ag_tree (js ($"{'srl_shared_key':0,'srl_shared_value':1}")).
Theorem C71_stale_refuted : exists n n1 n2 s v, remove_value_named n ($"srl_shared_value", EUTF8) = Ok n1 /\ store_value n1 (num_value TI32 2) ($"srl_shared_value", EUTF8) = Ok n2 /\
  ag_unwrap (CShared (CNum TI32)) n rs_new = ERet (v, s) /\
  ag_unwrap (CShared (CNum TI32)) n2 rs_new = ERet (VRef 0, mkRs [(CNum TI32, VNum 2)] [(0, 0%nat)]) /\
  ag_unwrap (CShared (CNum TI32)) n2 s = ERet (VRef 0, mkRs [(CNum TI32, VNum 1)] [(0, 0%nat)]).
Proof.
  exists ag_one. eexists. eexists. exists (mkRs [(CNum TI32, VNum 1)] [(0, 0%nat)]), (VRef 0). split; [vm_compute; reflexivity|]. split; [vm_compute; reflexivity|]. repeat split; vm_compute; reflexivity.
Qed.
(** as another type: undefined behaviour, though both types are possible *)
Theorem C71_other_type_refuted : exists n s v s' v', ag_unwrap (CShared (CNum TI32)) n rs_new = ERet (v, s) /\ ag_unwrap (CShared (CStr EUTF8)) n rs_new = ERet (v', s') /\
  ag_unwrap (CShared (CStr EUTF8)) n s = EUndef UbCast.
Proof.
  exists ag_one, (mkRs [(CNum TI32, VNum 1)] [(0, 0%nat)]), (VRef 0), (mkRs [(CStr EUTF8, VStr ($"1"))] [(0, 0%nat)]), (VRef 0). repeat split; vm_compute; reflexivity.
Qed.
(** two objects unwrapped from one tree share what should be two objects *)
Definition ag_two : node := ag_tree (js ($"{'a':{'srl_shared_key':0,'srl_shared_value':{'x':1,'tag':'s'}},'b':{'srl_shared_key':0},'c':{'srl_shared_key':0}}")).
Theorem C71_alias_refuted : exists n s v s', ag_unwrap (CCls 2) n rs_new = ERet (VList [VRef 0; VRef 0; VRef 0], s) /\ ag_unwrap (CCls 2) n s = ERet (v, s') /\ v = VList [VRef 0; VRef 0; VRef 0].
Proof. exists ag_two, (mkRs [(CCls 0, pt 1 ($"s"))] [(0, 0%nat)]), (VList [VRef 0; VRef 0; VRef 0]), (mkRs [(CCls 0, pt 1 ($"s"))] [(0, 0%nat)]). repeat split; vm_compute; reflexivity. Qed.

(** True of types without shared pointers: whatever happened to the tree's table before, all outcomes *)
Theorem C71_unshared_partial : forall F w t old n s, unshared w t -> unwrap_prog F w t old n s = ebind (unwrap_prog F w t old n rs_new) (fun r => ERet (fst r, s)).
Proof. exact again_unshared. Qed.
(** True if the keys of the tree are new: the same object, its shared objects behind those made before, all outcomes *)
Theorem C71_new_keys_partial : forall F w t old n s, address_free w -> no_pointers old -> new_keys w s n ->
  unwrap_prog F w t old n s = ebind (unwrap_prog F w t old n rs_new) (fun r => ERet (moved (length (r_heap s)) (fst r), behind s (snd r))).
Proof. exact again_new_keys. Qed.
(** what happens otherwise: unwrapping the tree again, at once or after other objects, gives the object made of the very same
    shared objects, and makes no new ones *)
Theorem C71_same_objects : forall F w t old n s v s1 s2, keys_apart w n -> unwrap_prog F w t old n s = ERet (v, s1) -> later s1 s2 -> unwrap_prog F w t old n s2 = ERet (v, s2).
Proof. intros F w t old n s v s1 s2 A E. exact (again_same F w t old n s v s1 A E s2). Qed.
Theorem C71_later : forall F w t old n s v s1, unwrap_prog F w t old n s = ERet (v, s1) -> later s s1.
Proof. exact unwrap_later. Qed.
Print Assumptions C71_stale_refuted.
Print Assumptions C71_other_type_refuted.
Print Assumptions C71_alias_refuted.
Print Assumptions C71_unshared_partial.
Print Assumptions C71_new_keys_partial.
Print Assumptions C71_same_objects.
Print Assumptions C71_later.

(** examples: another tree with other keys after the first one; a list of points with whatever was unwrapped before *)
Definition ag_third : node := ag_tree (js ($"{'a':{'srl_shared_key':7,'srl_shared_value':{'x':2,'tag':'t'}},'b':{'srl_shared_key':8,'srl_shared_value':{'x':3,'tag':'u'}},'c':{'srl_shared_key':7}}")).
Definition ag_points : node := ag_tree (js ($"[{'x':2,'tag':'t'},{'x':3,'tag':'u'}]")).
Definition ag_s : rstate := mkRs [(CCls 0, pt 1 ($"s"))] [(0, 0%nat)].
Example C71_new_keys_ex : ag_unwrap (CCls 2) ag_third ag_s =
  ERet (VList [VRef 1; VRef 2; VRef 1], mkRs [(CCls 0, pt 1 ($"s")); (CCls 0, pt 2 ($"t")); (CCls 0, pt 3 ($"u"))] [(8, 2%nat); (7, 1%nat); (0, 0%nat)]).
Proof. vm_compute. reflexivity. Qed.
Example C71_unshared_ex : ag_unwrap (CSeq (CCls 0)) ag_points ag_s = ERet (VList [pt 2 ($"t"); pt 3 ($"u")], ag_s).
Proof. vm_compute. reflexivity. Qed.
Lemma ex_lt_moved d a b : ex_lt (moved d a) (moved d b) = ex_lt a b.
Proof. destruct a, b; reflexivity. Qed.
Lemma ex_new_moved t d : moved d (ex_new t) = ex_new t.
Proof.
  induction t; cbn [ex_new moved]; try reflexivity.
  - destruct c as [|[|[|[|[|c]]]]]; reflexivity.
  - f_equal. induction n; cbn [repeat map]; [reflexivity|]. now rewrite IHt, IHn.
  - cbn [map]. now rewrite IHt1, IHt2.
  - destruct c as [|[|[|[|[|c]]]]]; reflexivity.
Qed.
Example C71_premises_ex : address_free ex_world /\ no_pointers (ex_new (CCls 2)) /\ unshared ex_world (CSeq (CCls 0)) /\ new_keys ex_world ag_s ag_third /\ keys_apart ex_world ag_third.
Proof.
  split; [split; [intros t d; apply ex_new_moved|apply ex_lt_moved]|]. split; [intros d; apply ex_new_moved|]. split; [|split].
  - intros e. split; intros P; inversion P; subst; match goal with H : part _ (CCls 0) _ |- _ => inversion H; subst; match goal with J : In _ _ |- _ => cbn in J; destruct J as [<-|[<-|[]]] end; match goal with J : part _ _ _ |- _ => cbn in J; inversion J end end.
  - apply new_keys_b. vm_compute. reflexivity.
  - apply apart_b_ok. vm_compute. reflexivity.
Qed.
