(** C76: trying one type after the other on a part of a tree. *)
From Coq Require Import ZArith List Bool Lia.
From Verif Require Import Base M_Types M_Conv M_TpTools M_In S_Doc M_Env M_Event M_Tree M_TreeIO M_PSrl M_MsgPack M_Json M_Object M_ObjIO M_Access M_Try S_ObjSafe S_Again S_Try P_Again P_Try Properties_Object.
Import ListNotations.
Open Scope Z_scope.

(** * C76.  Full statement: Union::unwrap_if<T> gives the object that unwrap<T> gives, and nothing if unwrap<T> throws; then the tree is as before, so that trying types
    one after the other finds the first that unwrap does not refuse.  Not true of types with shared pointers: shared objects that were complete before the exception stay in the
    table of the tree. *)
Definition try_tree (bs : bytes) : handle := match run_block (load_tree ex_fp 400 json_p) (mkBlk [] bs) with Ok ((_, (k, n)), _) => root_of k n | _ => None end.
Definition try_doc : handle := try_tree (js ($"{'a':{'srl_shared_key':0,'srl_shared_value':{'x':1,'tag':'s'}}}")).
(** class 2 has two more members *)
Definition try_second : ct := CTab (CShared (CTab (CStr EUTF8))).
Theorem C76_leftover_refuted : exists F w t u s s', fst (unwrap_if F w t u s) = Ok None /\ s' = snd (unwrap_if F w t u s) /\ s = rs_new /\ s' = mkRs [(CCls 0, pt 1 ($"s"))] [(0, 0%nat)].
Proof. exists 50%nat, ex_world, (CCls 2), try_doc, rs_new. eexists. split; [vm_compute; reflexivity|]. split; [reflexivity|]. split; vm_compute; reflexivity. Qed.
(** the first type is refused, the second is possible; after the first, the second one is undefined behaviour *)
Theorem C76_order_refuted : exists F w u ts v s', first_of F w u rs_new ts 1 v s' /\ fst (unwrap_first F w ts u rs_new) = UB UbCast /\ v = VTab [($"a", VRef 0)] /\ r_heap s' = [(CTab (CStr EUTF8), VTab [($"x", VStr ($"1")); ($"tag", VStr ($"s"))])].
Proof.
  exists 50%nat, ex_world, try_doc, [CCls 2; try_second], (VTab [($"a", VRef 0)]), (mkRs [(CTab (CStr EUTF8), VTab [($"x", VStr ($"1")); ($"tag", VStr ($"s"))])] [(0, 0%nat)]).
  split; [apply fo_next; [vm_compute; reflexivity|apply fo_here; vm_compute; reflexivity]|]. repeat split; vm_compute; reflexivity.
Qed.

(** unwrap_if never throws; what it gives is what unwrap gives, whatever the tree, the type and the table *)
Theorem C76_answers : forall F w t u s, match handle_unwrap F w t u s with
  | ERet (v, s') => unwrap_if F w t u s = (Ok (Some v), s')
  | EThrow => fst (unwrap_if F w t u s) = Ok None
  | EUndef x => fst (unwrap_if F w t u s) = UB x
  | EFuel => fst (unwrap_if F w t u s) = Fuel
  | ERead _ => False
  end.
Proof. exact if_answers. Qed.
(** after every outcome the shared objects made before are there under their keys *)
Theorem C76_later : forall F w t u s, later s (snd (unwrap_if F w t u s)).
Proof. exact if_later. Qed.
(** asked again at once, unwrap_if answers the same and changes nothing, also if the answer is nothing *)
Theorem C76_again_partial : forall F w t u s r s1, part_of u (keys_apart w) -> unwrap_if F w t u s = (r, s1) -> unwrap_if F w t u s1 = (r, s1).
Proof. exact if_again. Qed.
(** True if the types that are refused have no shared pointers: they leave the tree alone ... *)
Theorem C76_unshared_partial : forall F w t u s s', unshared w t -> unwrap_if F w t u s' = (fst (unwrap_if F w t u s), s').
Proof. exact if_unshared. Qed.
(** ... and the first possible type is found *)
Theorem C76_first_partial : forall F w u ts s i v s', Forall (unshared w) (firstn i ts) -> unwrap_first F w ts u s = (Ok (Some (i, v)), s') <-> first_of F w u s ts i v s'.
Proof. exact first_iff. Qed.
Theorem C76_none_partial : forall F w u ts s, Forall (unshared w) ts -> (exists s', unwrap_first F w ts u s = (Ok None, s')) <-> Forall (fun t => refuses F w t u s) ts.
Proof. exact first_none. Qed.
Print Assumptions C76_leftover_refuted.
Print Assumptions C76_order_refuted.
Print Assumptions C76_answers.
Print Assumptions C76_later.
Print Assumptions C76_again_partial.
Print Assumptions C76_unshared_partial.
Print Assumptions C76_first_partial.
Print Assumptions C76_none_partial.

(** * Examples: {"x": 5, "tag": "t"} is no list, no number and no class 3, but a class 0 *)
Definition try_pt : handle := try_tree (js ($"{'x':5,'tag':'t'}")).
Lemma try_unshared : Forall (unshared ex_world) [CSeq (CNum TI8); CNum TI32; CCls 3].
Proof.
  assert (N : forall t u, part ex_world (CNum t) u -> u = CNum t) by (intros t u P; inversion P; reflexivity).
  assert (S : forall e u, part ex_world (CStr e) u -> u = CStr e) by (intros e u P; inversion P; reflexivity).
  assert (P0 : forall u, part ex_world (CCls 0) u -> u = CCls 0 \/ u = CNum TI32 \/ u = CStr EUTF8).
  { intros u P. inversion P as [|? f ? J Q| | | | | | | | | | | | | | | |]; subst; [now left|]. cbn [w_cls ex_world ex_cls pt_fields] in J. destruct J as [<-|[<-|[]]]; cbn [f_type] in Q; [apply N in Q|apply S in Q]; auto. }
  repeat constructor; intros P.
  - inversion P as [| | |? ? Q| | | | | | | | | | | | | |]; subst. apply N in Q. discriminate.
  - inversion P as [| | |? ? Q| | | | | | | | | | | | | |]; subst. apply N in Q. discriminate.
  - apply N in P. discriminate.
  - apply N in P. discriminate.
  - inversion P as [|? f ? J Q| | | | | | | | | | | | | | | |]; subst. cbn [w_cls ex_world ex_cls] in J. destruct J as [<-|[<-|[]]]; cbn [f_type] in Q; [apply P0 in Q; destruct Q as [Q|[Q|Q]]|apply N in Q]; discriminate.
  - inversion P as [|? f ? J Q| | | | | | | | | | | | | | | |]; subst. cbn [w_cls ex_world ex_cls] in J. destruct J as [<-|[<-|[]]]; cbn [f_type] in Q; [apply P0 in Q; destruct Q as [Q|[Q|Q]]|apply N in Q]; discriminate.
Qed.
Example C76_ex_first : unwrap_first 50 ex_world [CSeq (CNum TI8); CNum TI32; CCls 3; CCls 0] try_pt rs_new = (Ok (Some (3%nat, pt 5 ($"t"))), rs_new).
Proof. apply C76_first_partial; [exact try_unshared|]. do 3 (apply fo_next; [vm_compute; reflexivity|]). apply fo_here. vm_compute. reflexivity. Qed.
Example C76_ex_none : exists s', unwrap_first 50 ex_world [CSeq (CNum TI8); CNum TI32; CCls 3] try_pt rs_new = (Ok None, s').
Proof. apply C76_none_partial; [exact try_unshared|]. repeat (apply Forall_cons; [vm_compute; reflexivity|]). apply Forall_nil. Qed.
(** with leftovers: the answer stays nothing *)
Example C76_ex_again : unwrap_if 50 ex_world (CCls 2) try_doc (snd (unwrap_if 50 ex_world (CCls 2) try_doc rs_new)) = (Ok None, mkRs [(CCls 0, pt 1 ($"s"))] [(0, 0%nat)]).
Proof. vm_compute. reflexivity. Qed.
