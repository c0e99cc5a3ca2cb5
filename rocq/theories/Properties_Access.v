(** C75: parts of an object, reached by name and position in a tree. *)
From Coq Require Import ZArith List Bool Lia ZifyBool ZifyNat.
From Verif Require Import Base Lemmas M_Types M_Conv M_TpTools M_In S_Doc M_Env M_Event M_Tree S_Tree M_TreeIO S_TreeIO M_PSrl M_MsgPack M_Json M_Heap M_Out M_Object S_Object S_ObjStore M_ObjIO S_ObjIO M_Pack S_Pack M_Insert S_Insert
  M_Access S_Access P_Access Properties_Object.
Import ListNotations.
Open Scope Z_scope.

(** * Full statement: in the tree loaded from a stored object, every part of the object is found under the names of the members and the positions of the elements
    that lead to it, and Union::unwrap gives it.  Not true of raw pointers to numbers and strings, of shared pointers, and of tuples. *)
Definition ac_tree (bs : bytes) : handle := match run_block (load_tree ex_fp 400 json_p) (mkBlk [] bs) with Ok ((_, (k, n)), _) => root_of k n | _ => None end.
Definition ac_unwrap (bs : bytes) (hs : list hop) (t : ct) : res (cv * heap_t) :=
  let* u := follow (ac_tree bs) hs in match handle_unwrap 50 ex_world t u rs_new with ERet (v, s) => Ok (v, r_heap s) | EThrow => Err | EUndef u => UB u | _ => Fuel end.
(** the pointer that unwrap returns is deleted before it is set *)
Theorem C75_pointer_refuted : exists bs v, io_bytes json_p [] (CSeq (CPtr (CNum TI32))) (VList [v]) = Ok bs /\ io_tree json_p bs (CSeq (CPtr (CNum TI32))) = Ok (VList [v], rs_new) /\
  ac_unwrap bs [ByIndex 0] (CPtr (CNum TI32)) = UB UbPtr /\ ac_unwrap bs [ByIndex 0] (CNum TI32) = Ok (VNum 7, []) /\ v = VSome (VNum 7).
Proof. exists ($"[7]"), (VSome (VNum 7)). repeat split; vm_compute; reflexivity. Qed.
(** of two pointers to one object only the first one holds the object *)
Theorem C75_shared_refuted : exists bs hp v, io_bytes json_p hp (CCls 2) v = Ok bs /\ (exists s, io_tree json_p bs (CCls 2) = Ok (v, s)) /\
  ac_unwrap bs [ByName ($"a")] (CShared (CCls 0)) = Ok (VRef 0, hp) /\ ac_unwrap bs [ByName ($"b")] (CShared (CCls 0)) = Err.
Proof.
  do 1 eexists. exists [(CCls 0, pt 1 ($"s"))], (VList [VRef 0; VRef 0; VRef 0]). split; [vm_compute; reflexivity|]. split; [eexists; vm_compute; reflexivity|]. split; vm_compute; reflexivity.
Qed.
(** in a tuple the positions count objects before values, and a value behind them is not found but dereferenced *)
Theorem C75_tuple_refuted : exists bs v, io_bytes json_p [] (CSeq (CTup 3)) (VList [v]) = Ok bs /\ io_tree json_p bs (CSeq (CTup 3)) = Ok (VList [v], rs_new) /\ v = VList [pt 1 ($"s"); VNum 2] /\
  ac_unwrap bs [ByIndex 0; ByIndex 1] (CNum TI32) = UB UbNull.
Proof. do 1 eexists. exists (VList [pt 1 ($"s"); VNum 2]). split; [vm_compute; reflexivity|]. repeat split; vm_compute; reflexivity. Qed.

(** True of everything else.  [inside]: the parts and the way to them, members by name, elements by position, entries of maps, also behind raw and unique pointers.  [own_part]: parts
    without shared pointers, of a type without shared pointers (the object around them may have some).  [reached]: unwrap and copy_to give the part, types of the other kind are
    refused, names that the part does not have are not found. *)
Theorem C75_stored_parts_partial : forall w p hp lev n t v name, regular w -> constructs w -> S_ObjStore.heap_ok w hp lev (carried (w_fp w) p) -> storable w hp lev (carried (w_fp w) p) n t v -> scoped t = true ->
  name_fits p name -> names_fit w p hp v ->
  exists d tab size, (forall F, (size <= F)%nat -> stored_doc F w hp t v name [] = Ok (d, tab)) /\
  (size_fits p d -> exists bs k nd, stores_as w hp p name t v bs /\ loads_as (w_fp w) p bs k nd /\
    forall hs t' v', inside w t v hs t' v' -> exists u, follow (root_of k nd) hs = Ok u /\ reached w size t' v' u).
Proof. exact stored_parts. Qed.
(** the same in a tree into which the object was inserted under a name that was not there; any values *)
Theorem C75_inserted_parts_partial : forall w hp lev n i T, regular w -> constructs w -> S_ObjStore.heap_ok w hp lev any_value -> storable w hp lev any_value n (i_type i) (i_val i) -> ~ In (i_name i) (names_in (t_root T)) ->
  exists size T', (forall F, (size <= F)%nat -> insert_root F w hp i T = Ok T') /\
    forall k hs t' v', inside w (i_type i) (i_val i) hs t' v' -> exists u, follow (root_of k (t_root T')) (ByName (i_name i) :: hs) = Ok u /\ reached w size t' v' u.
Proof. exact inserted_parts. Qed.
Print Assumptions C75_pointer_refuted.
Print Assumptions C75_shared_refuted.
Print Assumptions C75_tuple_refuted.
Print Assumptions C75_stored_parts_partial.
Print Assumptions C75_inserted_parts_partial.

(** * Examples: a class in a table in a list; the value of the second entry of a map *)
Lemma ac_inside : inside ex_world (CCls 1) ex_obj [ByName ($"m"); ByIndex 1; ByName ($"value")] (CNum TUI8) (VNum 255) /\ inside ex_world (CCls 1) ex_obj [ByName ($"q"); ByName ($"second"); ByIndex 0] (CNum TI8) (VNum 3) /\
  inside ex_world (CCls 1) ex_obj [ByName ($"p"); ByName ($"tag")] (CStr EUTF8) (VStr ($"p")) /\ inside ex_world (CCls 1) ex_obj [ByName ($"p")] (CCls 0) (pt (-5) ($"p")).
Proof.
  unfold ex_obj. split; [|split; [|split]].
  - apply (in_member ex_world 1 _ 2 (mkField ($"m") false (CMap (CStr EUTF8) (CNum TUI8))) (VMap [(VStr ($"a"), VNum 7); (VStr ($"b"), VNum 255)])); [reflexivity|discriminate|reflexivity|]. cbn [f_type].
    apply (in_value ex_world _ _ _ 1 (VStr ($"b")) (VNum 255)); [reflexivity|]. apply in_here.
  - apply (in_member ex_world 1 _ 3 (mkField ($"q") false (CPair (CNum TBool) (CArr 2 (CNum TI8)))) (VList [VNum 1; VList [VNum 3; VNum (-4)]])); [reflexivity|discriminate|reflexivity|]. cbn [f_type].
    apply in_second. apply (in_elem ex_world _ (CNum TI8) _ 0 (VNum 3)); [right; right; reflexivity|reflexivity|]. apply in_here.
  - apply (in_member ex_world 1 _ 0 (mkField ($"p") false (CCls 0)) (pt (-5) ($"p"))); [reflexivity|discriminate|reflexivity|]. cbn [f_type].
    apply (in_member ex_world 0 _ 1 (mkField ($"tag") false (CStr EUTF8)) (VStr ($"p"))); [reflexivity|discriminate|reflexivity|]. apply in_here.
  - apply (in_member ex_world 1 _ 0 (mkField ($"p") false (CCls 0)) (pt (-5) ($"p"))); [reflexivity|discriminate|reflexivity|]. apply in_here.
Qed.
Lemma ac_own : own_part ex_world (CCls 0) (pt (-5) ($"p")).
Proof.
  split; [reflexivity|]. exists (fun t => t = CCls 0 \/ t = CNum TI32 \/ t = CStr EUTF8). split; [now left|]. split.
  - intros t u [->|[->| ->]] P; cbn in P; try contradiction. destruct P as (f & [<-|[<-|[]]] & ->); cbn; auto.
  - intros e. split; intros [H|[H|H]]; discriminate H.
Qed.
Example C75_premises_ex : regular ex_world /\ constructs ex_world /\ storable ex_world [] (fun _ => 0%nat) (carried ex_fp (PsrlP psrl_init)) 0 (CCls 1) ex_obj /\ names_fit ex_world (PsrlP psrl_init) [] ex_obj.
Proof. split; [exact ex_regular|]. split; [exact ex_constructs|]. split; [exact ex_storable|]. apply ex_names; reflexivity. Qed.
Definition ac_of (q : parser) (hs : list hop) (t : ct) : res cv :=
  let* bs := io_bytes q [] (CCls 1) ex_obj in
  let* (r, _) := run_block (load_tree ex_fp 400 q) (mkBlk [] bs) in let* u := follow (root_of (fst (snd r)) (snd (snd r))) hs in
  match handle_unwrap 50 ex_world t u rs_new with ERet (v, _) => Ok v | EThrow => Err | EUndef u => UB u | _ => Fuel end.
Example C75_ex : forall q, In q [PsrlP psrl_init; MsgpP msgp_init] ->
  ac_of q [ByName ($"m"); ByIndex 1; ByName ($"value")] (CNum TUI8) = Ok (VNum 255) /\ ac_of q [ByName ($"q"); ByName ($"second"); ByIndex 0] (CNum TI8) = Ok (VNum 3) /\
  ac_of q [ByName ($"p")] (CCls 0) = Ok (pt (-5) ($"p")) /\ ac_of q [ByName ($"p")] (CNum TI32) = Err /\ ac_of q [ByName ($"p"); ByName ($"y")] (CNum TI32) = Err /\ ac_of q [ByName ($"list")] (CSeq (CStr EUTF8)) = Ok (VList [VStr ($"1"); VStr ($"-9223372036854775807")]).
Proof. intros q [<-|[<-|[]]]; repeat split; vm_compute; reflexivity. Qed.
