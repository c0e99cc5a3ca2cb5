(** Property C89: null pointers. *)
From Coq Require Import ZArith List Bool Lia ZifyBool ZifyNat.
From Verif Require Import Base Lemmas M_Types M_Conv M_Charset M_Heap M_In S_Doc M_Event M_PSrl M_MsgPack M_Json M_Tree S_Tree M_TreeIO S_TreeIO M_Object S_Object S_ObjStore M_ObjIO S_ObjIO S_Null
  P_Null Properties_Object.
Import ListNotations.
Open Scope Z_scope.

(** Containers of pointers to things with parts: what is restored, directly or from a tree, is the container without its null
    pointers, in every format. *)
Theorem C89_containers : forall w p hp lev n t v name, regular w -> constructs w -> S_ObjStore.heap_ok w hp lev (carried (w_fp w) p) -> of_pointers t = true ->
  storable w hp lev (carried (w_fp w) p) n t (without_nulls v) -> name_fits p name -> names_fit w p hp v ->
  exists d tab size, (forall F, (size <= F)%nat -> stored_doc F w hp t v name [] = Ok (d, tab)) /\
  (size_fits p d -> exists bs, stores_as w hp p name t v bs /\
    forall old, exists c s r, restores_as w p bs t old c s /\ unwraps_as w p bs t old c s /\ same_object r (without_nulls v) c /\ same_heap r hp (r_heap s)).
Proof. intros w p hp lev n t v name RG NW HP OP ST N (NC & NV & NH). exact (nulls_lost w p hp lev RG HP NC NH n t v name NW OP ST N NV). Qed.
Print Assumptions C89_containers.
(** An array of such pointers with a null pointer in it can be stored, but not restored. *)
Theorem C89_arrays : forall w p hp lev n m e vs name, S_ObjStore.heap_ok w hp lev (carried (w_fp w) p) -> to_parts e = true -> length vs = m ->
  Forall (or_null (storable w hp lev (carried (w_fp w) p) n) e) vs -> existsb null vs = true -> name_fits p name -> names_fit w p hp (VList vs) ->
  exists d tab size, (forall F, (size <= F)%nat -> stored_doc F w hp (CArr m e) (VList vs) name [] = Ok (d, tab)) /\
  (size_fits p d -> exists bs k nd, stores_as w hp p name (CArr m e) (VList vs) bs /\ loads_as (w_fp w) p bs k nd /\ forall F old r, unwrap_prog F w (CArr m e) old nd rs_new <> ERet r).
Proof. intros w p hp lev n m e vs name HP TP L MB EX N (NC & NV & NH). exact (array_fails w p hp lev HP NC NH n m e vs name TP L MB EX N NV). Qed.
Print Assumptions C89_arrays.
(** Nor can an object with such a member, unless the member is optional. *)
Theorem C89_members : forall w p hp lev n c vs name g, S_ObjStore.heap_ok w hp lev (carried (w_fp w) p) -> named_class (w_cls w c) ->
  Forall2 (fun f v => or_null (storable w hp lev (carried (w_fp w) p) n) (f_type f) v) (w_cls w c) vs -> In (g, VNone) (combine (w_cls w c) vs) -> to_parts (f_type g) = true -> f_opt g = false ->
  name_fits p name -> names_fit w p hp (VList vs) ->
  exists d tab size, (forall F, (size <= F)%nat -> stored_doc F w hp (CCls c) (VList vs) name [] = Ok (d, tab)) /\
  (size_fits p d -> exists bs k nd, stores_as w hp p name (CCls c) (VList vs) bs /\ loads_as (w_fp w) p bs k nd /\ forall F old r, unwrap_prog F w (CCls c) old nd rs_new <> ERet r).
Proof. intros w p hp lev n c vs name g HP ND MB IG TG OG N (NC & NV & NH). exact (member_fails w p hp lev HP NC NH n c vs name g ND MB IG TG OG N NV). Qed.
Print Assumptions C89_members.
(** A unique_ptr to a number that is null is restored as a pointer to 0, to a string as a pointer to the string of the constructor. *)
Theorem C89_unique : forall w p hp e name v, regular w -> made_up w e = Some v -> scoped e = false -> name_fits p name ->
  exists d tab size, (forall F, (size <= F)%nat -> stored_doc F w hp (CUniq e) VNone name [] = Ok (d, tab)) /\
  (size_fits p d -> exists bs, stores_as w hp p name (CUniq e) VNone bs /\ forall old, restores_as w p bs (CUniq e) old (VSome v) rs_new /\ unwraps_as w p bs (CUniq e) old (VSome v) rs_new).
Proof. intros w p hp e name v RG MU SE N. exact (unique_made_up w p hp RG e name v MU SE N). Qed.
Print Assumptions C89_unique.
(** That null pointers are restored as null pointers is false: *)
Theorem C89_null_refuted : exists p hp t v c s, null v = true /\ io p hp t v = Ok (c, s) /\ c <> v.
Proof. exists (MsgpP msgp_init), [], (CUniq (CNum TI32)), VNone, (VSome (VNum 0)), rs_new. split; [reflexivity|]. split; [vm_compute; reflexivity|discriminate]. Qed.
Print Assumptions C89_null_refuted.

(** A list of shared pointers: two null pointers, a point, a null pointer, the point again.  A table and an array of pointers. *)
Definition ex_shared : cv := VList [VNone; VNone; VRef 0; VNone; VRef 0].
Example C89_ex :
  Forall (fun p =>
    io p [(CCls 0, pt 3 ($"x"))] (CSeq (CShared (CCls 0))) ex_shared = Ok (VList [VRef 0; VRef 0], mkRs [(CCls 0, pt 3 ($"x"))] [(0, 0%nat)]) /\
    io p [] (CTab (CUniq (CCls 0))) (VTab [($"a", VNone); ($"b", VSome (pt 4 ($"y")))]) = Ok (VTab [($"b", VSome (pt 4 ($"y")))], rs_new) /\
    (exists bs, io_bytes p [] (CArr 2 (CPtr (CCls 0))) (VList [VNone; VSome (pt 4 ($"y"))]) = Ok bs /\ io_back p bs (CArr 2 (CPtr (CCls 0))) = Err /\ io_tree p bs (CArr 2 (CPtr (CCls 0))) = Err) /\
    (exists bs, io_bytes p [] (CMap (CNum TI8) (CPtr (CCls 0))) (VMap [(VNum 1, VNone)]) = Ok bs /\ io_back p bs (CMap (CNum TI8) (CPtr (CCls 0))) = Err) /\
    io p [] (CSeq (CUniq (CNum TI32))) (VList [VNone; VSome (VNum 5)]) = Ok (VList [VSome (VNum 0); VSome (VNum 5)], rs_new) /\
    io p [] (CSeq (CPtr (CNum TI32))) (VList [VNone; VSome (VNum 5)]) = Ok (VList [VNone; VSome (VNum 5)], rs_new))
  [PsrlP psrl_init; MsgpP msgp_init; json_p] /\
  without_nulls ex_shared = VList [VRef 0; VRef 0] /\ of_pointers (CSeq (CShared (CCls 0))) = true.
Proof.
  split; [|split; reflexivity]. repeat apply Forall_cons; [..|apply Forall_nil]; (split; [vm_compute; reflexivity|split; [vm_compute; reflexivity|split; [|split; [|split; vm_compute; reflexivity]]]]); eexists; (split; [vm_compute; reflexivity|]); vm_compute; auto.
Qed.
