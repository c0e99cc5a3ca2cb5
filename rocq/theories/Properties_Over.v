(** C69: restoring overwrites what the object held before. *)
From Coq Require Import ZArith List Bool.
From Verif Require Import Base M_Types M_Conv M_TpTools M_In S_Doc M_Env M_Event M_Tree M_TreeIO M_PSrl M_MsgPack M_Json M_Object M_ObjIO S_ObjStore S_Over P_Over Properties_Object.
Import ListNotations.
Open Scope Z_scope.

(** * C69.  Full statement: the object after Tree::restore, or Node::paste, depends on the input only.  Not true of strings if
    the input contains Null, of optional members that are not in the input, and of character arrays. *)
Definition ov_cls (c : nat) : list field :=
  match c with
  | 0%nat => pt_fields
  | 1%nat => [mkField ($"x") true (CNum TI32); mkField ($"tag") false (CStr EUTF8)]
  | 2%nat => [mkField ($"a") false (CChars EUTF8 6)]
  | _ => [mkField ($"n") false (CStr EUTF8); mkField ($"l") false (CSeq (CNum TI32)); mkField ($"p") false (CPair (CNum TBool) (CArr 2 (CCls 0))); mkField ($"u") false (CUniq (CChars EUTF8 4))]
  end.
Definition ov_world : world := mkWorld ex_fp ov_cls (fun _ => []) (fun _ _ => Ok None) ex_new ex_lt.
Definition ov_back (bs : bytes) (t : ct) (old : cv) : res cv := let* (r, _) := run_block (restore_object ex_fp 400 ov_world json_p t old) (mkBlk [] bs) in Ok (fst (snd r)).
Definition ov_tree (bs : bytes) (t : ct) (old : cv) : res cv :=
  let* (r, _) := run_block (load_tree ex_fp 400 json_p) (mkBlk [] bs) in
  match erun (unwrap_prog 400 ov_world t old (snd (snd r)) rs_new) [] with Some (Ok (x, _)) => Ok (fst x) | Some Err => Err | Some (UB u) => UB u | _ => Fuel end.

Theorem C69_null_string_refuted : exists bs a b, shape ov_world (CCls 0) a /\ shape ov_world (CCls 0) b /\ ov_back bs (CCls 0) a = Ok a /\ ov_back bs (CCls 0) b = Ok b /\
  ov_tree bs (CCls 0) a = Ok a /\ ov_tree bs (CCls 0) b = Ok b /\ a <> b.
Proof.
  exists (js ($"{'x':1,'tag':null}")), (pt 1 ($"old")), (pt 1 []). split; [|split; [|repeat split; try (vm_compute; reflexivity); discriminate]]; apply sh_cls; repeat constructor.
Qed.
Theorem C69_optional_refuted : exists bs a b, shape ov_world (CCls 1) a /\ shape ov_world (CCls 1) b /\ ov_back bs (CCls 1) a = Ok a /\ ov_back bs (CCls 1) b = Ok b /\
  ov_tree bs (CCls 1) a = Ok a /\ ov_tree bs (CCls 1) b = Ok b /\ a <> b.
Proof.
  exists (js ($"{'tag':'t'}")), (pt 1 ($"t")), (pt 2 ($"t")). split; [|split; [|repeat split; try (vm_compute; reflexivity); discriminate]]; apply sh_cls; repeat constructor.
Qed.
Theorem C69_char_array_refuted : exists bs a b c d, length a = 6%nat /\ length b = 6%nat /\ ov_back bs (CCls 2) (VList [VStr a]) = Ok (VList [VStr c]) /\ ov_back bs (CCls 2) (VList [VStr b]) = Ok (VList [VStr d]) /\
  ov_tree bs (CCls 2) (VList [VStr a]) = Ok (VList [VStr c]) /\ ov_tree bs (CCls 2) (VList [VStr b]) = Ok (VList [VStr d]) /\ c <> d.
Proof.
  exists (js ($"{'a':'hi'}")), [1; 2; 3; 4; 5; 6], [0; 0; 0; 0; 0; 0], [104; 105; 0; 4; 5; 6], [104; 105; 0; 0; 0; 0]. repeat split; try (vm_compute; reflexivity). discriminate.
Qed.
(** True of everything else: all outcomes, from any input.  [rewritten]: nothing that is overwritten in place is optional or a
    character array; [strs]: there are strings, and then the input contains no Null. *)
Theorem C69_direct_partial : forall strs F w q t a b i, rewritten strs w t -> shape w t a -> shape w t b -> (strs = true -> block_without_null (w_fp w) F q i) ->
  run_block (restore_object (w_fp w) F w q t a) i = run_block (restore_object (w_fp w) F w q t b) i.
Proof. exact restore_over_block. Qed.
Theorem C69_stream_partial : forall strs F w q t a b i, rewritten strs w t -> shape w t a -> shape w t b -> (strs = true -> stream_without_null (w_fp w) F q i) ->
  run_stream (restore_object (w_fp w) F w q t a) i = run_stream (restore_object (w_fp w) F w q t b) i.
Proof. exact restore_over_stream. Qed.
Theorem C69_tree_partial : forall strs F w t a b n s, rewritten strs w t -> shape w t a -> shape w t b -> (strs = true -> tree_without_null n) ->
  unwrap_prog F w t a n s = unwrap_prog F w t b n s.
Proof. exact unwrap_over. Qed.
Print Assumptions C69_null_string_refuted.
Print Assumptions C69_optional_refuted.
Print Assumptions C69_char_array_refuted.
Print Assumptions C69_direct_partial.
Print Assumptions C69_stream_partial.
Print Assumptions C69_tree_partial.

(** two different objects, one result; the premises *)
Definition ov_a : cv := VList [VStr []; VList []; VList [VNum 0; VList [pt 0 []; pt 0 []]]; VNone].
Definition ov_b : cv := VList [VStr ($"before"); VList [VNum 1; VNum 2; VNum 3]; VList [VNum 1; VList [pt 5 ($"five"); pt 6 []]]; VSome (VStr [1; 2; 3; 4])].
Definition ov_doc : bytes := js ($"{'n':'now','l':[7],'p':{'first':false,'second':[{'x':1,'tag':'a'},{'tag':'b','x':2}]},'u':'c'}").
Example C69_ex : ov_back ov_doc (CCls 3) ov_a = ov_back ov_doc (CCls 3) ov_b /\ ov_tree ov_doc (CCls 3) ov_a = ov_tree ov_doc (CCls 3) ov_b /\
  ov_back ov_doc (CCls 3) ov_b = Ok (VList [VStr ($"now"); VList [VNum 7]; VList [VNum 0; VList [pt 1 ($"a"); pt 2 ($"b")]]; VSome (VStr ($"c" ++ [0; 0; 0]))]).
Proof. split; [vm_compute; reflexivity|]. split; vm_compute; reflexivity. Qed.
Example C69_premises_ex : rewritten true ov_world (CCls 3) /\ rewritten false ov_world (CArr 2 (CPair (CNum TI8) (CSeq (CStr EUTF8)))) /\ shape ov_world (CCls 3) ov_a /\ shape ov_world (CCls 3) ov_b /\
  block_without_null ex_fp 400 json_p (mkBlk [] ov_doc).
Proof.
  split; [|split; [|split; [|split]]].
  - apply rw_cls. cbn [w_cls ov_world ov_cls]. repeat (apply Forall_cons; [split; [reflexivity|]|]); try apply Forall_nil; try (apply rw_new; exact I || reflexivity).
    apply rw_pair; [apply rw_new; exact I|]. apply rw_arr. apply rw_cls. cbn [w_cls ov_world ov_cls pt_fields]. repeat (apply Forall_cons; [split; [reflexivity|]|]); try apply Forall_nil; apply rw_new; exact I || reflexivity.
  - apply rw_arr, rw_pair; apply rw_new; exact I.
  - apply sh_cls. cbn [w_cls ov_world ov_cls]. repeat (apply Forall2_cons); try apply Forall2_nil; try (apply sh_any; exact I). apply sh_pair; [apply sh_any; exact I|]. apply sh_arr; [reflexivity|]. repeat (apply Forall_cons; [apply sh_cls; repeat constructor|]). apply Forall_nil.
  - apply sh_cls. cbn [w_cls ov_world ov_cls]. repeat (apply Forall2_cons); try apply Forall2_nil; try (apply sh_any; exact I). apply sh_pair; [apply sh_any; exact I|]. apply sh_arr; [reflexivity|]. repeat (apply Forall_cons; [apply sh_cls; repeat constructor|]). apply Forall_nil.
  - destruct (run_block (with_parser ex_fp 400 json_p (first_items 20)) (mkBlk [] ov_doc)) as [[[q' es] i']| | |] eqn:E; [|vm_compute in E; discriminate..].
    eapply (items_det _ _ _ _ 20 q' es i' E); [|intros r; vm_compute; discriminate].
    assert (X : match run_block (with_parser ex_fp 400 json_p (first_items 20)) (mkBlk [] ov_doc) with Ok ((_, es), _) => forallb (fun e => negb (ty_eqb (v_type (snd e)) TNull)) es | _ => false end = true) by (vm_compute; reflexivity).
    rewrite E in X. apply Forall_forall. intros e I N. rewrite forallb_forall in X. specialize (X e I). rewrite N in X. discriminate.
Qed.
