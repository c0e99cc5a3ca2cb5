(** C74: objects put into a tree and taken out again. *)
From Coq Require Import ZArith List Bool Lia ZifyBool ZifyNat.
From Verif Require Import Base Lemmas M_Types M_Conv M_TpTools M_In S_Doc M_Env M_Event M_Tree S_Tree M_TreeIO M_PSrl M_MsgPack M_Json M_Heap M_Out M_Object S_Object S_ObjStore M_ObjIO S_ObjIO M_Pack S_Pack M_Insert S_Insert P_Insert Properties_Object.
Import ListNotations.
Open Scope Z_scope.

(** * Inserting and asking.  Full statement: an object inserted under a name that the tree did not have can be asked for at any time afterwards, and
    then is what it was when it was inserted.  Not true of objects with shared pointers. *)
Definition in_ops (ops : list tree_op) (t : tree) : res (list cv * heap_t) :=
  match run_ops 50 ex_world ops t with ERet (vs, t') => Ok (vs, r_heap (t_objs t')) | EThrow => Err | EUndef u => UB u | _ => Fuel end.
Definition ask (k : bytes) (t : ct) : tree_op := OpPaste (mkItem k t (ex_new t)).
Definition sh0 (k : bytes) : item := mkItem k (CShared (CCls 0)) (VRef 0).
(** two pointers to one object: the second one asked for first *)
Theorem C74_order_refuted : exists hp a b, in_ops [OpInsert hp a; OpInsert hp b; ask (i_name a) (i_type a); ask (i_name b) (i_type b)] (new_tree TObject) = Ok ([VRef 0; VRef 0], hp) /\
  in_ops [OpInsert hp a; OpInsert hp b; ask (i_name b) (i_type b)] (new_tree TObject) = Err.
Proof. exists [(CCls 0, pt 1 ($"s"))], (sh0 ($"a")), (sh0 ($"b")). split; vm_compute; reflexivity. Qed.
(** the object changes between the insertions: both are what it was before *)
Theorem C74_change_refuted : exists hp hp' a b, in_ops [OpInsert hp' b; ask (i_name b) (i_type b)] (new_tree TObject) = Ok ([VRef 0], hp') /\ hp' <> hp /\
  in_ops [OpInsert hp a; OpInsert hp' b; ask (i_name a) (i_type a); ask (i_name b) (i_type b)] (new_tree TObject) = Ok ([VRef 0; VRef 0], hp).
Proof. exists [(CCls 0, pt 1 ($"s"))], [(CCls 0, pt 2 ($"t"))], (sh0 ($"a")), (sh0 ($"b")). split; [vm_compute; reflexivity|]. split; [discriminate|]. vm_compute. reflexivity. Qed.
(** the object is deleted after its insertion, another one is made at its address: undefined behaviour *)
Theorem C74_address_refuted : exists hp hp' a b, in_ops [OpInsert hp' b; ask (i_name b) (i_type b)] (new_tree TObject) = Ok ([VRef 0], hp') /\
  in_ops [OpInsert hp a; OpInsert hp' b; ask (i_name a) (i_type a); ask (i_name b) (i_type b)] (new_tree TObject) = UB UbCast.
Proof. exists [(CCls 0, pt 1 ($"s"))], [(CNum TI32, VNum 2)], (sh0 ($"a")), (mkItem ($"b") (CShared (CNum TI32)) (VRef 0)). split; vm_compute; reflexivity. Qed.
(** the tree was loaded from a source in which the key of the object is used: after asking for the object that was there, the
    inserted one is that one too *)
Definition in_tree (bs : bytes) : tree := loaded_tree (match run_block (load_tree ex_fp 400 json_p) (mkBlk [] bs) with Ok (r, _) => snd (snd r) | _ => empty_node TNull end).
Theorem C74_loaded_refuted : exists bs hp b, in_ops [OpInsert hp b; ask (i_name b) (i_type b)] (in_tree bs) = Ok ([VRef 0], hp) /\ hp = [(CCls 0, pt 2 ($"t"))] /\
  in_ops [OpInsert hp b; ask ($"a") (i_type b); ask (i_name b) (i_type b)] (in_tree bs) = Ok ([VRef 0; VRef 0], [(CCls 0, pt 1 ($"s"))]).
Proof. exists (js ($"{'a':{'srl_shared_key':0,'srl_shared_value':{'x':1,'tag':'s'}}}")), [(CCls 0, pt 2 ($"t"))], (sh0 ($"b")). split; [vm_compute; reflexivity|]. split; [reflexivity|]. vm_compute. reflexivity. Qed.

(** True: objects are given back, with sharing, if those with shared pointers are asked for once and in the order in which they were inserted and are not
    changed meanwhile; insertions and questions mixed; the others at any time and as often as one likes ([in_turn]).  Any numbers, strings in any encoding and blocks
    ([any_value]); any tree whose tables of shared objects are empty: new, cleared, or loaded. *)
Theorem C74_taken_out_partial : forall w hp lev n n0 ops vs, regular w -> constructs w -> S_ObjStore.heap_ok w hp lev any_value ->
  Forall (fun i => storable w hp lev any_value n (i_type i) (i_val i)) (inserted ops) -> in_turn w hp (names_in n0) [] [] ops vs ->
  exists size cs t r, (forall F, (size <= F)%nat -> run_ops F w ops (mkTree n0 [] rs_new) = ERet (cs, t)) /\ Forall2 (same_object r) vs cs /\ same_heap r hp (r_heap (t_objs t)).
Proof. exact taken_out. Qed.
(** inserting adds one item with that name and leaves the others as they are *)
Theorem C74_insert_adds : forall F w hp i t t', insert_root F w hp i t = Ok t' ->
  n_type (t_root t') = n_type (t_root t) /\ t_objs t' = t_objs t /\
  ((exists x, n_values (t_root t') = n_values (t_root t) ++ [(i_name i, x)] /\ n_nodes (t_root t') = n_nodes (t_root t)) \/
   (exists c, n_nodes (t_root t') = n_nodes (t_root t) ++ [(i_name i, c)] /\ n_values (t_root t') = n_values (t_root t))).
Proof. exact insert_adds. Qed.

(** * A tree made from an object.  Full statement: after Tree::load_object, Node::unwrap gives the object, and the tree is the one that is
    loaded from the bytes Tree::store writes.  Not true: the root keeps the type that it had before. *)
Definition saved (t : tree) : res bytes := let* (_, bs, _) := save_tree ex_fp json_p (heap_init no_mem) [] (t_root t) in Ok bs.
Definition reloaded (bs : bytes) : res bytes := saved (in_tree bs).
(** a list in a new tree is saved as an object without names *)
Theorem C74_list_refuted : exists t v bs bs', (let* r := load_object 50 ex_world [] t v (new_tree TObject) in saved r) = Ok bs /\ (let* b := io_bytes json_p [] t v in reloaded b) = Ok bs' /\
  bs = js ($"{'':1,'':2}") /\ bs' = js ($"[1,2]").
Proof. exists (CSeq (CNum TI32)), (VList [VNum 1; VNum 2]). eexists. eexists. split; [vm_compute; reflexivity|]. split; [vm_compute; reflexivity|]. split; vm_compute; reflexivity. Qed.
(** after an array the names of members are not saved, and tables cannot be unwrapped *)
Theorem C74_names_refuted : exists t v bs bs', (let* r := load_object 50 ex_world [] t v (in_tree (js ($"[7]"))) in saved r) = Ok bs /\ (let* r := load_object 50 ex_world [] t v (new_tree TObject) in saved r) = Ok bs' /\
  bs = js ($"[1,'s']") /\ bs' = js ($"{'x':1,'tag':'s'}").
Proof. exists (CCls 0), (pt 1 ($"s")). eexists. eexists. split; [vm_compute; reflexivity|]. split; [vm_compute; reflexivity|]. split; vm_compute; reflexivity. Qed.
Theorem C74_table_refuted : exists t v r, load_object 50 ex_world [] t v (in_tree (js ($"[7]"))) = Ok r /\ storable ex_world [] (fun _ => 0%nat) any_value 0 t v /\ unwrap_root 50 ex_world t (VTab []) r = EThrow.
Proof.
  exists (CTab (CNum TI32)), (VTab [($"k", VNum 1)]). eexists. split; [vm_compute; reflexivity|]. split; [|vm_compute; reflexivity].
  apply st_tab; [|cbn [map fst]; constructor; [intros []|constructor]]. cbn [map snd]. constructor; [|constructor]. apply st_leaf; [exact I|reflexivity|]. split; [cbn; lia|exact I].
Qed.
(** a null pointer to an object of a registered class is dereferenced; inserted with a name it is refused *)
Theorem C74_null_refuted : exists t v, load_object 50 ex_world [] t v (new_tree TObject) = UB UbNull /\ insert_root 50 ex_world [] (mkItem ($"p") t v) (new_tree TObject) = Err.
Proof. exists (CPoly 0), VNone. split; vm_compute; reflexivity. Qed.
(** True: whatever the tree held before, unwrapping gives the object, with sharing; tables and pairs need a root that is an object *)
Theorem C74_load_object_partial : forall w hp lev n tr t v old, regular w -> constructs w -> S_ObjStore.heap_ok w hp lev any_value -> storable w hp lev any_value n t v -> shape w t old ->
  is_scope (n_type (t_root tr)) = true -> takes (n_type (t_root tr)) t = true ->
  exists size t2 c t3 r, (forall F, (size <= F)%nat -> load_object F w hp t v tr = Ok t2 /\ unwrap_root F w t old t2 = ERet (c, t3)) /\ same_object r v c /\ same_heap r hp (r_heap (t_objs t3)).
Proof. exact loaded_object. Qed.
(** True: if the root has the type of the object, the tree is the one of the document that Tree::store writes *)
Theorem C74_load_is_store_partial : forall F w hp t v tr d tab, scoped t = true -> stored_doc F w hp t v [] [] = Ok (d, tab) -> is_sc d = true -> doc_type d = n_type (t_root tr) ->
  load_object F w hp t v tr = Ok (mkTree (doc_node d) tab rs_new).
Proof. exact load_stored. Qed.
Print Assumptions C74_order_refuted.
Print Assumptions C74_change_refuted.
Print Assumptions C74_address_refuted.
Print Assumptions C74_loaded_refuted.
Print Assumptions C74_taken_out_partial.
Print Assumptions C74_insert_adds.
Print Assumptions C74_list_refuted.
Print Assumptions C74_names_refuted.
Print Assumptions C74_table_refuted.
Print Assumptions C74_null_refuted.
Print Assumptions C74_load_object_partial.
Print Assumptions C74_load_is_store_partial.

(** * Examples: three objects around one shared point, and a list that is asked for twice, before and after *)
Definition in_hp : heap_t := [(CCls 0, pt 1 ($"s")); (CCls 0, pt 2 ($"t"))].
Definition in_a : item := mkItem ($"a") (CCls 2) (VList [VRef 1; VRef 0; VRef 1]).
Definition in_l : item := mkItem ($"l") (CSeq (CNum TFP64)) (VList [VNum 0; VNum (2 ^ 63)]).
Definition in_b : item := mkItem ($"b") (CShared (CCls 0)) (VRef 1).
Definition in_list : list tree_op :=
  [OpInsert in_hp in_l; OpInsert in_hp in_a; ask ($"l") (CSeq (CNum TFP64)); ask ($"a") (CCls 2); OpInsert in_hp in_b; ask ($"b") (CShared (CCls 0)); ask ($"l") (CSeq (CNum TFP64))].
Example C74_ops_ex : in_ops in_list (in_tree (js ($"{'x':[1],'y':2}"))) =
  Ok ([VList [VNum 0; VNum (2 ^ 63)]; VList [VRef 0; VRef 1; VRef 0]; VRef 0; VList [VNum 0; VNum (2 ^ 63)]], [(CCls 0, pt 2 ($"t")); (CCls 0, pt 1 ($"s"))]).
Proof. vm_compute. reflexivity. Qed.
Lemma in_l_free : free ex_world in_l.
Proof.
  split; [reflexivity|]. exists (fun t => t = CSeq (CNum TFP64) \/ t = CNum TFP64). split; [now left|]. split.
  - intros t u [->| ->] P; [right; exact P|destruct P].
  - intros e. split; intros [H|H]; discriminate H.
Qed.
Lemma in_pt x s : int_min TI32 <= x <= int_max TI32 -> zlen s < 2 ^ 32 -> forall m, storable ex_world in_hp (fun _ => 0%nat) any_value m (CCls 0) (pt x s).
Proof.
  intros X S m. apply st_cls. cbn [w_cls ex_world ex_cls pt_fields]. constructor; [|constructor; [|constructor]]; cbn [f_type]; apply st_leaf; try exact I; try reflexivity; split; auto. apply Z.mod_1_r.
Qed.
Example C74_premises_ex : regular ex_world /\ constructs ex_world /\ S_ObjStore.heap_ok ex_world in_hp (fun _ => 0%nat) any_value /\
  Forall (fun i => storable ex_world in_hp (fun _ => 0%nat) any_value 1 (i_type i) (i_val i)) (inserted in_list) /\
  in_turn ex_world in_hp [$"x"; $"y"] [] [] in_list [i_val in_l; i_val in_a; i_val in_b; i_val in_l].
Proof.
  split; [exact ex_regular|]. split; [exact ex_constructs|]. split; [|split].
  - split; [|reflexivity]. intros [|[|a]] e x H; cbn in H; try (now destruct a); injection H as <- <-; apply in_pt; cbn; lia.
  - cbn [inserted in_list flat_map app ask]. constructor; [|constructor; [|constructor; [|constructor]]]; cbn [i_type i_val in_l in_a in_b].
    + apply st_seq. constructor; [|constructor; [|constructor]]; apply st_leaf; try exact I; try reflexivity; (split; [|exact I]); cbn; split; try lia; discriminate.
    + apply st_cls. cbn [w_cls ex_world ex_cls]. constructor; [|constructor; [|constructor; [|constructor]]]; cbn [f_type]; [eapply st_shared|eapply st_shared|eapply st_weak]; try reflexivity; lia.
    + eapply st_shared; [reflexivity|lia].
  - assert (N : forall k l, forallb (fun x => negb (bytes_eqb k x)) l = true -> ~ In k l).
    { intros k l H I. rewrite forallb_forall in H. specialize (H _ I). rewrite (proj2 (bytes_eqb_eq k k) eq_refl) in H. discriminate H. }
    apply it_insert; [apply N; reflexivity|apply N; reflexivity|]. apply it_insert; [apply N; reflexivity|apply N; reflexivity|]. cbn [app].
    apply (it_free _ _ _ _ _ in_l); [now left|exact in_l_free|reflexivity|reflexivity|apply sh_any; exact I|]. apply it_skip; [exact in_l_free|].
    apply it_paste; [reflexivity|reflexivity|exact (ex_constructs (CCls 2))|]. apply it_insert; [apply N; reflexivity|apply N; reflexivity|]. cbn [app].
    apply it_paste; [reflexivity|reflexivity|apply sh_any; exact I|]. apply (it_free _ _ _ _ _ in_l); [now left|exact in_l_free|reflexivity|reflexivity|apply sh_any; exact I|]. apply it_end.
Qed.
Example C74_load_ex : (let* r := load_object 50 ex_world in_hp (CCls 2) (i_val in_a) (in_tree (js ($"{'srl_shared_key':0,'b':[1]}"))) in
    match unwrap_root 50 ex_world (CCls 2) (ex_new (CCls 2)) r with ERet (v, r') => Ok (v, r_heap (t_objs r')) | _ => Err end) = Ok (VList [VRef 0; VRef 1; VRef 0], [(CCls 0, pt 2 ($"t")); (CCls 0, pt 1 ($"s"))]) /\
  (let* r := load_object 50 ex_world [] (CNum TI32) (VNum 5) (in_tree (js ($"[7]"))) in
    match unwrap_root 50 ex_world (CNum TI32) (VNum 0) r with ERet (v, r') => Ok v | _ => Err end) = Ok (VNum 5) /\
  (let* (d, _) := stored_doc 50 ex_world [] (CCls 0) (pt 1 ($"s")) [] [] in let* r := load_object 50 ex_world [] (CCls 0) (pt 1 ($"s")) (new_tree TObject) in Ok (doc_type d, doc_node d)) =
    (let* r := load_object 50 ex_world [] (CCls 0) (pt 1 ($"s")) (new_tree TObject) in Ok (TObject, t_root r)).
Proof. split; [vm_compute; reflexivity|]. split; vm_compute; reflexivity. Qed.
