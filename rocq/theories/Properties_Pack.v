(** Property C68: Tree::pack and Tree::unpack. *)
From Coq Require Import ZArith List Bool Lia ZifyBool ZifyNat.
From Verif Require Import Base Lemmas M_Types M_Conv M_Charset M_In S_Conv S_Doc S_Json M_OutOps M_Event M_Env M_PSrl M_MsgPack M_Json M_Heap M_Out M_Tree M_TreeIO S_TreeIO
  M_Object S_Object S_ObjStore M_ObjIO S_ObjIO M_Pack S_Pack P_Pack Properties_Object.
Import ListNotations.
Open Scope Z_scope.

(** * Packing objects under names writes the bytes that Tree::store writes for an object of a class with these members *)
Theorem C68_pack_is_store : forall x F w hp c p h its, class_of w c its ->
  pack_object x F w hp p h its = store_object x F w hp p h [] (CCls c) (VList (map i_val its)).
Proof. exact pack_store. Qed.
(** and, unlike Tree::store (C44), whatever the tree was used for before *)
Theorem C68_pack_again : forall F w hp its e e', tree_pack F w hp its e = tree_pack F w hp its e'.
Proof. exact pack_anew. Qed.
(** Unpacking reads any input, in memory or in a stream, exactly as Tree::restore reads an object of such a class: the same
    result, the same exceptions and undefined behaviours, the same position of the input *)
Theorem C68_unpack_is_restore : forall x F w q c ask, class_of w c ask -> named ask ->
  (forall b, run_block (restore_object x F w q (CCls c) (VList (map i_val ask))) b =
     let* (r, b') := run_block (unpack_object x F w q ask) b in Ok ((fst r, (VList (fst (snd r)), snd (snd r))), b')) /\
  (forall b, run_stream (restore_object x F w q (CCls c) (VList (map i_val ask))) b =
     let* (r, b') := run_stream (unpack_object x F w q ask) b in Ok ((fst r, (VList (fst (snd r)), snd (snd r))), b')).
Proof. intros x F w q c ask C N. exact (es_parser x F q _ _ _ (unpack_restore F w c ask C N)). Qed.
(** Round trip, with sharing; [old]: what the objects hold before *)
Theorem C68_round_trip : forall w p hp lev n c its old, regular w -> constructs w -> S_ObjStore.heap_ok w hp lev (carried (w_fp w) p) -> class_of w c its -> named its ->
  Forall (fun i => storable w hp lev (carried (w_fp w) p) n (i_type i) (i_val i)) its ->
  map i_name old = map i_name its -> map i_type old = map i_type its -> Forall (fun o => shape w (i_type o) (i_val o)) old -> names_fit w p hp (VList (map i_val its)) ->
  exists d tab size, (forall F, (size <= F)%nat -> pack_doc F w hp its [] = Ok (d, tab)) /\
  (size_fits p d -> exists bs vs s r, packs_as w hp p its bs /\ unpacks_as w p bs old vs s /\ pastes_as w p bs old vs s /\
     Forall2 (same_object r) (map i_val its) vs /\ same_heap r hp (r_heap s)).
Proof. exact pack_unpack. Qed.
(** Any of the packed objects can be asked for, in any order, each of them once *)
Theorem C68_any_order : forall w p hp lev n c ca its ask, regular w -> constructs w -> S_ObjStore.heap_ok w hp lev (carried (w_fp w) p) -> class_of w c its -> named its -> NoDup (map i_name its) ->
  Forall (fun i => storable w hp lev (carried (w_fp w) p) n (i_type i) (i_val i) /\ plain (i_val i) = true /\ unshared w (i_type i)) its ->
  class_of w ca ask -> NoDup (map i_name ask) -> Forall (fun a => shape w (i_type a) (i_val a) /\ exists v, packed its (i_name a) (i_type a) v) ask -> names_fit w p hp (VList (map i_val its)) ->
  exists d tab size, (forall F, (size <= F)%nat -> pack_doc F w hp its [] = Ok (d, tab)) /\
  (size_fits p d -> exists bs vs, packs_as w hp p its bs /\ unpacks_as w p bs ask vs rs_new /\ Forall2 (fun a v => packed its (i_name a) (i_type a) v) ask vs).
Proof. exact pack_unpack_any. Qed.

(** * Examples *)
Definition pk_cls (c : nat) : list field :=
  match c with 5 => [mkField ($"q") false (CPair (CNum TBool) (CArr 2 (CNum TI8))); mkField ($"list") false (CSeq (CNum TI64))] | _ => ex_cls c end%nat.
Fixpoint pk_new (t : ct) : cv :=
  match t with
  | CCls 5%nat | CTup 5%nat => VList [VList [VNum 0; VList [VNum 0; VNum 0]]; VList []]
  | CArr n e => VList (repeat (pk_new e) n)
  | CPair a b => VList [pk_new a; pk_new b]
  | _ => ex_new t
  end.
Definition pk_world : world := mkWorld ex_fp pk_cls (fun c => $"point") (fun _ s => Ok (if bytes_eqb (fst s) ($"point") then Some 0%nat else None)) pk_new ex_lt.
Definition pk_items : list item :=
  [mkItem ($"p") (CCls 0) (pt (-5) ($"p")); mkItem ($"list") (CSeq (CNum TI64)) (VList [VNum 1; VNum (1 - 2 ^ 63)]);
   mkItem ($"m") (CMap (CStr EUTF8) (CNum TUI8)) (VMap [(VStr ($"a"), VNum 7); (VStr ($"b"), VNum 255)]);
   mkItem ($"q") (CPair (CNum TBool) (CArr 2 (CNum TI8))) (VList [VNum 1; VList [VNum 3; VNum (-4)]])].
Definition pk_ask : list item := [mkItem ($"q") (CPair (CNum TBool) (CArr 2 (CNum TI8))) (VList [VNum 0; VList [VNum 9; VNum 9]]); mkItem ($"list") (CSeq (CNum TI64)) (VList [VNum 4])].
Definition pk_bytes (p : parser) (its : list item) : res bytes := let* (_, bs, _) := pack_object ex_fp 400 pk_world [] p (heap_init no_mem) its in Ok bs.
Definition pk_back (p : parser) (bs : bytes) (ask : list item) : res (list cv * rstate) :=
  let* (r, _) := run_block (unpack_object ex_fp 400 pk_world p ask) (mkBlk [] bs) in Ok (snd r).
Definition pk_tree (p : parser) (bs : bytes) (ask : list item) : res (list cv * rstate) :=
  let* (r, _) := run_block (load_tree ex_fp 400 p) (mkBlk [] bs) in
  match erun (paste_tree 400 pk_world ask (snd (snd r)) rs_new) [] with Some (Ok (x, _)) => Ok x | Some Err => Err | Some (UB u) => UB u | _ => Fuel end.

(** An object that is asked for twice is there only once when it is unpacked, and twice in a tree *)
Theorem C68_asked_twice_refuted : exists its ask bs, pk_bytes json_p its = Ok bs /\ ask = its ++ its /\ pk_back json_p bs ask = Err /\ pk_tree json_p bs ask = Ok (map i_val ask, rs_new).
Proof. exists [mkItem ($"n") (CNum TI32) (VNum 7)]. exists [mkItem ($"n") (CNum TI32) (VNum 7); mkItem ($"n") (CNum TI32) (VNum 7)], (js ($"{'n':7}")). split; [vm_compute; reflexivity|]. split; [reflexivity|]. split; vm_compute; reflexivity. Qed.
Print Assumptions C68_pack_is_store.
Print Assumptions C68_pack_again.
Print Assumptions C68_unpack_is_restore.
Print Assumptions C68_round_trip.
Print Assumptions C68_any_order.
Print Assumptions C68_asked_twice_refuted.

Example C68_ex : pk_bytes json_p [mkItem ($"a") (CNum TI32) (VNum 7); mkItem ($"b") (CSeq (CStr EUTF8)) (VList [VStr ($"x")])] = Ok (js ($"{'a':7,'b':['x']}")) /\
  pk_back json_p (js ($"{'z':[{}],'b':['x'],'a':7,'c':{}}")) [mkItem ($"a") (CNum TI32) (VNum 0); mkItem ($"b") (CSeq (CStr EUTF8)) (VList [])] = Ok ([VNum 7; VList [VStr ($"x")]], rs_new) /\
  (let* bs := pk_bytes (PsrlP psrl_init) pk_items in pk_back (PsrlP psrl_init) bs pk_ask) = Ok ([VList [VNum 1; VList [VNum 3; VNum (-4)]]; VList [VNum 1; VNum (1 - 2 ^ 63)]], rs_new) /\
  (let* bs := pk_bytes (MsgpP msgp_init) pk_items in pk_tree (MsgpP msgp_init) bs pk_ask) = Ok ([VList [VNum 1; VList [VNum 3; VNum (-4)]]; VList [VNum 1; VNum (1 - 2 ^ 63)]], rs_new).
Proof. repeat split; vm_compute; reflexivity. Qed.

(** the premises of C68_any_order, with these objects *)
Lemma pk_regular : regular pk_world.
Proof.
  split.
  - intros c. left. split.
    + destruct c as [|[|[|[|[|[|c]]]]]]; cbn [w_cls pk_world pk_cls ex_cls pt_fields]; repeat (apply Forall_cons; [vm_compute; reflexivity|]); apply Forall_nil.
    + destruct c as [|[|[|[|[|[|c]]]]]]; cbn [w_cls pk_world pk_cls ex_cls pt_fields map f_name]; repeat (apply NoDup_cons; [intros H; cbn [In] in H; repeat (destruct H as [H|H]; [discriminate H|]); exact H|]); apply NoDup_nil.
  - intros u id c H. cbn [w_reg pk_world] in H. destruct (bytes_eqb (fst id) ($"point")); [|discriminate]. injection H as <-. split; [split|].
    + repeat (apply Forall_cons; [vm_compute; reflexivity|]); apply Forall_nil.
    + cbn [w_cls pk_world pk_cls ex_cls pt_fields map f_name]. repeat (apply NoDup_cons; [intros H; cbn [In] in H; repeat (destruct H as [H|H]; [discriminate H|]); exact H|]); apply NoDup_nil.
    + cbn [w_cls pk_world pk_cls ex_cls pt_fields map f_name In]. intros H. repeat (destruct H as [H|H]; [discriminate H|]). exact H.
Qed.
Ltac pk_shaped :=
  repeat lazymatch goal with
  | |- shape _ (CCls _) _ => apply sh_cls; cbn [w_cls pk_world pk_cls ex_cls pt_fields]
  | |- shape _ (CTup _) _ => apply sh_tup; cbn [w_cls pk_world pk_cls ex_cls pt_fields]
  | |- shape _ (CArr _ _) _ => apply sh_arr; [reflexivity|]
  | |- shape _ (CPair _ _) _ => apply sh_pair
  | |- shape _ (CChars _ _) _ => apply sh_chars
  | |- shape _ _ _ => apply sh_any; exact I
  | |- Forall2 _ _ _ => constructor; cbn [f_type]
  | |- Forall _ _ => constructor
  end.
Lemma pk_constructs : constructs pk_world.
Proof.
  intros t. induction t; try (apply sh_any; exact I); cbn [w_new pk_world pk_new ex_new].
  - apply sh_chars.
  - destruct c as [|[|[|[|[|[|c]]]]]]; cbn [pk_new ex_new]; unfold ex_new_cls, pt; pk_shaped.
  - apply sh_arr; [apply repeat_length|]. apply Forall_forall. intros x Hx. apply repeat_spec in Hx. now subst.
  - now apply sh_pair.
  - destruct c as [|[|[|[|[|[|c]]]]]]; cbn [pk_new ex_new]; unfold ex_new_cls, pt; pk_shaped.
Qed.
Lemma pk_names p : names_fit pk_world p [] (VList (map i_val pk_items)).
Proof.
  split; [|split; [|intros [|a]; discriminate]].
  - intros c f I. apply name_ok_fits. assert (B : forallb (fun f => name_ok (f_name f)) (pk_cls c) = true) by (destruct c as [|[|[|[|[|[|c]]]]]]; vm_compute; reflexivity).
    rewrite forallb_forall in B. now apply B.
  - constructor.
Qed.
Lemma pk_unshared t : In t [CCls 0; CSeq (CNum TI64); CMap (CStr EUTF8) (CNum TUI8); CPair (CNum TBool) (CArr 2 (CNum TI8))] -> unshared pk_world t.
Proof.
  intros H. exists (fun t => match t with CShared _ | CWeak _ | CPoly _ => False | CCls c | CTup c => c = 0%nat | CNum _ | CStr _ => True
    | CSeq e => e = CNum TI64 | CMap k e => k = CStr EUTF8 /\ e = CNum TUI8 | CPair a b => a = CNum TBool /\ b = CArr 2 (CNum TI8) | CArr _ e => e = CNum TI8 | _ => False end).
  split; [|split; [|intros e; split; intros []]].
  - cbn [In] in H. repeat (destruct H as [<-|H]; [repeat split|]). destruct H.
  - intros u v Hu P. destruct u; cbn [part_types] in P; try (now destruct Hu); try (now destruct P).
    + subst c. destruct P as (f & [<-|[<-|[]]] & ->); exact I.
    + now subst.
    + destruct Hu as [-> ->]. destruct P as [->| ->]; exact I.
    + now subst.
    + destruct Hu as [-> ->]. destruct P as [->| ->]; [exact I|reflexivity].
    + subst c. destruct P as (f & [<-|[<-|[]]] & ->); exact I.
Qed.
Example C68_premises_ex : regular pk_world /\ constructs pk_world /\ class_of pk_world 1 pk_items /\ class_of pk_world 5 pk_ask /\ named pk_items /\ NoDup (map i_name pk_items) /\ NoDup (map i_name pk_ask) /\
  Forall (fun i => storable pk_world [] (fun _ => 0%nat) (carried ex_fp json_p) 0 (i_type i) (i_val i) /\ plain (i_val i) = true /\ unshared pk_world (i_type i)) pk_items /\
  Forall (fun a => shape pk_world (i_type a) (i_val a) /\ exists v, packed pk_items (i_name a) (i_type a) v) pk_ask /\ names_fit pk_world json_p [] (VList (map i_val pk_items)).
Proof.
  split; [exact pk_regular|]. split; [exact pk_constructs|]. split; [reflexivity|]. split; [reflexivity|].
  split; [repeat (apply Forall_cons; [vm_compute; reflexivity|]); apply Forall_nil|].
  split; [cbn [map i_name pk_items]; repeat (apply NoDup_cons; [intros H; cbn [In] in H; repeat (destruct H as [H|H]; [discriminate H|]); exact H|]); apply NoDup_nil|].
  split; [cbn [map i_name pk_ask]; repeat (apply NoDup_cons; [intros H; cbn [In] in H; repeat (destruct H as [H|H]; [discriminate H|]); exact H|]); apply NoDup_nil|].
  split; [|split; [|exact (pk_names json_p)]].
  - assert (N : forall ty n, carried ex_fp json_p (CNum ty) (VNum n) -> storable pk_world [] (fun _ => 0%nat) (carried ex_fp json_p) 0 (CNum ty) (VNum n)).
    { intros ty n H. apply st_leaf; [exact I| |exact H]. destruct H as [H _]. destruct ty; cbn in H |- *; try reflexivity; destruct H. }
    assert (S : forall s, name_ok s = true -> storable pk_world [] (fun _ => 0%nat) (carried ex_fp json_p) 0 (CStr EUTF8) (VStr s)).
    { intros s H. apply st_leaf; [exact I|reflexivity|]. destruct (name_ok_fits json_p s H) as [[W L] _]. split; [exact L|]. split; [exact W|now left]. }
    unfold pk_items. repeat (apply Forall_cons; [cbn [i_type i_val]; split; [|split; [reflexivity|apply pk_unshared; cbn; tauto]]|]); [| | | |apply Forall_nil].
    + apply st_cls. cbn [w_cls pk_world pk_cls ex_cls pt_fields]. constructor; [|constructor; [|constructor]]; cbn [f_type]; [apply N; split; [cbn; lia|exact I]|now apply S].
    + apply st_seq. constructor; [|constructor; [|constructor]]; apply N; split; cbn; try lia; exact I.
    + apply st_map; cbn [map fst snd].
      * constructor; [|constructor; [|constructor]]; now apply S.
      * constructor; [|constructor; [|constructor]]; apply N; (split; [cbn; lia|exact I]).
      * reflexivity.
      * intros i j x y L Hi Hj. destruct i as [|i]; [|destruct i as [|i]; [|now destruct i]]; destruct j as [|j]; try lia; destruct j as [|j]; try lia; cbn in Hi, Hj; try (now destruct j).
        injection Hi as <-. injection Hj as <-. now split.
    + apply st_pair; [apply N; split; [now right|exact I]|]. apply (st_arr pk_world [] _ _ 0 _ [VNum 3; VNum (-4)]). constructor; [|constructor; [|constructor]]; apply N; (split; [cbn; lia|exact I]).
  - unfold pk_ask. repeat (apply Forall_cons; [cbn [i_type i_val i_name]; split; [pk_shaped|]|]); [| |apply Forall_nil].
    + eexists. exists (nth 3 pk_items (mkItem [] (CPoly 0) VNone)). cbn. repeat split. tauto.
    + eexists. exists (nth 1 pk_items (mkItem [] (CPoly 0) VNone)). cbn. repeat split. tauto.
Qed.
