(** Property C97: the order of the elements of sets and maps in the input. *)
From Coq Require Import ZArith List Bool Lia Sorting.Permutation.
From Verif Require Import Base Lemmas M_Types M_Conv M_Charset M_In S_Doc M_Event M_Env M_PSrl M_MsgPack M_Json M_Tree S_Tree M_TreeIO S_TreeIO M_Object S_Object S_ObjSafe
  S_ObjStore M_ObjIO S_ObjIO S_Restored S_Again P_ObjMore P_Restored S_Mixed P_Mixed Properties_Object.
Import ListNotations.
Open Scope Z_scope.

(** * C97 the order of elements of sets and entries of maps.
    Full statement: an input in which the elements of sets and the entries of maps stand in another order gives the same object.
    False if some of them are equivalent: the first one counts.  [ex_lt] compares the first byte *)
Theorem C97_equivalent_refuted : exists d d' a b, Permutation (items d) (items d') /\ events d <> events d' /\
  unwrap_prog 9 ex_world (CSet (CStr EUTF8)) (VList []) (doc_node d) rs_new = ERet (VList [a], rs_new) /\
  unwrap_prog 9 ex_world (CSet (CStr EUTF8)) (VList []) (doc_node d') rs_new = ERet (VList [b], rs_new) /\ a <> b.
Proof.
  exists (DScope [] TArray [DVal [] (val_string ($"ab") EUTF8); DVal [] (val_string ($"ac") EUTF8)]), (DScope [] TArray [DVal [] (val_string ($"ac") EUTF8); DVal [] (val_string ($"ab") EUTF8)]), (VStr ($"ab")), (VStr ($"ac")).
  split; [apply perm_swap|]. split; [discriminate|]. split; [vm_compute; reflexivity|]. split; [vm_compute; reflexivity|discriminate].
Qed.
(** also when restored directly, here the entries of a map inside an object *)
Theorem C97_equivalent_direct_refuted : exists one other a b,
  one = js ($"{'p':{'x':1,'tag':''},'list':[],'m':[{'key':'ka','value':1},{'key':'kb','value':2}],'q':{'first':true,'second':[1,2]}}") /\
  other = js ($"{'p':{'x':1,'tag':''},'list':[],'m':[{'key':'kb','value':2},{'key':'ka','value':1}],'q':{'first':true,'second':[1,2]}}") /\
  io_back json_p one (CCls 1) = Ok (a, rs_new) /\ io_back json_p other (CCls 1) = Ok (b, rs_new) /\ a <> b.
Proof. do 4 eexists. split; [reflexivity|]. split; [reflexivity|]. split; [vm_compute; reflexivity|]. split; [vm_compute; reflexivity|discriminate]. Qed.
(** True if they are all different, wherever the sets and maps are inside the object ([mixed]), for every order of theirs,
    from a tree ... *)
Theorem C97_any_order_tree : forall F w t old d d' s v s', scoped t = true -> is_sc d = true -> mixed w t d d' ->
  unwrap_prog F w t old (doc_node d) s = ERet (v, s') -> unwrap_prog F w t old (doc_node d') s = ERet (v, s').
Proof.
  intros F w t old d d' s v s' St Sd M H. apply unwrap_scoped in H; try assumption. destruct H as [u H]. apply unwrap_scoped; [now rewrite (proj1 (mixed_kind _ _ _ _ M))|exact St|].
  exists u. exact (proj1 (mixed_said _ _ _ _ _ _ _ _ _ _ _ M H)).
Qed.
(** ... and from an input in any of the formats, directly and by loading and unwrapping *)
Theorem C97_any_order_partial : forall w F F0 q b d d' t old v s, regular w -> scoped t = true -> mixed w t d d' ->
  says F0 w true t old d rs_new = Ok (v, s) -> deep_enough d' -> holds (w_fp w) F q b d' -> (F0 + length (events d') <= F)%nat ->
  (exists q' b', run_block (restore_object (w_fp w) F w q t old) b = Ok ((q', (v, s)), b')) /\
  (exists q' b' n, run_block (load_tree (w_fp w) F q) b = Ok ((q', (doc_name d', n)), b') /\ unwrap_prog F w t old n rs_new = ERet (v, s)).
Proof.
  intros w F F0 q b d d' t old v s RG St M Sy De Ho L. exact (direct_and_tree w F F0 q b d' t old v s RG Ho De (mixed_says F0 w true t old d d' rs_new _ St M Sy) L).
Qed.
Print Assumptions C97_equivalent_refuted.
Print Assumptions C97_equivalent_direct_refuted.
Print Assumptions C97_any_order_tree.
Print Assumptions C97_any_order_partial.

(** A set of numbers in a class, behind a pointer: *)
Definition set_field : field := mkField ($"set") false (CPtr (CSet (CNum TI32))).
Definition set_world : world := mkWorld ex_fp (fun c => match c with 0%nat => [set_field] | _ => [] end) (fun _ => []) (fun _ _ => Ok None) ex_new ex_lt.
Definition number (n : Z) : doc := DVal [] (num_value TI32 n).
Definition set_doc (l : list doc) : doc := DScope [] TObject [DVal ($"more") (num_value TI32 5); DScope ($"set") TArray l].
Lemma num_order : weak_order (fun v => exists n, v = VNum n) ex_lt.
Proof.
  split; [|split].
  - intros a [n ->]. cbn [ex_lt]. apply Z.ltb_irrefl.
  - intros a b c [x ->] [y ->] [z ->]. cbn [ex_lt]. lia.
  - intros a b c [x ->] [y ->] [z ->]. unfold equiv. cbn [ex_lt]. lia.
Qed.
Example C97_ex_mixed : mixed set_world (CCls 0) (set_doc [number 1; number 2; number 3]) (set_doc [number 3; number 1; number 2]).
Proof.
  apply mx_cls.
  - split; [repeat constructor|]. constructor; [intros []|constructor].
  - constructor; [now left|]. constructor; [|constructor]. right. exists set_field. split; [now left|]. split; [reflexivity|]. apply mx_ptr.
    apply mx_set with (mid := [number 3; number 1; number 2]).
    + intros e. split; intros H; inversion H.
    + intros F strict old s vs s' u H. destruct F as [|F]; [discriminate|]. vm_compute in H. injection H as <- _ _. split; [reflexivity|].
      exists (fun v => exists n, v = VNum n). split; [exact num_order|]. repeat constructor; eauto.
    + transitivity [number 1; number 3; number 2]; [apply perm_skip, perm_swap|apply perm_swap].
    + repeat constructor.
Qed.
Example C97_ex_says : says 9 set_world true (CCls 0) (VList [VNone]) (set_doc [number 3; number 1; number 2]) rs_new = Ok (VList [VSome (VList [VNum 1; VNum 2; VNum 3])], rs_new).
Proof. vm_compute. reflexivity. Qed.
(** the same entries in two orders, in a text and in what is stored from vectors *)
Example C97_ex_map :
  io_back json_p (js ($"{'p':{'x':1,'tag':''},'list':[4,3],'m':[{'key':'b','value':2},{'value':1,'key':'a'}],'q':{'first':true,'second':[1,2]}}")) (CCls 1) =
  io_back json_p (js ($"{'p':{'x':1,'tag':''},'list':[4,3],'m':[{'value':1,'key':'a'},{'key':'b','value':2}],'q':{'first':true,'second':[1,2]}}")) (CCls 1) /\
  io_tree json_p (js ($"[5,-2,7,0]")) (CSet (CNum TI32)) = Ok (VList [VNum (-2); VNum 0; VNum 5; VNum 7], rs_new).
Proof. split; vm_compute; reflexivity. Qed.
Example C97_ex_vector :
  (let* bs := io_bytes (MsgpP msgp_init) [] (CSeq (CNum TI64)) (VList [VNum 5; VNum (-2); VNum 700; VNum 0]) in io_back (MsgpP msgp_init) bs (CSet (CNum TI64))) =
    Ok (VList [VNum (-2); VNum 0; VNum 5; VNum 700], rs_new) /\
  (let* bs := io_bytes (PsrlP psrl_init) [] (CSeq (CStr EUTF8)) (VList [VStr ($"m"); VStr ($"k"); VStr ($"z")]) in io_back (PsrlP psrl_init) bs (CSet (CStr EUTF8))) =
    Ok (VList [VStr ($"k"); VStr ($"m"); VStr ($"z")], rs_new).
Proof. split; vm_compute; reflexivity. Qed.
