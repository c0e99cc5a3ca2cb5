(** Property C67: what an object is made from; repeated names, missing members, arrays of another size. *)
From Coq Require Import ZArith List Bool Lia ZifyBool ZifyNat Sorted.
From Verif Require Import Base M_Types M_Conv M_In S_Doc M_Env M_Json M_PSrl M_MsgPack M_Tree S_Tree M_TreeIO M_Object S_Object M_ObjIO S_ObjIO S_Restored P_Restored P_Flat Properties_Object.
Import ListNotations.
Open Scope Z_scope.

(** * C67 from a tree.
    A class with named members: restoring succeeds if and only if every member has an item of its name, of which the first
    counts, or is optional; and what is restored is made from these items, member by member. *)
Theorem C67_class : forall F w c k ty its olds s vs s', is_scope ty = true -> named_class (w_cls w c) ->
  (unwrap_prog (S F) w (CCls c) (VList olds) (doc_node (DScope k ty its)) s = ERet (VList vs, s') <-> members F w its (w_cls w c) olds s vs s').
Proof. exact class_members. Qed.
(** A missing member is an error whatever else the document contains *)
Theorem C67_missing_member : forall F w c k ty its old s r f, named_class (w_cls w c) -> is_scope ty = true -> In f (w_cls w c) -> f_opt f = false ->
  item_for (f_type f) (f_name f) its = None -> unwrap_prog (S F) w (CCls c) old (doc_node (DScope k ty its)) s <> ERet r.
Proof.
  intros F w c k ty its old s [v s'] f N T I O E H. destruct (class_never_other _ _ _ _ _ _ _ _ _ _ H) as (olds & vs & -> & ->).
  apply class_members in H; [|assumption..]. clear - I O E H. induction H as [| |f0 fs old0 olds0 s0 vs0 s20 E0 O0 H IH]; [destruct I| |]; destruct I as [<-|I]; auto; congruence.
Qed.
(** Sequences: one element for each item, in their order *)
Theorem C67_sequence : forall F w t k ty its old s vs s', is_scope ty = true ->
  (unwrap_prog (S F) w (CSeq t) old (doc_node (DScope k ty its)) s = ERet (VList vs, s') <-> elements F w t (items_for t its) s vs s').
Proof. exact seq_elements. Qed.
(** Arrays: exactly as many items as the array has elements *)
Theorem C67_array : forall F w n t k ty its olds s vs s', is_scope ty = true -> length olds = n ->
  (unwrap_prog (S F) w (CArr n t) (VList olds) (doc_node (DScope k ty its)) s = ERet (VList vs, s') <->
   length (items_for t its) = n /\ array_elements F w t olds (items_for t its) s vs s').
Proof. exact array_exact. Qed.
(** Hash tables, sets and maps: of items with the same name or equivalent keys the first one counts *)
Theorem C67_table : forall F w t k ty its old s v s', unwrap_prog (S F) w (CTab t) old (doc_node (DScope k ty its)) s = ERet (v, s') ->
  ty = TObject /\ exists l vs, v = VTab l /\ elements F w t (items_for t its) s vs s' /\ first_counts (combine (map doc_name (items_for t its)) vs) l.
Proof. exact table_elements. Qed.
Theorem C67_set : forall F w t k ty its old s v s', unwrap_prog (S F) w (CSet t) old (doc_node (DScope k ty its)) s = ERet (v, s') ->
  exists l vs, v = VList l /\ elements F w t (items_for t its) s vs s' /\ ordered_first (w_lt w) (fun x => x) vs l.
Proof. exact set_elements. Qed.
Theorem C67_map : forall F w a b k ty its old s v s', unwrap_prog (S F) w (CMap a b) old (doc_node (DScope k ty its)) s = ERet (v, s') ->
  exists l xs, v = VMap l /\ entries F w a b (filter is_sc its) s xs s' /\ ordered_first (w_lt w) fst xs l.
Proof. exact map_entries. Qed.

(** * C67 from an input.
    Full statement: the same as from a tree.  False: an object below the root is left at the end of the first scope inside it
    that nothing asked for, and what follows in it is taken for members of the outer object.  Here ['n'] of the inner object is
    restored as ['n'] of the outer one, which has its own; and a document whose outer object has no ['n'] is accepted. *)
Theorem C67_direct_wrong_value_refuted : exists doc, doc = js ($"{'in':{'x':1,'tag':'t','more':{},'n':5},'n':7}") /\
  io_back json_p doc (CCls 3) = Ok (VList [pt 1 ($"t"); VNum 5], rs_new) /\ io_tree json_p doc (CCls 3) = Ok (VList [pt 1 ($"t"); VNum 7], rs_new).
Proof. eexists. split; [reflexivity|]. split; vm_compute; reflexivity. Qed.
Theorem C67_direct_missing_refuted : exists doc, doc = js ($"{'in':{'x':1,'tag':'t','more':{},'n':5}}") /\
  io_back json_p doc (CCls 3) = Ok (VList [pt 1 ($"t"); VNum 5], rs_new) /\ io_tree json_p doc (CCls 3) = Err.
Proof. eexists. split; [reflexivity|]. split; vm_compute; reflexivity. Qed.
(** True of classes all of whose members are values: whatever the document contains besides, each member comes from the first
    value of its name, a missing one is an error, and so is a value that does not fit; the same from a tree *)
Theorem C67_flat_direct_partial : forall F w q b c d olds, holds (w_fp w) F q b d -> deep_enough d -> named_class (w_cls w c) -> all_values (w_cls w c) -> clear_options (w_cls w c) (items d) ->
  (S (length (events d)) <= F)%nat ->
  match flat w (items d) (w_cls w c) olds with
  | Ok vs => exists q' b', run_block (restore_object (w_fp w) F w q (CCls c) (VList olds)) b = Ok ((q', (VList vs, rs_new)), b')
  | Err => run_block (restore_object (w_fp w) F w q (CCls c) (VList olds)) b = Err
  | UB u => run_block (restore_object (w_fp w) F w q (CCls c) (VList olds)) b = UB u
  | Fuel => True
  end.
Proof. exact flat_direct. Qed.
Theorem C67_flat_tree : forall F w c k ty its olds s, is_scope ty = true -> named_class (w_cls w c) -> all_values (w_cls w c) ->
  unwrap_prog (S F) w (CCls c) (VList olds) (doc_node (DScope k ty its)) s = elift (let* vs := flat w its (w_cls w c) olds in Ok (VList vs, s)).
Proof. exact flat_tree. Qed.
Print Assumptions C67_class.
Print Assumptions C67_missing_member.
Print Assumptions C67_sequence.
Print Assumptions C67_array.
Print Assumptions C67_table.
Print Assumptions C67_set.
Print Assumptions C67_map.
Print Assumptions C67_direct_wrong_value_refuted.
Print Assumptions C67_direct_missing_refuted.
Print Assumptions C67_flat_direct_partial.
Print Assumptions C67_flat_tree.

(** repeated names and keys; a missing member; an array that is too long; a number that does not fit *)
Example C67_ex :
  io_back json_p (js ($"{'x':1,'tag':'t','x':2,'tag':{}}")) (CCls 0) = Ok (pt 1 ($"t"), rs_new) /\ io_back json_p (js ($"{'tag':'t','y':{'x':2}}")) (CCls 0) = Err /\
  io_back json_p (js ($"{'a':1,'b':2,'a':3}")) (CTab (CNum TI32)) = Ok (VTab [($"a", VNum 1); ($"b", VNum 2)], rs_new) /\
  io_tree json_p (js ($"{'a':1,'b':2,'a':3}")) (CTab (CNum TI32)) = Ok (VTab [($"a", VNum 1); ($"b", VNum 2)], rs_new) /\
  io_tree json_p (js ($"[{'key':2,'value':5},{'value':6,'key':1},{'key':2,'value':7}]")) (CMap (CNum TI32) (CNum TI32)) = Ok (VMap [(VNum 1, VNum 6); (VNum 2, VNum 5)], rs_new) /\
  io_tree json_p (js ($"[3,1,3,2,1]")) (CSet (CNum TI8)) = Ok (VList [VNum 1; VNum 2; VNum 3], rs_new) /\
  io_tree json_p (js ($"[1,2,3]")) (CArr 2 (CNum TI8)) = Err /\ io_back json_p (js ($"{'x':3000000000,'tag':''}")) (CCls 0) = Err.
Proof. repeat split; vm_compute; reflexivity. Qed.
(** the premises of [C67_flat_direct_partial], [C67_set] and [C67_map] *)
Definition ex_items : list doc := [DVal ($"tag") (val_string ($"t") EUTF8); DScope ($"x") TObject []; DVal ($"x") (val_int TI32 5)].
Example C67_premises_ex : named_class (w_cls ex_world 0) /\ all_values (w_cls ex_world 0) /\ clear_options (w_cls ex_world 0) ex_items /\
  flat ex_world ex_items (w_cls ex_world 0) [VNum 0; VStr []] = Ok [VNum 5; VStr ($"t")] /\ flat ex_world (firstn 2 ex_items) (w_cls ex_world 0) [VNum 0; VStr []] = Err /\
  weak_order (fun v => exists n, v = VNum n) (w_lt ex_world).
Proof.
  split; [destruct ex_regular as [R _]; destruct (R O) as [N|N]; [exact N|]; inversion N as [|? ? [E _] _]; discriminate E|].
  split; [repeat constructor|]. split; [intros f d [<-|[<-|[]]] O; discriminate O|]. split; [vm_compute; reflexivity|]. split; [vm_compute; reflexivity|].
  split; [|split].
  - intros a [n ->]. cbn. lia.
  - intros a b c [n ->] [m ->] [o ->]. cbn. lia.
  - intros a b c [n ->] [m ->] [o ->]. unfold equiv. cbn. lia.
Qed.
