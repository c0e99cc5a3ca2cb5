(** C70: Unions given to Tree::unpack and Node::paste. *)
From Coq Require Import ZArith List Bool.
From Verif Require Import Base M_Types M_Conv M_TpTools M_Charset M_In S_Doc M_OutOps M_Env M_Event M_PSrl M_MsgPack M_Json M_Tree S_Tree M_TreeIO M_Object M_ObjIO S_Object S_ObjStore S_ObjIO M_Pack M_Union S_Union S_UnionMore
  P_Union P_UnionMore Properties_Object.
Import ListNotations.
Open Scope Z_scope.

Definition un_direct (p : parser) (bs : bytes) (l : list ask) : res (list got) := let* (r, _) := run_block (unpack_any ex_fp 400 ex_world p l) (mkBlk [] bs) in Ok (fst (snd r)).
Definition un_tree (p : parser) (bs : bytes) (l : list ask) : res (list got) :=
  let* (r, _) := run_block (load_tree ex_fp 400 p) (mkBlk [] bs) in
  match erun (paste_any 400 ex_world l (snd (snd r)) rs_new) [] with Some (Ok (x, _)) => Ok (fst x) | Some Err => Err | Some (UB u) => UB u | _ => Fuel end.

(** * C70.  Full statement: Tree::unpack gives the objects and Unions that Node::paste gives on the tree loaded from the same input.
    Two ways in which this is not so: *)
(** what comes behind the Union's item in the input is lost (Resolve.hpp:270 leaves the scope that contains the item) *)
Theorem C70_lost_refuted : exists bs k it u v, un_tree json_p bs [AskUnion k; AskObject it] = Ok [GotUnion u; GotObject v] /\ un_direct json_p bs [AskUnion k; AskObject it] = Err /\
  un_direct json_p bs [AskObject it; AskUnion k] = Ok [GotObject v; GotUnion u] /\ un_direct json_p bs [AskUnion k] = Ok [GotUnion u] /\ un_direct json_p bs [AskObject it] = Ok [GotObject v].
Proof.
  exists (js ($"{'a':1,'b':2}")), ($"a"), (mkItem ($"b") (CNum TI32) (VNum 0)), (UnValue ($"a") (val_int TUI64 1)), (VNum 2).
repeat (split; [vm_compute; reflexivity|]). vm_compute; reflexivity. Qed.

(** a value and a scope of the same name: the tree prefers the value, the input what comes first *)
Theorem C70_same_name_refuted : exists bs k u v, un_tree json_p bs [AskUnion k] = Ok [GotUnion u] /\ un_direct json_p bs [AskUnion k] = Ok [GotUnion v] /\ u <> v.
Proof.
  exists (js ($"{'a':{},'a':1}")), ($"a"), (UnValue ($"a") (val_int TUI64 1)), (UnNode ($"a") (empty_node TObject)).
  split; [vm_compute; reflexivity|]. split; [vm_compute; reflexivity|]. discriminate.
Qed.
(** True: a Union that is asked for alone, in an input whose items have different names, is what Node::get finds in the tree *)
Theorem C70_alone : forall F w q i d k, holds (w_fp w) (S F) q i d -> deep_enough d -> (length (events d) <= F)%nat -> NoDup (map doc_name (items d)) ->
  match get_named (doc_node d) (k, EUTF8) with
  | Ok u => exists q' i', run_block (unpack_any (w_fp w) (S F) w q [AskUnion k]) i = Ok ((q', ([GotUnion u], rs_new)), i')
  | _ => run_block (unpack_any (w_fp w) (S F) w q [AskUnion k]) i = Err
  end.
Proof. exact union_alone. Qed.
(** In any input: a Union asked for first refers to the first item of that name; everything asked for after it is looked for, as
    by Node::paste, in a tree that ends with this item.  Objects asked for before it: below. *)
Theorem C70_union_first_partial : forall F w q i d k l, holds (w_fp w) (S F) q i d -> deep_enough d -> (length (events d) <= F)%nat ->
  match item_named k (items d) with
  | None => run_block (unpack_any (w_fp w) (S F) w q (AskUnion k :: l)) i = Err
  | Some u => exists r ty, paste_any F w l (doc_node (DScope [] ty (items_to k (items d)))) rs_new = elift r /\
      match r with
      | Ok (gs, s) => exists q' i', run_block (unpack_any (w_fp w) (S F) w q (AskUnion k :: l)) i = Ok ((q', (GotUnion (refers u) :: gs, s)), i')
      | Err => run_block (unpack_any (w_fp w) (S F) w q (AskUnion k :: l)) i = Err
      | UB b => run_block (unpack_any (w_fp w) (S F) w q (AskUnion k :: l)) i = UB b
      | Fuel => True
      end
  end.
Proof. exact union_first. Qed.
(** so an object behind it is never found *)
Theorem C70_lost : forall F w q i d k it l, holds (w_fp w) (S F) q i d -> deep_enough d -> (length (events d) <= F)%nat ->
  Forall (fun x => doc_name x <> i_name it) (items_to k (items d)) ->
  run_block (unpack_any (w_fp w) (S F) w q (AskUnion k :: AskObject it :: l)) i = Err.
Proof. exact union_lost. Qed.
(** Objects asked for before the Union, in an input whose items have different names: they are restored, and the Union refers to the
    item of its name wherever it is.  Everything asked for after it is looked for in a tree of the items up to the last one that was
    needed so far, without the items of the objects.  Missing: items with equal names. *)
Theorem C70_after_objects_partial : forall F0 F w q i d os vs s k l, regular w -> holds (w_fp w) (S F) q i d -> deep_enough d -> (F0 + length (events d) <= F)%nat ->
  NoDup (map doc_name (items d)) -> NoDup (map i_name os) -> said_each F0 w (items d) os rs_new = Ok (vs, s) -> ~ In k (map i_name os) ->
  match item_named k (items d) with
  | None => run_block (unpack_any (w_fp w) (S F) w q (map AskObject os ++ AskUnion k :: l)) i = Err
  | Some u => exists r ty, paste_any F w l (doc_node (DScope [] ty (without (map i_name os) (upto_names (k :: map i_name os) (items d))))) s = elift r /\
      match r with
      | Ok (gs, s') => exists q' i', run_block (unpack_any (w_fp w) (S F) w q (map AskObject os ++ AskUnion k :: l)) i = Ok ((q', (map GotObject vs ++ GotUnion (refers u) :: gs, s')), i')
      | Err => run_block (unpack_any (w_fp w) (S F) w q (map AskObject os ++ AskUnion k :: l)) i = Err
      | UB b => run_block (unpack_any (w_fp w) (S F) w q (map AskObject os ++ AskUnion k :: l)) i = UB b
      | Fuel => True
      end
  end.
Proof. exact union_after. Qed.
(** an object takes its item away: a Union of the same name is not found (the tree has both) *)
Theorem C70_taken : forall F0 F w q i d os vs s k l, regular w -> holds (w_fp w) (S F) q i d -> deep_enough d -> (F0 + length (events d) <= F)%nat ->
  NoDup (map doc_name (items d)) -> NoDup (map i_name os) -> said_each F0 w (items d) os rs_new = Ok (vs, s) -> In k (map i_name os) ->
  run_block (unpack_any (w_fp w) (S F) w q (map AskObject os ++ AskUnion k :: l)) i = Err.
Proof. exact union_taken. Qed.
Theorem C70_taken_refuted : exists bs it v u, un_tree json_p bs [AskObject it; AskUnion (i_name it)] = Ok [GotObject v; GotUnion u] /\ un_direct json_p bs [AskObject it; AskUnion (i_name it)] = Err.
Proof. exists (js ($"{'a':1}")), (mkItem ($"a") (CNum TI32) (VNum 0)), (VNum 1), (UnValue ($"a") (val_int TUI64 1)). split; vm_compute; reflexivity. Qed.
Print Assumptions C70_after_objects_partial.
Print Assumptions C70_taken.
Print Assumptions C70_taken_refuted.
Print Assumptions C70_lost_refuted.
Print Assumptions C70_same_name_refuted.
Print Assumptions C70_alone.
Print Assumptions C70_union_first_partial.
Print Assumptions C70_lost.

(** Unions of a value and of a scope; an object before the Union's item is found, one behind it is not *)
Definition un_doc : bytes := js ($"{'n':3,'in':{'x':1,'l':[true,null]},'tag':'t'}").
Definition un_n : item := mkItem ($"n") (CNum TI16) (VNum 0).
Definition un_tag : item := mkItem ($"tag") (CStr EUTF8) (VStr []).
Example C70_ex :
  un_direct json_p un_doc [AskUnion ($"in"); AskObject un_n] =
    Ok [GotUnion (UnNode ($"in") (mkNode TObject [($"x", val_int TUI64 1)] [($"l", mkNode TArray [([], val_bool true); ([], val_type TNull)] [])])); GotObject (VNum 3)] /\
  un_direct json_p un_doc [AskUnion ($"in"); AskObject un_tag] = Err /\ un_direct json_p un_doc [AskUnion ($"in"); AskUnion ($"tag")] = Err /\
  un_direct json_p un_doc [AskUnion ($"tag"); AskObject un_n] = Ok [GotUnion (UnValue ($"tag") (val_string ($"t") EUTF8)); GotObject (VNum 3)] /\
  un_direct json_p un_doc [AskUnion ($"other")] = Err.
Proof. repeat (split; [vm_compute; reflexivity|]). vm_compute; reflexivity. Qed.
(** the premises *)
Definition un_d : doc := DScope [] TObject [DVal ($"n") (val_int TUI64 3);
  DScope ($"in") TObject [DVal ($"x") (val_int TUI64 1); DScope ($"l") TArray [DVal [] (val_bool true); DVal [] (val_type TNull)]]; DVal ($"tag") (val_string ($"t") EUTF8)].
Example C70_premises_ex : holds ex_fp 400 json_p (mkBlk [] un_doc) un_d /\ deep_enough un_d /\ NoDup (map doc_name (items un_d)) /\ Forall (fun x => doc_name x <> i_name un_tag) (items_to ($"in") (items un_d)).
Proof.
  split.
  - unfold holds. destruct (run_block (parse_items ex_fp 400 json_p (length (events un_d))) (mkBlk [] un_doc)) as [[[q' es] b']| | |] eqn:E; [|vm_compute in E; discriminate..].
    exists q', b'. repeat f_equal. assert (X : match run_block (parse_items ex_fp 400 json_p (length (events un_d))) (mkBlk [] un_doc) with Ok ((_, es), _) => es | _ => [] end = events un_d) by (vm_compute; reflexivity).
    rewrite E in X. exact X.
  - split; [|split].
    + split; [repeat split; try reflexivity; try discriminate|]. split; [reflexivity|]. vm_compute. repeat constructor.
    + cbn [items un_d map doc_name]. repeat (apply NoDup_cons; [intros H; cbn [In] in H; repeat (destruct H as [H|H]; [discriminate H|]); exact H|]). apply NoDup_nil.
    + cbn [items un_d items_to doc_name bytes_eqb]. repeat (apply Forall_cons; [discriminate|]). apply Forall_nil.
Qed.
(** objects before and behind the item of the Union, and what is found afterwards *)
Example C70_after_ex :
  un_direct json_p un_doc [AskObject un_tag; AskUnion ($"in"); AskObject un_n] =
    Ok [GotObject (VStr ($"t")); GotUnion (UnNode ($"in") (mkNode TObject [($"x", val_int TUI64 1)] [($"l", mkNode TArray [([], val_bool true); ([], val_type TNull)] [])])); GotObject (VNum 3)] /\
  un_direct json_p un_doc [AskObject un_n; AskUnion ($"in"); AskObject un_tag] = Err /\ un_direct json_p un_doc [AskObject un_n; AskUnion ($"n")] = Err /\
  un_direct json_p un_doc [AskObject un_tag; AskUnion ($"n"); AskUnion ($"in"); AskUnion ($"tag")] = Err /\
  said_each 3 ex_world (items un_d) [un_tag; un_n] rs_new = Ok ([VStr ($"t"); VNum 3], rs_new) /\
  map doc_name (without [$"tag"] (upto_names [$"in"; $"tag"] (items un_d))) = [$"n"; $"in"] /\
  map doc_name (without [$"n"] (upto_names [$"in"; $"n"] (items un_d))) = [$"in"].
Proof. repeat (split; [vm_compute; reflexivity|]). vm_compute; reflexivity. Qed.
Example C70_after_premises_ex : regular ex_world /\ NoDup (map i_name [un_tag; un_n]) /\ ~ In ($"in") (map i_name [un_tag; un_n]).
Proof.
  split; [exact ex_regular|]. split; [|intros H; cbn in H; destruct H as [H|[H|[]]]; discriminate H]. repeat (apply NoDup_cons; [intros H; cbn in H; repeat (destruct H as [H|H]; [discriminate H|]); exact H|]). apply NoDup_nil.
Qed.
