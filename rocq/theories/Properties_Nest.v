(** Property C94: how deep objects may be nested. *)
From Coq Require Import ZArith List Bool Arith Lia ZifyBool ZifyNat.
From Verif Require Import Base M_Types M_Conv M_Charset M_Heap M_In S_Doc M_Event M_PSrl M_MsgPack M_Json M_Tree S_Tree M_TreeIO S_TreeIO M_Object S_Object S_ObjStore M_ObjIO S_ObjIO S_Nest P_Nest P_OrderIO Properties_Object.
Import ListNotations.
Open Scope Z_scope.

(** Objects of a class with a vector of objects of the same class.  However many of them are inside each other, in every format, they
    are stored, and Tree::restore makes them again: it calls itself once for each of them and has no limit.  Loading the same
    bytes into a tree succeeds for up to 64 of them and throws for more (C36: 128 scopes below the root). *)
Theorem C94_no_limit : forall w c k p name n o, nesting_class w c k -> 0 < zlen k -> name_fits p name -> name_fits p k -> Z.of_nat n < 2 ^ 60 ->
  exists bs, stores_as w [] p name (CCls c) (nest n) bs /\ restores_as w p bs (CCls c) (VList [o]) (nest n) rs_new /\
    (if (n <=? 63)%nat then exists k' nd, loads_as (w_fp w) p bs k' nd else rejected (w_fp w) p bs).
Proof. exact nest_kept. Qed.
Print Assumptions C94_no_limit.

(** All objects.  Whatever the classes are - if their optional members are values - and however deep the objects are inside each
    other, in every format: they are stored, and Tree::restore makes the same objects again, with the same sharing.  The limit of C36
    concerns the tree only: if the document is more than 129 scopes deep, loading the same bytes into a tree throws, otherwise
    the tree gives the same objects. *)
Theorem C94_any_object : forall w p hp lev n t v name old, regular w -> constructs w -> simple_options w ->
  S_ObjStore.heap_ok w hp lev (carried (w_fp w) p) -> storable w hp lev (carried (w_fp w) p) n t v -> shape w t old -> name_fits p name -> names_fit w p hp v ->
  exists d tab size, (forall F, (size <= F)%nat -> stored_doc F w hp t v name [] = Ok (d, tab)) /\
  (counts_fit p d -> exists bs c s r, stores_as w hp p name t v bs /\ restores_as w p bs t old c s /\ same_object r v c /\ same_heap r hp (r_heap s) /\
    (if (depth d <=? 129)%nat then unwraps_as w p bs t old c s else rejected (w_fp w) p bs)).
Proof. exact any_depth. Qed.
Print Assumptions C94_any_object.

(** the class; and one with a number before the objects *)
Definition nest_cls (c : nat) : list field :=
  match c with
  | 0 => [mkField ($"kids") false (CSeq (CCls 0))]
  | 1 => [mkField ($"x") false (CNum TI32); mkField ($"root") false (CCls 0)]
  | 2 => [mkField ($"x") true (CNum TI32); mkField ($"root") true (CCls 0)]
  | _ => []
  end%nat.
Definition nest_new (t : ct) : cv := match t with CCls 0 => VList [VList []] | CCls 1 | CCls 2 => VList [VNum 0; VList [VList []]] | _ => ex_new t end.
Definition nest_world : world := mkWorld ex_fp nest_cls (fun _ => []) (fun _ _ => Ok None) nest_new ex_lt.
Definition nest_bytes (p : parser) (t : ct) (v : cv) : res bytes :=
  let* (_, bs, _) := store_object ex_fp 800 nest_world [] p (heap_init no_mem) ($"o") t v in Ok bs.
Definition nest_back (p : parser) (bs : bytes) (t : ct) : res cv :=
  let* (r, _) := run_block (restore_object ex_fp 3000 nest_world p t (nest_new t)) (mkBlk [] bs) in Ok (fst (snd r)).
Definition nest_load (p : parser) (bs : bytes) : res unit := let* _ := run_block (load_tree ex_fp 3000 p) (mkBlk [] bs) in Ok tt.
(** That restoring is limited like loading is false: 975 bytes that cannot be loaded make 65 objects inside each other. *)
Theorem C94_limited_refuted : exists bs v, nest_load (MsgpP msgp_init) bs = Err /\ nest_back (MsgpP msgp_init) bs (CCls 0) = Ok v /\ height v = 65%nat /\ zlen bs = 975.
Proof.
  exists (match nest_bytes (MsgpP msgp_init) (CCls 0) (nest 64) with Ok bs => bs | _ => [] end), (nest 64).
  split; [vm_compute; reflexivity|]. split; [vm_compute; reflexivity|]. split; vm_compute; reflexivity.
Qed.
Print Assumptions C94_limited_refuted.
(** No other limit holds, in any format. *)
Theorem C94_unbounded : forall limit, Z.of_nat limit < 2 ^ 60 ->
  Forall (fun p => exists bs v, restores_as nest_world p bs (CCls 0) (VList [VList []]) v rs_new /\ (limit < height v)%nat) [PsrlP psrl_init; MsgpP msgp_init; json_p].
Proof.
  intros limit L.
  assert (NC : nesting_class nest_world 0 ($"kids")) by (split; [reflexivity|now exists (VList [])]).
  assert (KN : forall p, name_fits p ($"kids")).
  { intros p. split; [split; [|vm_compute; reflexivity]|].
    - change ($"kids") with [107; 105; 100; 115]. repeat (constructor; [unfold is_byte; lia|]). constructor.
    - intros _. split; intros H; vm_compute in H; repeat destruct H as [H|H]; try discriminate H; exact H. }
  repeat apply Forall_cons; [..|apply Forall_nil].
  all: match goal with |- exists bs v, restores_as _ ?p _ _ _ _ _ /\ _ => destruct (nest_kept nest_world 0 ($"kids") p ($"kids") limit (VList []) NC ltac:(vm_compute; reflexivity) (KN p) (KN p) L) as (bs & _ & R & _) end.
  all: exists bs, (nest limit); (split; [exact R|]); rewrite height_nest; lia.
Qed.
Print Assumptions C94_unbounded.

Example C94_ex : exists bs, nest_bytes (MsgpP msgp_init) (CCls 0) (nest 64) = Ok bs /\ nest_back (MsgpP msgp_init) bs (CCls 0) = Ok (nest 64) /\ nest_load (MsgpP msgp_init) bs = Err /\ zlen bs = 65 * 15.
Proof. eexists. split; [vm_compute; reflexivity|]. split; [vm_compute; reflexivity|]. split; vm_compute; reflexivity. Qed.
Example C94_ex_json : nest_back json_p (js ($"{'kids':[{'kids':[{'kids':[]}]}]}")) (CCls 0) = Ok (nest 2) /\
  nest_bytes json_p (CCls 0) (nest 2) = Ok (js ($"{'kids':[{'kids':[{'kids':[]}]}]}")).
Proof. split; vm_compute; reflexivity. Qed.
(** Members that come in another order are kept in a tree in between, and there is a limit for these. *)
Definition text_of (n : nat) : bytes := match nest_bytes json_p (CCls 0) (nest n) with Ok bs => bs | _ => [] end.
Example C94_order : nest_back json_p (js ($"{'x':5,'root':") ++ text_of 70 ++ js ($"}")) (CCls 1) = Ok (VList [VNum 5; nest 70]) /\
  nest_back json_p (js ($"{'root':") ++ text_of 70 ++ js ($",'x':5}")) (CCls 1) = Err /\
  nest_back json_p (js ($"{'root':") ++ text_of 50 ++ js ($",'x':5}")) (CCls 1) = Ok (VList [VNum 5; nest 50]).
Proof. split; [|split]; vm_compute; reflexivity. Qed.

(** Without the condition on optional members this is false: looking whether such a member is there reads all of it into a tree,
    which throws; the same object in a member that is not optional is restored. *)
Theorem C94_optional_refuted : exists v bs, nest_bytes (MsgpP msgp_init) (CCls 2) v = Ok bs /\ nest_back (MsgpP msgp_init) bs (CCls 2) = Err /\ nest_back (MsgpP msgp_init) bs (CCls 1) = Ok v.
Proof.
  exists (VList [VNum 7; nest 64]), (match nest_bytes (MsgpP msgp_init) (CCls 2) (VList [VNum 7; nest 64]) with Ok bs => bs | _ => [] end).
  split; [vm_compute; reflexivity|]. split; vm_compute; reflexivity.
Qed.
Print Assumptions C94_optional_refuted.
(** Optional values are no obstacle, nor are pointers: *)
Definition deep_cls (c : nat) : list field :=
  match c with
  | 0 => [mkField ($"kids") false (CSeq (CCls 0))]
  | 1 => [mkField ($"x") true (CNum TI32); mkField ($"root") false (CUniq (CCls 0))]
  | _ => []
  end%nat.
Definition deep_new_cls (c : nat) : cv := match c with 0 => VList [VList []] | 1 => VList [VNum 0; VNone] | _ => VList [] end%nat.
Fixpoint deep_new (t : ct) : cv :=
  match t with
  | CNum _ => VNum 0
  | CStr _ | CChar _ | CBits => VStr []
  | CChars e n => VStr (repeat 0 (Z.to_nat (n * unit_size e)))
  | CCls c | CTup c => deep_new_cls c
  | CSeq _ | CSet _ => VList []
  | CMap _ _ => VMap []
  | CTab _ => VTab []
  | CArr n e => VList (repeat (deep_new e) n)
  | CPair a b => VList [deep_new a; deep_new b]
  | CPtr _ | CUniq _ | CShared _ | CWeak _ | CPoly _ => VNone
  end.
Definition deep_world : world := mkWorld ex_fp deep_cls (fun _ => []) (fun _ _ => Ok None) deep_new ex_lt.
Definition deep_obj (n : nat) : cv := VList [VNum 7; VSome (nest n)].
(** the conditions of C94_any_object hold of objects of any depth *)
Example C94_any_conditions : regular deep_world /\ constructs deep_world /\ simple_options deep_world /\
  forall n p, storable deep_world [] (fun _ => 0%nat) (carried ex_fp p) 0 (CCls 1) (deep_obj n) /\ names_fit deep_world p [] (deep_obj n) /\ shape deep_world (CCls 1) (deep_new (CCls 1)).
Proof.
  assert (NM : forall n p, names_fit deep_world p [] (deep_obj n)).
  { intros n p. split; [|split].
    - intros c f I. apply name_ok_fits. destruct c as [|[|c]]; cbn in I; repeat (destruct I as [<-|I]; [vm_compute; reflexivity|]); destruct I.
    - replace (tab_keys (deep_obj n)) with (@nil bytes); [constructor|]. cbn [deep_obj tab_keys flat_map app]. rewrite app_nil_r. symmetry. induction n as [|n IH]; [reflexivity|]. cbn [nest tab_keys flat_map]. now rewrite !app_nil_r.
    - intros [|a] e x E; discriminate E. }
  assert (SH : constructs deep_world).
  { intros t. induction t; try (apply sh_any; exact I); cbn [w_new deep_world deep_new].
    - apply sh_chars.
    - destruct c as [|[|c]]; apply sh_cls; repeat constructor.
    - apply sh_arr; [apply repeat_length|]. apply Forall_forall. intros x Hx. apply repeat_spec in Hx. now subst.
    - now apply sh_pair.
    - destruct c as [|[|c]]; apply sh_tup; repeat constructor. }
  split; [|split; [exact SH|split; [|]]].
  - split; [|intros u id c H; discriminate H]. intros c. left. split.
    + destruct c as [|[|c]]; cbn [w_cls deep_world deep_cls]; repeat (apply Forall_cons; [vm_compute; reflexivity|]); apply Forall_nil.
    + destruct c as [|[|c]]; cbn [w_cls deep_world deep_cls map f_name]; repeat (apply NoDup_cons; [intros H; cbn [In] in H; repeat (destruct H as [H|H]; [discriminate H|]); exact H|]); apply NoDup_nil.
  - intros c f I O. destruct c as [|[|c]]; cbn in I; repeat (destruct I as [<-|I]; [try reflexivity; discriminate O|]); destruct I.
  - intros n p. split; [|split; [apply NM|apply (SH (CCls 1))]].
    apply st_cls. cbn [w_cls deep_world deep_cls]. constructor; [|constructor; [|constructor]]; cbn [f_type].
    + apply st_leaf; [exact I|reflexivity|]. split; [cbn; lia|exact I].
    + apply st_uniq; [|destruct n; discriminate]. induction n as [|n IH]; cbn [nest]; apply st_cls; cbn [w_cls deep_world deep_cls]; (constructor; [|constructor]); cbn [f_type]; apply st_seq; constructor; [exact IH|constructor].
Qed.
Definition deep_bytes (p : parser) (t : ct) (v : cv) : res bytes :=
  let* (_, bs, _) := store_object ex_fp 800 deep_world [] p (heap_init no_mem) ($"o") t v in Ok bs.
Definition deep_back (p : parser) (bs : bytes) (t : ct) : res cv :=
  let* (r, _) := run_block (restore_object ex_fp 3000 deep_world p t (deep_new t)) (mkBlk [] bs) in Ok (fst (snd r)).
Example C94_any_ex : exists bs, deep_bytes (MsgpP msgp_init) (CCls 1) (deep_obj 64) = Ok bs /\ deep_back (MsgpP msgp_init) bs (CCls 1) = Ok (deep_obj 64) /\ nest_load (MsgpP msgp_init) bs = Err.
Proof. eexists. split; [vm_compute; reflexivity|]. split; vm_compute; reflexivity. Qed.
