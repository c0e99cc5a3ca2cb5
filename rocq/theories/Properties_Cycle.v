(** Property C91: graphs of shared objects with a cycle. *)
From Coq Require Import ZArith List Bool Lia ZifyBool ZifyNat.
From Verif Require Import Base Lemmas M_Types M_Conv M_Charset M_Heap M_In S_Doc M_Event M_PSrl M_MsgPack M_Json M_Tree S_Tree M_TreeIO S_TreeIO M_Object S_Object S_ObjStore M_ObjIO S_ObjIO S_Agree S_Cycle
  P_ObjIO P_ObjFit P_Cycle P_NoCycle Properties_Object.
Import ListNotations.
Open Scope Z_scope.

(** Storing ends for every graph, with or without a cycle. *)
Theorem C91_store_ends : forall w hp p t v name, typed_heap w hp (carried (w_fp w) p) -> typed w hp (carried (w_fp w) p) t v ->
  exists size d tab, forall F, (size <= F)%nat -> stored_doc F w hp t v name [] = Ok (d, tab).
Proof.
  intros w hp p t v name [HP HL] TY.
  destruct (stored_ends w hp _ _ (fun a e y E => ex_intro _ 1%nat (HP a e y E)) (fun t v H => cpp_leaf _ t v (proj1 H)) 1 t v name TY) as (F0 & [d tab] & TOT). now exists F0, d, tab.
Qed.
Print Assumptions C91_store_ends.
(** Where no shared object leads back to itself the graph is restored with its sharing, directly and from a tree, in every
    format.  (C43 with the rank of the objects found.) *)
Theorem C91_acyclic : forall w p hp t v name old, regular w -> constructs w -> typed_heap w hp (carried (w_fp w) p) -> typed w hp (carried (w_fp w) p) t v -> shape w t old ->
  (forall a, (a < length hp)%nat -> ~ cyclic hp (VRef a)) -> name_fits p name -> names_fit w p hp v ->
  exists d tab size, (forall F, (size <= F)%nat -> stored_doc F w hp t v name [] = Ok (d, tab)) /\
  (size_fits p d -> exists bs c s r, stores_as w hp p name t v bs /\ restores_as w p bs t old c s /\ unwraps_as w p bs t old c s /\ same_object r v c /\ same_heap r hp (r_heap s)).
Proof.
  intros w p hp t v name old RG NW HP TY SH AC N NF. destruct (acyclic_ranked _ _ _ _ _ HP TY AC) as (lev & n & HO & ST).
  destruct (object_kept w p hp lev n t v name old RG NW HO ST SH N NF) as (d & tab & size & A & B). exists d, tab, size. split; [exact A|]. intros Z.
  destruct (B Z) as (bs & c & s & r & B1 & B2 & B3 & B4 & B5 & _). now exists bs, c, s, r.
Qed.
Print Assumptions C91_acyclic.
(** An object from which a cycle can be reached is stored, and what is stored is loaded, but the tree never gives the object back. *)
Theorem C91_cycles : forall w p hp t v name, regular w -> typed_heap w hp (carried (w_fp w) p) -> typed w hp (carried (w_fp w) p) t v -> cyclic hp v ->
  name_fits p name -> names_fit w p hp v ->
  exists d tab size, (forall F, (size <= F)%nat -> stored_doc F w hp t v name [] = Ok (d, tab)) /\
  (size_fits p d -> exists bs k nd, stores_as w hp p name t v bs /\ loads_as (w_fp w) p bs k nd /\ forall F old r, unwrap_prog F w t old nd rs_new <> ERet r).
Proof. intros w p hp t v name RG HP TY CY N NF. exact (cycle_fails w p hp t v name RG HP TY N NF CY). Qed.
Print Assumptions C91_cycles.

(** Restoring never makes a cycle: not directly, whatever the bytes, from memory or a stream; not from any tree.  ([plain]: no
    shared pointers in what the constructors make and in the object before.) *)
Theorem C91_no_cycles : forall w F q t old, (forall t, plain (w_new w t) = true) -> plain old = true ->
  (forall b q' c s b', run_block (restore_object (w_fp w) F w q t old) b = Ok ((q', (c, s)), b') -> ~ cyclic (r_heap s) c) /\
  (forall b q' c s b', run_stream (restore_object (w_fp w) F w q t old) b = Ok ((q', (c, s)), b') -> ~ cyclic (r_heap s) c) /\
  (forall n c s, unwrap_prog F w t old n rs_new = ERet (c, s) -> ~ cyclic (r_heap s) c).
Proof.
  intros w F q t old NEW PO. destruct (restore_no_cycle w F q t old NEW PO) as [A B]. split; [|split].
  - intros b q' c s b' E. exact (proj1 (A _ _ _ _ E)).
  - intros b q' c s b' E. exact (proj1 (B _ _ _ _ E)).
  - intros n c s E. exact (proj1 (unwrap_no_cycle w F t old n (c, s) NEW PO E)).
Qed.
Print Assumptions C91_no_cycles.
(** So an object from which a cycle can be reached is never restored as what it was, whatever was written for it and whatever the
    types. *)
Theorem C91_never_itself : forall w F q t old hp v, (forall t, plain (w_new w t) = true) -> plain old = true -> cyclic hp v ->
  (forall b q' c s b', run_block (restore_object (w_fp w) F w q t old) b = Ok ((q', (c, s)), b') -> ~ exists r, same_object r v c /\ same_heap r hp (r_heap s)) /\
  (forall b q' c s b', run_stream (restore_object (w_fp w) F w q t old) b = Ok ((q', (c, s)), b') -> ~ exists r, same_object r v c /\ same_heap r hp (r_heap s)).
Proof.
  intros w F q t old hp v NEW PO CY. destruct (C91_no_cycles w F q t old NEW PO) as (A & B & _).
  split; intros b q' c s b' E; apply (cycle_differs _ _ _ _ CY); [exact (A _ _ _ _ _ E)|exact (B _ _ _ _ _ E)].
Qed.
Print Assumptions C91_never_itself.

(** a node of a list with an owner of its next node; the same with the owner before the number; an owner of the first node; two
    owners; a node with a list of owners; a parent with a kid that has a weak pointer to its parent *)
Definition ring_cls (c : nat) : list field :=
  match c with
  | 0 => [mkField ($"x") false (CNum TI32); mkField ($"next") false (CShared (CCls 0))]
  | 1 => [mkField ($"next") false (CShared (CCls 1)); mkField ($"x") false (CNum TI32)]
  | 2 => [mkField ($"first") false (CShared (CCls 0))]
  | 3 => [mkField ($"first") false (CShared (CCls 1)); mkField ($"last") false (CWeak (CCls 1))]
  | 4 => [mkField ($"x") false (CNum TI32); mkField ($"kids") false (CSeq (CShared (CCls 4)))]
  | 5 => [mkField ($"kid") false (CUniq (CCls 6)); mkField ($"x") false (CNum TI32)]
  | 6 => [mkField ($"parent") false (CWeak (CCls 5))]
  | _ => []
  end%nat.
Definition ring_new_cls (c : nat) : cv :=
  match c with 0 => VList [VNum 0%Z; VNone] | 1 => VList [VNone; VNum 0%Z] | 2 => VList [VNone] | 3 => VList [VNone; VNone] | 4 => VList [VNum 0%Z; VList []] | 5 => VList [VNone; VNum 0%Z] | 6 => VList [VNone] | _ => VList [] end%nat.
Fixpoint ring_new (t : ct) : cv :=
  match t with
  | CCls c | CTup c => ring_new_cls c
  | CArr n e => VList (repeat (ring_new e) n)
  | CPair a b => VList [ring_new a; ring_new b]
  | _ => ex_new t
  end.
Definition ring_world : world := mkWorld ex_fp ring_cls (fun _ => []) (fun _ _ => Ok None) ring_new ex_lt.
Definition ring_bytes (p : parser) (hp : heap_t) (t : ct) (v : cv) : res bytes :=
  let* (_, bs, _) := store_object ex_fp 200 ring_world hp p (heap_init no_mem) ($"o") t v in Ok bs.
Definition ring_back (p : parser) (bs : bytes) (t : ct) : res (cv * rstate) :=
  let* (r, _) := run_block (restore_object ex_fp 200 ring_world p t (ring_new t)) (mkBlk [] bs) in Ok (snd r).
Definition ring_tree (p : parser) (bs : bytes) (t : ct) : res (cv * rstate) :=
  let* (r, _) := run_block (load_tree ex_fp 200 p) (mkBlk [] bs) in
  match erun (unwrap_prog 200 ring_world t (ring_new t) (snd (snd r)) rs_new) [] with Some (Ok (x, _)) => Ok x | Some Err => Err | Some (UB u) => UB u | _ => Fuel end.
Definition one_ring : heap_t := [(CCls 0, VList [VNum 7; VRef 0])].
Definition two_ring : heap_t := [(CCls 1, VList [VRef 1; VNum 7]); (CCls 1, VList [VRef 0; VNum 8])].
Definition kids_ring : heap_t := [(CCls 4, VList [VNum 1; VList [VRef 1; VRef 2]]); (CCls 4, VList [VNum 2; VList []]); (CCls 4, VList [VNum 3; VList [VRef 1; VRef 0]])].
Definition kids_tree : heap_t := [(CCls 4, VList [VNum 1; VList [VRef 1; VRef 2]]); (CCls 4, VList [VNum 2; VList []]); (CCls 4, VList [VNum 3; VList [VRef 1; VRef 1]])].

Definition family : heap_t := [(CCls 5, VList [VSome (VList [VRef 0]); VNum 3])].
(** That every object that has been stored can be restored is false: a node that owns itself, in each format, directly and from
    the tree. *)
Theorem C91_restored_refuted : exists hp t v, cyclic hp v /\
  Forall (fun p => exists bs, ring_bytes p hp t v = Ok bs /\ ring_back p bs t = Err /\ ring_tree p bs t = Err) [PsrlP psrl_init; MsgpP msgp_init; json_p].
Proof.
  exists one_ring, (CCls 2), (VList [VRef 0]). split.
  - exists [Item 0], [Target; Item 1], 0%nat. split; [reflexivity|]. split; [discriminate|reflexivity].
  - repeat apply Forall_cons; [..|apply Forall_nil]; eexists; (split; [vm_compute; reflexivity|]); vm_compute; auto.
Qed.
Print Assumptions C91_restored_refuted.
(** the text stored for it: the key of the object stands inside the object *)
Example C91_text : exists bs, ring_bytes json_p one_ring (CCls 2) (VList [VRef 0]) = Ok bs /\
  bs = js ($"{'first':{'srl_shared_key':0,'srl_shared_value':{'x':7,'next':{'srl_shared_key':0}}}}").
Proof. eexists. split; vm_compute; reflexivity. Qed.
(** two nodes owning each other, a node among the kids of its kid, a kid that knows its parent; and kids without a cycle, which are restored *)
Definition ring_io (p : parser) (hp : heap_t) (t : ct) (v : cv) : res (res (cv * rstate) * res (cv * rstate)) := let* bs := ring_bytes p hp t v in Ok (ring_back p bs t, ring_tree p bs t).
Definition kids_restored : cv * rstate :=
  (VList [VRef 2; VRef 1], mkRs [(CCls 4, VList [VNum 2; VList []]); (CCls 4, VList [VNum 3; VList [VRef 0; VRef 0]]); (CCls 4, VList [VNum 1; VList [VRef 0; VRef 1]])] [(0, 2%nat); (2, 1%nat); (1, 0%nat)]).
Example C91_ex :
  Forall (fun p =>
    ring_io p two_ring (CCls 3) (VList [VRef 0; VRef 1]) = Ok (Err, Err) /\
    ring_io p kids_ring (CSeq (CShared (CCls 4))) (VList [VRef 1; VRef 0]) = Ok (Err, Err) /\
    ring_io p family (CSeq (CShared (CCls 5))) (VList [VRef 0]) = Ok (Err, Err) /\
    ring_io p kids_tree (CSeq (CShared (CCls 4))) (VList [VRef 0; VRef 2]) = Ok (Ok kids_restored, Ok kids_restored))
  [PsrlP psrl_init; MsgpP msgp_init; json_p].
Proof. repeat apply Forall_cons; [..|apply Forall_nil]; (split; [|split; [|split]]); vm_compute; reflexivity. Qed.
(** the premises hold of the ring and of the tree *)
Lemma ring_num hp p k x : int_min TI32 <= x <= int_max TI32 -> storable ring_world hp (fun _ => 0%nat) (carried ex_fp p) k (CNum TI32) (VNum x).
Proof. intros H. apply st_leaf; [exact I|reflexivity|]. split; [exact H|]. destruct p; exact I. Qed.
Lemma ring_regular : regular ring_world.
Proof.
  split.
  - intros c. left. split.
    + destruct c as [|[|[|[|[|[|[|c]]]]]]]; cbn [w_cls ring_world ring_cls]; repeat (apply Forall_cons; [vm_compute; reflexivity|]); apply Forall_nil.
    + destruct c as [|[|[|[|[|[|[|c]]]]]]]; cbn [w_cls ring_world ring_cls map f_name]; repeat (apply NoDup_cons; [intros H; cbn [In] in H; repeat (destruct H as [H|H]; [discriminate H|]); exact H|]); apply NoDup_nil.
  - intros u id c H. discriminate H.
Qed.
Lemma ring_constructs : constructs ring_world.
Proof.
  intros t. induction t; try (apply sh_any; exact I); cbn [w_new ring_world ring_new ex_new].
  - apply sh_chars.
  - destruct c as [|[|[|[|[|[|[|c]]]]]]]; unfold ring_new_cls; apply sh_cls; cbn [w_cls ring_world ring_cls]; repeat (constructor; [apply sh_any; exact I|]); constructor.
  - apply sh_arr; [apply repeat_length|]. apply Forall_forall. intros x Hx. apply repeat_spec in Hx. now subst.
  - now apply sh_pair.
  - destruct c as [|[|[|[|[|[|[|c]]]]]]]; unfold ring_new_cls; apply sh_tup; cbn [w_cls ring_world ring_cls]; repeat (constructor; [apply sh_any; exact I|]); constructor.
Qed.
Lemma ring_names p hp v : (forall k, name_ok k = true -> name_fits p k) -> tab_keys v = [] -> (forall a e x, nth_error hp a = Some (e, x) -> tab_keys x = []) -> names_fit ring_world p hp v.
Proof.
  intros N V H. split; [|split].
  - intros c f I. apply N. destruct c as [|[|[|[|[|[|[|c]]]]]]]; cbn in I; repeat (destruct I as [<-|I]; [reflexivity|]); destruct I.
  - rewrite V. constructor.
  - intros a e x E. rewrite (H a e x E). constructor.
Qed.
Example C91_ring_premises : Forall (fun p => typed_heap ring_world one_ring (carried ex_fp p) /\ typed ring_world one_ring (carried ex_fp p) (CCls 2) (VList [VRef 0]) /\
    cyclic one_ring (VList [VRef 0]) /\ name_fits p ($"o") /\ names_fit ring_world p one_ring (VList [VRef 0])) [PsrlP psrl_init; MsgpP msgp_init; json_p].
Proof.
  apply Forall_forall. intros p _. split; [|split; [|split; [|split]]].
  - split; [|reflexivity]. intros a e x E. destruct a as [|a]; cbn in E; [|destruct a; discriminate]. injection E as <- <-. apply st_cls. constructor; [|constructor; [|constructor]]; cbn [f_type].
    + apply ring_num. cbn. lia.
    + eapply st_shared; [reflexivity|lia].
  - apply st_cls. constructor; [|constructor]. cbn [f_type]. eapply st_shared; [reflexivity|lia].
  - exists [Item 0], [Target; Item 1], 0%nat. split; [reflexivity|]. split; [discriminate|reflexivity].
  - apply name_ok_fits. reflexivity.
  - apply ring_names; [intros k; apply name_ok_fits|reflexivity|]. intros a e x E. destruct a as [|a]; cbn in E; [|destruct a; discriminate]. now injection E as <- <-.
Qed.
Example C91_tree_premises : Forall (fun p => typed_heap ring_world kids_tree (carried ex_fp p) /\ typed ring_world kids_tree (carried ex_fp p) (CSeq (CShared (CCls 4))) (VList [VRef 0; VRef 2]) /\
    (forall a, (a < length kids_tree)%nat -> ~ cyclic kids_tree (VRef a))) [PsrlP psrl_init; MsgpP msgp_init; json_p].
Proof.
  apply Forall_forall. intros p _. split; [|split].
  - split; [|reflexivity]. intros a e x E. destruct a as [|[|[|a]]]; cbn in E; [..|destruct a; discriminate]; injection E as <- <-; (apply st_cls; constructor; [|constructor; [|constructor]]; cbn [f_type]; [apply ring_num; cbn; lia|]);
      apply st_seq; repeat (constructor; [eapply st_shared; [reflexivity|lia]|]); constructor.
  - apply st_seq; repeat (constructor; [eapply st_shared; [reflexivity|lia]|]); constructor.
  - assert (G : forall a, (a < 3)%nat -> grounded kids_tree (VRef a)); [|intros a L; apply grounded_acyclic; apply G; exact L].
    assert (G1 : grounded kids_tree (VRef 1)) by (eapply ground_ref; [reflexivity|]; apply ground_list; constructor; [now apply ground_leaf|constructor; [|constructor]]; apply ground_list; constructor).
    assert (G2 : grounded kids_tree (VRef 2)) by (eapply ground_ref; [reflexivity|]; apply ground_list; constructor; [now apply ground_leaf|constructor; [|constructor]]; apply ground_list; auto).
    assert (G0 : grounded kids_tree (VRef 0)) by (eapply ground_ref; [reflexivity|]; apply ground_list; constructor; [now apply ground_leaf|constructor; [|constructor]]; apply ground_list; auto).
    intros a L. destruct a as [|[|[|a]]]; [assumption..|lia].
Qed.
Lemma ring_plain : forall t, plain (w_new ring_world t) = true.
Proof.
  intros t. cbn [w_new ring_world]. induction t; try reflexivity; cbn [ring_new].
  - now destruct c as [|[|[|[|[|[|[|c]]]]]]].
  - cbn [plain]. induction n; cbn [repeat forallb]; [reflexivity|]. now rewrite IHt, IHn.
  - cbn [plain forallb]. now rewrite IHt1, IHt2.
  - now destruct c as [|[|[|[|[|[|[|c]]]]]]].
Qed.
