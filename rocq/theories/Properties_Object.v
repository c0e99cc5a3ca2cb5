(** Properties C39-C45 and C54: storing and restoring of objects. *)
From Coq Require Import ZArith List Bool Lia ZifyBool ZifyNat Permutation.
From Verif Require Import Base Lemmas M_Types M_Conv M_Charset M_In S_Conv S_Doc S_Json S_Charset M_OutOps S_Out M_Event M_Env
  M_PSrl M_MsgPack S_MsgPack M_Json M_Heap M_Out M_Tree S_Tree M_TreeIO S_TreeIO M_Object S_Object S_ObjStore M_ObjIO S_ObjIO S_Agree
  P_ObjLazy P_ObjStore P_ObjIO P_ObjFit P_Agree P_ObjMore P_ObjPart.
Import ListNotations.
Open Scope Z_scope.

(** * Classes for the examples *)
Definition ex_fp : fp_text := {| x_strtod := fun _ => None; x_dtoa := fun _ => [] |}.
Definition pt_fields : list field := [mkField ($"x") false (CNum TI32); mkField ($"tag") false (CStr EUTF8)].
Definition ex_cls (c : nat) : list field :=
  match c with
  | 0 => pt_fields
  | 1 => [mkField ($"p") false (CCls 0); mkField ($"list") false (CSeq (CNum TI64)); mkField ($"m") false (CMap (CStr EUTF8) (CNum TUI8));
          mkField ($"q") false (CPair (CNum TBool) (CArr 2 (CNum TI8)))]
  | 2 => [mkField ($"a") false (CShared (CCls 0)); mkField ($"b") false (CShared (CCls 0)); mkField ($"c") false (CWeak (CCls 0))]
  | 3 => [mkField ($"in") false (CCls 0); mkField ($"n") false (CNum TI32)]
  | 4 => [mkField ($"poly") false (CPoly 0)]
  | _ => []
  end%nat.
Definition pt (x : Z) (s : bytes) : cv := VList [VNum x; VStr s].
Definition ex_new_cls (c : nat) : cv :=
  match c with
  | 0 => pt 0 []
  | 1 => VList [pt 0 []; VList []; VMap []; VList [VNum 0; VList [VNum 0; VNum 0]]]
  | 2 => VList [VNone; VNone; VNone]
  | 3 => VList [pt 0 []; VNum 0]
  | 4 => VList [VNone]
  | _ => VList []
  end%nat.
Fixpoint ex_new (t : ct) : cv :=
  match t with
  | CNum _ => VNum 0
  | CStr _ | CChar _ | CBits => VStr []
  | CChars e n => VStr (repeat 0 (Z.to_nat (n * unit_size e)))
  | CCls c | CTup c => ex_new_cls c
  | CSeq _ | CSet _ => VList []
  | CMap _ _ => VMap []
  | CTab _ => VTab []
  | CArr n e => VList (repeat (ex_new e) n)
  | CPair a b => VList [ex_new a; ex_new b]
  | CPtr _ | CUniq _ | CShared _ | CWeak _ | CPoly _ => VNone
  end.
Definition ex_lt (a b : cv) : bool := match a, b with VStr (x :: _), VStr (y :: _) => x <? y | VNum x, VNum y => x <? y | _, _ => false end.
Definition ex_world : world := mkWorld ex_fp ex_cls (fun c => $"point") (fun _ s => Ok (if bytes_eqb (fst s) ($"point") then Some 0%nat else None)) ex_new ex_lt.
Ltac shaped_now :=
  repeat lazymatch goal with
  | |- shape _ (CCls _) _ => apply sh_cls; cbn [w_cls ex_world ex_cls pt_fields]
  | |- shape _ (CTup _) _ => apply sh_tup; cbn [w_cls ex_world ex_cls pt_fields]
  | |- shape _ (CArr _ _) _ => apply sh_arr; [reflexivity|]
  | |- shape _ (CPair _ _) _ => apply sh_pair
  | |- shape _ (CChars _ _) _ => apply sh_chars
  | |- shape _ _ _ => apply sh_any; exact I
  | |- Forall2 _ _ _ => constructor; cbn [f_type]
  | |- Forall _ _ => constructor
  end.
Lemma ex_constructs : constructs ex_world.
Proof.
  intros t. induction t; try (apply sh_any; exact I); cbn [w_new ex_world ex_new].
  - apply sh_chars.
  - destruct c as [|[|[|[|[|c]]]]]; unfold ex_new_cls, pt; shaped_now.
  - apply sh_arr; [apply repeat_length|]. apply Forall_forall. intros x Hx. apply repeat_spec in Hx. now subst.
  - now apply sh_pair.
  - destruct c as [|[|[|[|[|c]]]]]; unfold ex_new_cls, pt; shaped_now.
Qed.
Lemma ex_regular : regular ex_world.
Proof.
  split.
  - intros c. left. split.
    + destruct c as [|[|[|[|[|c]]]]]; cbn [w_cls ex_world ex_cls pt_fields]; repeat (apply Forall_cons; [vm_compute; reflexivity|]); apply Forall_nil.
    + destruct c as [|[|[|[|[|c]]]]]; cbn [w_cls ex_world ex_cls pt_fields map f_name]; repeat (apply NoDup_cons; [intros H; cbn [In] in H; repeat (destruct H as [H|H]; [discriminate H|]); exact H|]); apply NoDup_nil.
  - intros u id c H. cbn [w_reg ex_world] in H. destruct (bytes_eqb (fst id) ($"point")); [|discriminate]. injection H as <-. split; [split|].
    + repeat (apply Forall_cons; [vm_compute; reflexivity|]); apply Forall_nil.
    + cbn [w_cls ex_world ex_cls pt_fields map f_name]. repeat (apply NoDup_cons; [intros H; cbn [In] in H; repeat (destruct H as [H|H]; [discriminate H|]); exact H|]); apply NoDup_nil.
    + cbn [w_cls ex_world ex_cls pt_fields map f_name In]. intros H. repeat (destruct H as [H|H]; [discriminate H|]). exact H.
Qed.

Definition no_mem : memory := fun _ _ => 0.
(** the bytes stored, and what is restored from them *)
Definition io_bytes (p : parser) (hp : heap_t) (t : ct) (v : cv) : res bytes :=
  let* (_, bs, _) := store_object ex_fp 400 ex_world hp p (heap_init no_mem) ($"o") t v in Ok bs.
Definition io_back (p : parser) (bs : bytes) (t : ct) : res (cv * rstate) :=
  let* (r, _) := run_block (restore_object ex_fp 400 ex_world p t (ex_new t)) (mkBlk [] bs) in Ok (snd r).
Definition io_tree (p : parser) (bs : bytes) (t : ct) : res (cv * rstate) :=
  let* (r, _) := run_block (load_tree ex_fp 400 p) (mkBlk [] bs) in
  match erun (unwrap_prog 400 ex_world t (ex_new t) (snd (snd r)) rs_new) [] with Some (Ok (x, _)) => Ok x | Some Err => Err | Some (UB u) => UB u | _ => Fuel end.
Definition io (p : parser) (hp : heap_t) (t : ct) (v : cv) : res (cv * rstate) := let* bs := io_bytes p hp t v in io_back p bs t.

(** * C39 objects round-trip.
    Full statement: every object that is no graph ([plain]: without shared pointers) is restored, in both binary formats.
    PSrl does not take INT64_MIN: *)
Theorem C39_psrl_int64_min_refuted : exists v, io (PsrlP psrl_init) [] (CCls 1) v = UB UbSigned /\
  (exists s, io (MsgpP msgp_init) [] (CCls 1) v = Ok (v, s)) /\ plain v = true.
Proof.
  exists (VList [pt (-5) ($"p"); VList [VNum 1; VNum (- 2 ^ 63)]; VMap [(VStr ($"a"), VNum 7)]; VList [VNum 1; VList [VNum 3; VNum (-4)]]]).
  split; [vm_compute; reflexivity|]. split; [|reflexivity]. exists rs_new. vm_compute. reflexivity.
Qed.
(** Everything else: in all three formats, [carried] says which numbers and strings they carry; text in other encodings comes
    back in its encoding; [char] arrays are terminated (C65).  [storable]: the object is of the type; sets and maps are sorted; null pointers point to types
    without parts.  [size_fits]: at most 129 scopes inside each other and counts that fit the format. *)
Theorem C39_objects_partial : forall w p t v name old n, regular w -> constructs w -> storable w [] (fun _ => 0%nat) (carried (w_fp w) p) n t v -> plain v = true ->
  shape w t old -> name_fits p name -> names_fit w p [] v ->
  exists d tab size, (forall F, (size <= F)%nat -> stored_doc F w [] t v name [] = Ok (d, tab)) /\
  (size_fits p d -> exists bs s, stores_as w [] p name t v bs /\ restores_as w p bs t old v s).
Proof.
  intros w p t v name old n RG NW ST P SH N NF.
  assert (HP : S_ObjStore.heap_ok w [] (fun _ => 0%nat) (carried (w_fp w) p)) by (split; [intros [|a] e x; discriminate|reflexivity]).
  destruct (object_kept w p [] (fun _ => 0%nat) n t v name old RG NW HP ST SH N NF) as (d & tab & size & A & B). exists d, tab, size. split; [exact A|].
  intros Z. destruct (B Z) as (bs & c & s & r & B1 & B2 & _ & B3 & _). rewrite (plain_same r v c P B3) in B2. eauto.
Qed.
Print Assumptions C39_psrl_int64_min_refuted.
Print Assumptions C39_objects_partial.
Definition ex_obj : cv := VList [pt (-5) ($"p"); VList [VNum 1; VNum (1 - 2 ^ 63)]; VMap [(VStr ($"a"), VNum 7); (VStr ($"b"), VNum 255)]; VList [VNum 1; VList [VNum 3; VNum (-4)]]].
Definition name_ok (k : bytes) : bool := forallb (fun b => (0 <=? b) && (b <? 256) && negb (b =? 34) && negb (b =? 92)) k && (zlen k <? 2 ^ 32).
Lemma name_ok_fits p k : name_ok k = true -> name_fits p k.
Proof.
  intros H. apply andb_true_iff in H. destruct H as [H L]. rewrite forallb_forall in H. split; [split|].
  - apply Forall_forall. intros b I. specialize (H b I). unfold is_byte. lia.
  - lia.
  - intros _. split; intros I; specialize (H _ I); discriminate H.
Qed.
Lemma ex_names p hp v : forallb name_ok (tab_keys v) = true -> forallb (fun q => forallb name_ok (tab_keys (snd q))) hp = true -> names_fit ex_world p hp v.
Proof.
  intros H1 H2. rewrite forallb_forall in H1, H2. split; [|split].
  - intros c f I. apply name_ok_fits. assert (B : forallb (fun f => name_ok (f_name f)) (ex_cls c) = true) by (destruct c as [|[|[|[|[|c]]]]]; vm_compute; reflexivity).
    rewrite forallb_forall in B. now apply B.
  - apply Forall_forall. intros k I. apply name_ok_fits. auto.
  - intros a e x E. apply Forall_forall. intros k I. apply name_ok_fits. apply nth_error_In in E. specialize (H2 _ E). rewrite forallb_forall in H2. now apply H2.
Qed.
Lemma ex_storable : storable ex_world [] (fun _ => 0%nat) (carried ex_fp (PsrlP psrl_init)) 0 (CCls 1) ex_obj.
Proof.
  assert (N : forall ty n, carried ex_fp (PsrlP psrl_init) (CNum ty) (VNum n) -> storable ex_world [] (fun _ => 0%nat) (carried ex_fp (PsrlP psrl_init)) 0 (CNum ty) (VNum n)).
  { intros ty n H. apply st_leaf; [exact I| |exact H]. destruct H as [H _]. destruct ty; cbn in H |- *; try reflexivity; destruct H. }
  assert (S : forall s, name_ok s = true -> storable ex_world [] (fun _ => 0%nat) (carried ex_fp (PsrlP psrl_init)) 0 (CStr EUTF8) (VStr s)).
  { intros s H. apply st_leaf; [exact I|reflexivity|]. destruct (name_ok_fits (PsrlP psrl_init) s H) as [[W L] _]. split; [exact L|]. split; [exact W|now left]. }
  apply st_cls. cbn [w_cls ex_world ex_cls pt_fields]. constructor; [|constructor; [|constructor; [|constructor; [|constructor]]]]; cbn [f_type].
  - apply st_cls. cbn [w_cls ex_world ex_cls pt_fields]. constructor; [|constructor; [|constructor]]; cbn [f_type].
    + apply N. split; [cbn; lia|exact I].
    + now apply S.
  - apply st_seq. constructor; [|constructor; [|constructor]]; apply N; split; cbn; try lia; exact I.
  - apply st_map; cbn [map fst snd].
    + constructor; [|constructor; [|constructor]]; now apply S.
    + constructor; [|constructor; [|constructor]]; apply N; (split; [cbn; lia|exact I]).
    + reflexivity.
    + intros i j x y L Hi Hj. destruct i as [|i]; [|destruct i as [|i]; [|now destruct i]]; destruct j as [|j]; try lia; destruct j as [|j]; try lia; cbn in Hi, Hj; try (now destruct j).
      injection Hi as <-. injection Hj as <-. now split.
  - apply st_pair.
    + apply N. split; [now right|exact I].
    + apply (st_arr ex_world [] _ _ 0 _ [VNum 3; VNum (-4)]). constructor; [|constructor; [|constructor]]; apply N; (split; [cbn; lia|exact I]).
Qed.
Example C39_ex : regular ex_world /\ constructs ex_world /\ storable ex_world [] (fun _ => 0%nat) (carried ex_fp (PsrlP psrl_init)) 0 (CCls 1) ex_obj /\ plain ex_obj = true /\
  names_fit ex_world (PsrlP psrl_init) [] ex_obj /\ io (PsrlP psrl_init) [] (CCls 1) ex_obj = Ok (ex_obj, rs_new) /\ io (MsgpP msgp_init) [] (CCls 1) ex_obj = Ok (ex_obj, rs_new).
Proof.
  split; [exact ex_regular|]. split; [exact ex_constructs|]. split; [exact ex_storable|]. split; [reflexivity|]. split; [apply ex_names; reflexivity|].
  split; vm_compute; reflexivity.
Qed.

(** * C40 the order of the fields.
    [agree] relates documents with the same items for the members of the classes, at all depths and in any order.  Restoring
    from a tree gives the same for both, *)
Theorem C40_order_tree : forall w F t old d d' s x, scoped t = true -> agree w false true (Of t) d d' -> is_sc d = true ->
  unwrap_prog F w t old (doc_node d) s = ERet x <-> unwrap_prog F w t old (doc_node d') s = ERet x.
Proof. exact agree_tree. Qed.
(** and so does restoring from an input what was stored: the items of the document written may come in any order *)
Theorem C40_order_direct : forall w p hp lev n t v name old, regular w -> constructs w -> scoped t = true -> S_ObjStore.heap_ok w hp lev (carried (w_fp w) p) ->
  storable w hp lev (carried (w_fp w) p) n t v -> shape w t old -> name_fits p name -> names_fit w p hp v ->
  exists d tab size, (forall F, (size <= F)%nat -> stored_doc F w hp t v name [] = Ok (d, tab)) /\
  (size_fits p d -> exists bs c s r dn size', stores_as w hp p name t v bs /\ same_object r v c /\ same_heap r hp (r_heap s) /\
     (forall q F before rest, same_format p q -> (size' <= F)%nat -> holds (w_fp w) F q (mkBlk before (bs ++ rest)) dn) /\
     forall d' q F b, agree w true true (Of t) dn d' -> deep_enough d' -> holds (w_fp w) F q b d' -> (size' + length (events d') <= F)%nat ->
       exists q' b', run_block (restore_object (w_fp w) F w q t old) b = Ok ((q', (c, s)), b')).
Proof.
  intros w p hp lev n t v name old RG NW SC HP ST SH N NF. destruct (object_kept w p hp lev n t v name old RG NW HP ST SH N NF) as (d & tab & size & A & B). exists d, tab, size. split; [exact A|].
  intros Z. destruct (B Z) as (bs & c & s & r & B1 & _ & _ & B3 & B4 & dn & size' & B5 & B6 & B7). exists bs, c, s, r, dn, size'. do 4 (split; [assumption|]).
  intros d' q F b AG DE HO L. exact (proj1 (direct_and_tree w F size' q b d' t old c s RG HO DE (agree_says w true size' t old dn d' rs_new _ SC AG B6) L)).
Qed.
(** in particular: the items of an object permuted *)
Theorem C40_permutation_agrees : forall w direct r c k ty its its', named_class (w_cls w c) -> Permutation its its' -> NoDup (map (fun d => (is_sc d, doc_name d)) its) ->
  (direct = true -> Forall (fun d => requested (w_cls w c) d = true) its /\ unambiguous (w_cls w c) its) ->
  agree w direct r (Of (CCls c)) (DScope k ty its) (DScope k ty its').
Proof. exact agree_permuted. Qed.
Print Assumptions C40_order_tree.
Print Assumptions C40_order_direct.
Print Assumptions C40_permutation_agrees.
Definition js (s : bytes) : bytes := map (fun b => if b =? 39 then 34 else b) s.
Definition json_p : parser := JsonP (json_init true).
Definition nested_a : bytes := js ($"{'in':{'x':1,'tag':'t'},'n':2}").
Definition nested_b : bytes := js ($"{'n':2,'in':{'tag':'t','x':1}}").
Example C40_ex : io_back json_p nested_a (CCls 3) = Ok (VList [pt 1 ($"t"); VNum 2], rs_new) /\ io_back json_p nested_b (CCls 3) = Ok (VList [pt 1 ($"t"); VNum 2], rs_new) /\
  io_tree json_p nested_b (CCls 3) = io_tree json_p nested_a (CCls 3).
Proof. repeat split; vm_compute; reflexivity. Qed.

(** * C41 fields that are not requested.
    Full statement: documents with the same requested items give the same result.  False when an object inside another one is
    restored from an input and its last item is a scope that was not asked for: consume_scope stops at the end of that scope *)
Theorem C41_unknown_fields_refuted : exists plain extra, plain = js ($"{'in':{'x':1,'tag':'t'},'n':2}") /\ extra = js ($"{'in':{'x':1,'tag':'t','more':{}},'n':2}") /\
  io_back json_p plain (CCls 3) = Ok (VList [pt 1 ($"t"); VNum 2], rs_new) /\ io_back json_p extra (CCls 3) = Err /\
  io_tree json_p extra (CCls 3) = Ok (VList [pt 1 ($"t"); VNum 2], rs_new).
Proof. do 2 eexists. split; [reflexivity|]. split; [reflexivity|]. repeat split; vm_compute; reflexivity. Qed.
(** True of trees, of values, of scopes in front of something that is asked for, and of the outermost object: *)
Theorem C41_unknown_fields_partial : forall w direct r c k ty its its', named_class (w_cls w c) ->
  filter (requested (w_cls w c)) its = filter (requested (w_cls w c)) its' ->
  (direct = true -> unambiguous (w_cls w c) its' /\ (r = true \/ covered (w_cls w c) its')) ->
  agree w direct r (Of (CCls c)) (DScope k ty its) (DScope k ty its').
Proof. exact agree_requested. Qed.
Theorem C41_unknown_fields_direct_partial : forall w F F0 q b d d' t old v s, regular w -> scoped t = true -> agree w true true (Of t) d d' ->
  says F0 w true t old d rs_new = Ok (v, s) -> deep_enough d' -> holds (w_fp w) F q b d' -> (F0 + length (events d') <= F)%nat ->
  exists q' b', run_block (restore_object (w_fp w) F w q t old) b = Ok ((q', (v, s)), b').
Proof.
  intros w F F0 q b d d' t old v s RG SC AG SY DE HO L. exact (proj1 (direct_and_tree w F F0 q b d' t old v s RG HO DE (agree_says w true F0 t old d d' rs_new _ SC AG SY) L)).
Qed.
Print Assumptions C41_unknown_fields_refuted.
Print Assumptions C41_unknown_fields_partial.
Print Assumptions C41_unknown_fields_direct_partial.
Example C41_ex : io_back json_p (js ($"{'a':[1,[2]],'in':{'y':[],'x':1,'z':7,'tag':'t','q':9},'b':'','n':2,'c':{'d':{}}}")) (CCls 3) = Ok (VList [pt 1 ($"t"); VNum 2], rs_new).
Proof. vm_compute. reflexivity. Qed.

(** * C42 restoring directly, and loading and unwrapping.
    Full statement: the same result for every input.  False for arrays: surplus elements are an error only in a tree *)
Theorem C42_direct_is_load_and_unwrap_refuted : exists bs t, io_back json_p bs t = Ok (VList [VNum 1; VNum 2], rs_new) /\ io_tree json_p bs t = Err.
Proof. exists ($"[1,2,3]"), (CArr 2 (CNum TI32)). split; vm_compute; reflexivity. Qed.
(** True whenever the document says what the object is ([says], restoring as a function on documents, with the two conditions
    of [strict]): both give it *)
Theorem C42_direct_is_load_and_unwrap_partial : forall w F F0 q b d t old v s, regular w -> holds (w_fp w) F q b d -> deep_enough d ->
  says F0 w true t old d rs_new = Ok (v, s) -> (F0 + length (events d) <= F)%nat ->
  (exists q' b', run_block (restore_object (w_fp w) F w q t old) b = Ok ((q', (v, s)), b')) /\
  (exists q' b' n, run_block (load_tree (w_fp w) F q) b = Ok ((q', (doc_name d, n)), b') /\ unwrap_prog F w t old n rs_new = ERet (v, s)).
Proof. exact direct_and_tree. Qed.
(** in particular for everything that was stored *)
Theorem C42_stored_objects : forall w p hp lev n t v name old, regular w -> constructs w -> S_ObjStore.heap_ok w hp lev (carried (w_fp w) p) ->
  storable w hp lev (carried (w_fp w) p) n t v -> shape w t old -> name_fits p name -> names_fit w p hp v ->
  exists d tab size, (forall F, (size <= F)%nat -> stored_doc F w hp t v name [] = Ok (d, tab)) /\
  (size_fits p d -> exists bs c s, stores_as w hp p name t v bs /\ restores_as w p bs t old c s /\ unwraps_as w p bs t old c s).
Proof.
  intros w p hp lev n t v name old RG NW HP ST SH N NF. destruct (object_kept w p hp lev n t v name old RG NW HP ST SH N NF) as (d & tab & size & A & B). exists d, tab, size. split; [exact A|].
  intros Z. destruct (B Z) as (bs & c & s & r & B1 & B2 & B3 & _). eauto 6.
Qed.
Print Assumptions C42_direct_is_load_and_unwrap_refuted.
Print Assumptions C42_direct_is_load_and_unwrap_partial.
Print Assumptions C42_stored_objects.
Example C42_ex : (let* bs := io_bytes (PsrlP psrl_init) [] (CCls 1) ex_obj in io_tree (PsrlP psrl_init) bs (CCls 1)) = Ok (ex_obj, rs_new) /\
  io (PsrlP psrl_init) [] (CCls 1) ex_obj = Ok (ex_obj, rs_new).
Proof. split; vm_compute; reflexivity. Qed.

(** * C43 shared pointers.
    For every graph that can be stored ([heap_ok]: acyclic; no null shared pointers): ways to a pointer exist before iff they
    exist afterwards, and two of them lead to the same object before iff they do afterwards; numbers and strings at the end
    of a way are the same *)
Theorem C43_sharing_partial : forall w p hp lev n t v name old, regular w -> constructs w -> S_ObjStore.heap_ok w hp lev (carried (w_fp w) p) ->
  storable w hp lev (carried (w_fp w) p) n t v -> shape w t old -> name_fits p name -> names_fit w p hp v ->
  exists d tab size, (forall F, (size <= F)%nat -> stored_doc F w hp t v name [] = Ok (d, tab)) /\
  (size_fits p d -> exists bs c s, stores_as w hp p name t v bs /\ restores_as w p bs t old c s /\
     (forall way1 way2, (exists a b, part hp v way1 = Some (VRef a) /\ part hp v way2 = Some (VRef b) /\ a = b) <->
                        (exists a b, part (r_heap s) c way1 = Some (VRef a) /\ part (r_heap s) c way2 = Some (VRef b) /\ a = b)) /\
     (forall way, (forall n, part hp v way = Some (VNum n) <-> part (r_heap s) c way = Some (VNum n)) /\
                  (forall x, part hp v way = Some (VStr x) <-> part (r_heap s) c way = Some (VStr x)))).
Proof.
  intros w p hp lev n t v name old RG NW HP ST SH N NF. destruct (object_kept w p hp lev n t v name old RG NW HP ST SH N NF) as (d & tab & size & A & B). exists d, tab, size. split; [exact A|].
  intros Z. destruct (B Z) as (bs & c & s & r & B1 & B2 & _ & B3 & B4 & _). exists bs, c, s. do 2 (split; [assumption|]). split; [now apply (sharing_kept r)|now apply (content_kept r)].
Qed.
(** a null shared pointer is stored, but not restored; the same for a null pointer to an object *)
Theorem C43_null_refuted : exists v hp bs, v = VList [VRef 0; VNone; VRef 0] /\ io_bytes json_p hp (CCls 2) v = Ok bs /\ io_back json_p bs (CCls 2) = Err /\ io_tree json_p bs (CCls 2) = Err.
Proof. exists (VList [VRef 0; VNone; VRef 0]), [(CCls 0, pt 1 [])]. eexists. split; [reflexivity|]. split; [vm_compute; reflexivity|]. split; vm_compute; reflexivity. Qed.
Print Assumptions C43_sharing_partial.
Print Assumptions C43_null_refuted.
Definition ex_graph : heap_t := [(CCls 0, pt 3 ($"s")); (CCls 0, pt 3 ($"t"))].
Lemma ex_graph_storable : S_ObjStore.heap_ok ex_world ex_graph (fun _ => 0%nat) (carried ex_fp json_p) /\
  storable ex_world ex_graph (fun _ => 0%nat) (carried ex_fp json_p) 1 (CCls 2) (VList [VRef 1; VRef 0; VRef 1]).
Proof.
  assert (S : forall s k, name_ok s = true -> storable ex_world ex_graph (fun _ => 0%nat) (carried ex_fp json_p) k (CStr EUTF8) (VStr s)).
  { intros s k H. apply st_leaf; [exact I|reflexivity|]. destruct (name_ok_fits json_p s H) as [[W L] _]. split; [exact L|]. split; [exact W|]. now left. }
  assert (P : forall k x s, int_min TI32 <= x <= int_max TI32 -> name_ok s = true -> storable ex_world ex_graph (fun _ => 0%nat) (carried ex_fp json_p) k (CCls 0) (pt x s)).
  { intros k x s H1 H2. apply st_cls. constructor; [|constructor; [|constructor]]; cbn [f_type].
    - apply st_leaf; [exact I|reflexivity|]. split; [exact H1|exact I].
    - now apply S. }
  split.
  - split; [|reflexivity]. intros a e x E. destruct a as [|[|a]]; cbn in E; [injection E as <- <-|injection E as <- <-|destruct a; discriminate]; (apply P; [cbn; lia|reflexivity]).
  - apply st_cls. constructor; [|constructor; [|constructor; [|constructor]]]; cbn [f_type].
    + eapply st_shared; [reflexivity|lia].
    + eapply st_shared; [reflexivity|lia].
    + eapply st_weak; [reflexivity|lia].
Qed.
Example C43_ex : io json_p ex_graph (CCls 2) (VList [VRef 1; VRef 0; VRef 1]) =
  Ok (VList [VRef 0; VRef 1; VRef 0], mkRs [(CCls 0, pt 3 ($"t")); (CCls 0, pt 3 ($"s"))] [(1, 1%nat); (0, 0%nat)]) /\
  part ex_graph (VList [VRef 1; VRef 0; VRef 1]) [Item 2; Target; Item 1] = Some (VStr ($"t")).
Proof. split; vm_compute; reflexivity. Qed.

(** * C44 storing twice.
    Full statement: [let (a, b) := twice F w hp t v name in b = a].  False with shared pointers: the second document lacks the
    objects *)
Theorem C44_store_twice_refuted : exists hp v d1 d2, twice 9 ex_world hp (CCls 2) v ($"o") = (Ok d1, Ok d2) /\ d1 <> d2 /\
  (exists x, says 9 ex_world true (CCls 2) (ex_new (CCls 2)) d1 rs_new = Ok x) /\ says 9 ex_world false (CCls 2) (ex_new (CCls 2)) d2 rs_new = Err.
Proof. exists ex_graph, (VList [VRef 1; VRef 0; VRef 1]). do 2 eexists. split; [vm_compute; reflexivity|]. split; [discriminate|]. split; [eexists; vm_compute; reflexivity|vm_compute; reflexivity]. Qed.
(** True without shared pointers, whatever was stored before *)
Theorem C44_store_twice_partial : forall w hp F t v name e, plain v = true ->
  fst (tree_store F w hp t v name (snd (tree_store F w hp t v name e))) = fst (tree_store F w hp t v name e).
Proof. exact plain_twice. Qed.
Print Assumptions C44_store_twice_refuted.
Print Assumptions C44_store_twice_partial.
Example C44_ex : exists d, twice 9 ex_world [] (CCls 1) ex_obj ($"o") = (Ok d, Ok d) /\ length (events d) = 27%nat.
Proof. eexists. split; [vm_compute; reflexivity|reflexivity]. Qed.

(** * C45 a store that fails.
    Full statement: [fst (tree_store ..) = Err -> tree_insert_value (snd (tree_store ..)) n v k] adds to the tree.  False: *)
Theorem C45_failed_store_refuted : exists v e, tree_store 9 ex_world [] (CCls 4) v ($"o") tenv_new = (Err, e) /\
  tree_insert_value e (empty_node TObject) (val_int TI32 7) ($"k") = Ok (empty_node TObject, [($"k", val_int TI32 7)]).
Proof. exists (VList [VNone]). eexists. split; vm_compute; reflexivity. Qed.
(** the same insertion on any environment that no store has left by an exception, in particular after one that succeeded *)
Theorem C45_store_partial : forall F w hp t v name e d e' n x k, tree_store F w hp t v name e = (Ok d, e') ->
  tree_insert_value e' n x k = Ok (mkNode (n_type n) (n_values n ++ [(k, x)]) (n_nodes n), []).
Proof.
  intros F w hp t v name e d e' n x k H. unfold tree_store in H. destruct (stored_doc F w hp t v name (e_shared e)) as [[d0 tab]| | |]; try discriminate. injection H as <- <-.
  unfold tree_insert_value. cbn [e_parsing]. rewrite P_Tree.store_value_utf8. reflexivity.
Qed.
Print Assumptions C45_failed_store_refuted.
Print Assumptions C45_store_partial.
Example C45_ex : exists d e, tree_store 9 ex_world [] (CCls 0) (pt 1 ($"a")) ($"o") tenv_new = (Ok d, e) /\ d = DScope ($"o") TObject [DVal ($"x") (val_int TI32 1); DVal ($"tag") (val_string ($"a") EUTF8)].
Proof. do 2 eexists. split; vm_compute; reflexivity. Qed.

(** * C54 character arrays.
    Full statement: [paste_chars e n mem v] is [Err] or memory of the same size.  False: the terminator goes to the number of
    bytes of the text before its conversion.  Two euro signs into a char16_t[3]: *)
Theorem C54_char_array_refuted : exists e n mem v, e = EUTF16 /\ zlen mem = n * unit_size e /\ v = val_string (text EUTF8 [8364; 8364]) EUTF8 /\ paste_chars e n mem v = UB UbOob.
Proof. exists EUTF16, 3, [0; 0; 0; 0; 0; 0]. eexists. repeat split; vm_compute; reflexivity. Qed.
(** True if no conversion is needed, *)
Theorem C54_char_array_partial : forall e n mem v, 1 <= n -> zlen mem = n * unit_size e -> v_enc v = e ->
  paste_chars e n mem v = Err \/ exists m, paste_chars e n mem v = Ok m /\ zlen m = zlen mem.
Proof.
  intros e n mem v N M E. destruct (chars_inside e n mem v N M) as [H|[H|[H _]]]; [now left|now right|]. now destruct H.
Qed.
(** and otherwise if the text is not longer than the array before its conversion either *)
Theorem C54_char_array_converted_partial : forall e n mem v, 1 <= n -> zlen mem = n * unit_size e -> zlen (v_data v) <= (n - 1) * unit_size e -> paste_chars e n mem v <> UB UbOob \/ conv_charset_vec e (v_enc v) (v_data v) true = UB UbOob.
Proof.
  intros e n mem v N M L. destruct (chars_inside e n mem v N M) as [H|[(m & H & _)|(_ & c & C & H)]]; [left; now rewrite H|left; now rewrite H|]. subst c.
  destruct (conv_charset_vec e (v_enc v) (v_data v) true) as [c| |u|] eqn:C; [lia|destruct H| |left; now rewrite H]. rewrite H. destruct u; (now right) || now left.
Qed.
Print Assumptions C54_char_array_refuted.
Print Assumptions C54_char_array_partial.
Print Assumptions C54_char_array_converted_partial.
Example C54_ex : paste_chars EUTF8 4 ($"wxyz") (val_string ($"ab") EUTF8) = Ok [97; 98; 0; 122] /\ paste_chars EUTF8 4 ($"wxyz") (val_string ($"abcd") EUTF8) = Err.
Proof. split; vm_compute; reflexivity. Qed.
