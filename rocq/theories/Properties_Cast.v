(** Property C87: pointers to polymorphic classes. *)
From Coq Require Import ZArith List Bool Lia ZifyBool ZifyNat.
From Verif Require Import Base Lemmas M_Types M_Conv M_Charset M_Heap M_In S_Doc M_Event M_PSrl M_MsgPack M_Json M_Tree S_Tree M_TreeIO S_TreeIO M_Reg S_Reg M_Object S_Object S_ObjStore M_ObjIO S_ObjIO S_ObjSafe M_Cast S_Cast
  P_TreeSafe P_ObjUntrusted P_Cast Properties_Object.
Import ListNotations.
Open Scope Z_scope.

(** The object made for an id is of the class registered under it; it is usable through the pointer if and only if it begins
    with an object of the pointer's class.  Nothing checks that. *)
Theorem C87_create : forall lay ops r u id c k, registers ops r ->
  (create_as lay r u (id, EUTF8) = Ok (Some c) <-> registered ops id = Some c /\ begins lay c u) /\
  (create_as lay r u (id, EUTF8) = Ok None <-> registered ops id = None) /\
  (create_as lay r u (id, EUTF8) = UB k <-> k = UbCast /\ exists c, registered ops id = Some c /\ ~ begins lay c u).
Proof.
  intros lay ops r u id c k R. rewrite (create_found lay ops r u id R). destruct (registered ops id) as [c'|]; [|split; [|split]; split; try discriminate; try (intros [H _]; discriminate H); try (intros (_ & c2 & H & _); discriminate H); reflexivity].
  pose proof (begins_spec lay c' u) as B. destruct (at_start lay c' u).
  - assert (Y : begins lay c' u) by (now apply B). split; [|split]; split; try discriminate.
    + intros H. injection H as <-. now split.
    + intros [H _]. now injection H as ->.
    + intros (_ & c2 & H & N). injection H as <-. contradiction.
  - assert (N : ~ begins lay c' u) by (intros Y; apply B in Y; discriminate Y). split; [|split]; split; try discriminate.
    + intros [H Y]. injection H as ->. contradiction.
    + intros H. injection H as <-. split; [reflexivity|]. now exists c'.
    + intros [-> _]. reflexivity.
Qed.
Print Assumptions C87_create.
(** If every registered class may be made for every pointer inside the type, the ids in the input do no harm: what remains
    are the other causes of C63.  The full statement has no such premise; it is false, see below. *)
Theorem C87_fitting_partial : forall lay ops r w0 t old F q src u, let w := with_regs lay r w0 in registers ops r -> all_fit lay ops w t ->
  well_made w t old -> parser_ok q -> wf_bytes src -> (length src < F)%nat ->
  run_block (restore_object (w_fp w) F w q t old) (set_block src) = UB u ->
  load_ub q src u \/
  (exists n q' es b, run_block (parse_items (w_fp w) F q n) (set_block src) = Ok ((q', es), b) /\ mishap_else w t (map snd es) u).
Proof.
  intros lay ops r w0 t old F q src u w R A WM PO W L H. destruct (restore_untrusted w t old F q src u WM PO W L H) as [X|(n & q' & es & b & E & M)]; [now left|]. right. exists n, q', es, b. split; [exact E|]. exact (fits_safe lay ops r w0 t _ u R A M).
Qed.
Print Assumptions C87_fitting_partial.
(** MessagePack, and a type whose other parts are harmless: nothing is undefined, from whatever bytes *)
Theorem C87_harmless : forall lay ops r w0 t old F st src u, let w := with_regs lay r w0 in registers ops r -> all_fit lay ops w t ->
  well_made w t old -> harmless_else w t -> wf_bytes src ->
  run_block (restore_object (w_fp w) F w (MsgpP st) t old) (set_block src) <> UB u /\
  run_stream (restore_object (w_fp w) F w (MsgpP st) t old) (set_stream src) <> UB u.
Proof. exact fits_harmless. Qed.
Print Assumptions C87_harmless.
(** The id of a class that does not fit, in any format and whatever else the object contains: the behaviour is undefined. *)
Theorem C87_other_class : forall lay ops r w u old k ty its v c, registers ops r -> deep_enough (DScope k ty its) -> first_id its = Some v -> is_text v -> v_enc v = EUTF8 ->
  registered ops (v_data v) = Some c -> ~ begins lay c u -> forall q F b, (length (events (DScope k ty its)) < F)%nat -> holds (w_fp w) F q b (DScope k ty its) ->
  run_block (restore_object (w_fp w) F (with_regs lay r w) q (CPoly u) old) b = UB UbCast.
Proof. exact confused. Qed.
Print Assumptions C87_other_class.
(** That includes what the library has written itself: an object of class [c] stored through a pointer to a base [u] that is
    not at the beginning of [c] cannot be restored through a pointer to [u]. *)
Theorem C87_own_data : forall lay ops r w0 p hp lev n u c vs name, let w := with_regs lay r w0 in registers ops r -> regular w -> constructs w ->
  S_ObjStore.heap_ok w hp lev (carried (w_fp w) p) -> storable w hp lev (carried (w_fp w) p) n (CPoly c) (VPoly c vs) -> name_fits p name -> names_fit w p hp (VPoly c vs) ->
  ~ begins lay c u ->
  exists d tab size, (forall F, (size <= F)%nat -> stored_doc F w hp (CPoly u) (VPoly c vs) name [] = Ok (d, tab)) /\
  (size_fits p d -> exists bs size', stores_as w hp p name (CPoly u) (VPoly c vs) bs /\
    forall q F before rest old, same_format p q -> (size' <= F)%nat -> run_block (restore_object (w_fp w) F w q (CPoly u) old) (mkBlk before (bs ++ rest)) = UB UbCast).
Proof. exact own_confused. Qed.
Print Assumptions C87_own_data.

(** * Examples: struct Shape, struct Named, struct Circle : Shape, struct Label : Shape, Named, struct Other *)
Definition cs_shape : nat := 0. Definition cs_named : nat := 2.
Definition cs_lay (c : nat) : list (nat * Z) := match c with 1 => [(0, 0%Z)] | 3 => [(0, 0%Z); (2, 16%Z)] | _ => [] end%nat.
Definition cs_cls (c : nat) : list field :=
  match c with 1 => [mkField ($"r") false (CNum TFP64)] | 3 => [mkField ($"w") false (CNum TFP64)] | 4 => [mkField ($"n") false (CNum TBool)] | _ => [] end%nat.
Definition cs_id (c : nat) : bytes := match c with 1 => $"circle" | 3 => $"label" | 4 => $"other" | _ => [] end%nat.
Definition cs_new (t : ct) : cv := match t with CCls c => match c with 1 | 3 | 4 => VList [VNum 0] | _ => VList [] end | _ => ex_new t end%nat.
Definition cs_shapes : list rop := [RAdd ($"circle") 1; RAdd ($"label") 3].
Definition cs_all : list rop := cs_shapes ++ [RAdd ($"other") 4].
Definition cs_regs (ops : list rop) : regs := match reg_run regs_new ops with Ok (_, r) => r | _ => regs_new end.
Definition cs_world (ops : list rop) : world := with_regs cs_lay (cs_regs ops) (mkWorld ex_fp cs_cls cs_id (fun _ _ => Err) cs_new ex_lt).
Definition cs_store (p : parser) (t : ct) (v : cv) : bytes := match store_object ex_fp 100 (cs_world cs_all) [] p (heap_init no_mem) ($"o") t v with Ok (_, bs, _) => bs | _ => [] end.
Definition cs_restore (p : parser) (u : nat) (bs : bytes) : res cv :=
  let* (r, _) := run_block (restore_object ex_fp 400 (cs_world cs_all) p (CPoly u) VNone) (set_block bs) in Ok (fst (snd r)).
Definition cs_circle : cv := VPoly 1 [VNum 4614253070214989087]. (* 3.14 *)
Definition cs_label : cv := VPoly 3 [VNum 0].
Example C87_ex :
  cs_restore (PsrlP psrl_init) cs_shape (cs_store (PsrlP psrl_init) (CPoly cs_shape) cs_circle) = Ok cs_circle /\
  cs_restore (MsgpP msgp_init) cs_shape (cs_store (MsgpP msgp_init) (CPoly cs_shape) cs_label) = Ok cs_label /\
  cs_restore json_p cs_shape (js ($"{'r':7,'srl_type_id':'circle'}")) = Ok (VPoly 1 [VNum 4619567317775286272]) /\
  cs_restore json_p cs_shape (js ($"{'srl_type_id':'square','r':7}")) = Err.
Proof. repeat split; vm_compute; reflexivity. Qed.

Lemma cs_registers ops : (match reg_run regs_new ops with Ok _ => true | _ => false end) = true -> registers ops (cs_regs ops).
Proof. unfold registers, cs_regs. destruct (reg_run regs_new ops) as [[os r]| | |]; try discriminate. eauto. Qed.
Lemma cs_reg_shapes : registers cs_shapes (cs_regs cs_shapes).
Proof. apply cs_registers. vm_compute. reflexivity. Qed.
Lemma cs_registered id c : registered cs_shapes id = Some c -> c = 1%nat \/ c = 3%nat.
Proof. cbn [registered cs_shapes]. destruct (bytes_eqb _ id); [intros H; injection H as <-; auto|]. destruct (bytes_eqb _ id); [intros H; injection H as <-; auto|discriminate]. Qed.
Lemma cs_parts t p : t = CPoly cs_shape \/ t = CNum TFP64 -> part (cs_world cs_shapes) t p -> p = CPoly cs_shape \/ p = CNum TFP64.
Proof.
  intros T P. induction P; try (destruct T as [T|T]; discriminate T); [exact T|]. apply IHP. right. cbn [cs_world with_regs w_reg] in H. destruct T as [T|T]; [|discriminate T].
  destruct (create_class cs_lay cs_shapes (cs_regs cs_shapes) b id c cs_reg_shapes H) as [_ [i R]].
  destruct (cs_registered _ _ R) as [-> | ->]; cbn [cs_world with_regs w_cls cs_cls In] in H0; destruct H0 as [<-|[]]; reflexivity.
Qed.
(** only shapes are registered: pointers to Shape are safe *)
Example C87_ex_shapes : forall F st src u, wf_bytes src ->
  run_block (restore_object ex_fp F (cs_world cs_shapes) (MsgpP st) (CPoly cs_shape) VNone) (set_block src) <> UB u /\
  run_stream (restore_object ex_fp F (cs_world cs_shapes) (MsgpP st) (CPoly cs_shape) VNone) (set_stream src) <> UB u.
Proof.
  intros F st src u W. apply (C87_harmless cs_lay cs_shapes (cs_regs cs_shapes)); auto.
  - exact cs_reg_shapes.
  - intros v id c P R. apply cs_parts in P; [|now left]. destruct P as [P|P]; [injection P as ->|discriminate P]. right. destruct (cs_registered _ _ R) as [-> | ->]; now left.
  - split; [discriminate|]. split; [intros d; exact (Forall_nil _)|]. split; [|split; [now apply sz_any|]; split].
    + intros p P. apply cs_parts in P; [|now left]. destruct P as [P|P]; [discriminate P|]. injection P as ->. cbn. tauto.
    + intros p P. apply cs_parts in P; [|now left]. destruct P as [-> | ->]; now apply sz_any.
    + intros b id c P H. destruct (create_class cs_lay cs_shapes (cs_regs cs_shapes) b id c cs_reg_shapes H) as [_ [i R]].
      destruct (cs_registered _ _ R) as [-> | ->]; apply sz_cls; repeat constructor.
  - intros p P. apply cs_parts in P; [|now left]. destruct P as [-> | ->]; cbn; tauto.
Qed.

(** * What is not true *)
(** The id of a class that has nothing to do with the pointer: the object is used as if it were a Shape. *)
Theorem C87_unrelated_refuted : exists src, wf_bytes src /\ registered cs_all ($"other") = Some 4%nat /\ ~ begins cs_lay 4 cs_shape /\ cs_restore json_p cs_shape src = UB UbCast.
Proof.
  exists (js ($"{'srl_type_id':'other','n':true}")). split; [apply wf_bytesb_spec; vm_compute; reflexivity|]. split; [vm_compute; reflexivity|]. split; [intros [H|H]; [discriminate H|destruct H]|]. vm_compute. reflexivity.
Qed.
Print Assumptions C87_unrelated_refuted.
(** A Label stored through a pointer to its second base Named. *)
Theorem C87_second_base_refuted : exists v, In (cs_named, 16) (cs_lay 3) /\ cs_restore (PsrlP psrl_init) 3 (cs_store (PsrlP psrl_init) (CPoly cs_named) v) = Ok v /\
  cs_restore (PsrlP psrl_init) cs_named (cs_store (PsrlP psrl_init) (CPoly cs_named) v) = UB UbCast /\
  cs_restore (MsgpP msgp_init) cs_named (cs_store (MsgpP msgp_init) (CPoly cs_named) v) = UB UbCast /\
  cs_restore json_p cs_named (cs_store json_p (CPoly cs_named) v) = UB UbCast.
Proof. exists cs_label. split; [now right; left|]. repeat split; vm_compute; reflexivity. Qed.
Print Assumptions C87_second_base_refuted.
