(** Property C88: objects outlive changes of their classes. *)
From Coq Require Import ZArith List Bool Lia ZifyBool ZifyNat.
From Verif Require Import Base Lemmas M_Types M_Conv M_Charset M_Heap M_In S_Doc M_Event M_PSrl M_MsgPack M_Json M_Tree S_Tree M_TreeIO S_TreeIO M_Object S_Object S_ObjStore M_ObjIO S_ObjIO S_Evolve
  P_EvolveIO Properties_Object.
Import ListNotations.
Open Scope Z_scope.

(** From a tree: [w1] are the classes of the program that stored the object, [w2] those of the program that restores it. *)
Theorem C88_tree : forall w1 w2 R p hp lev n t1 t2 v name old, regular w1 -> regular w2 -> constructs w2 -> evolution w1 w2 R false -> becomes_root w1 w2 R t1 t2 ->
  S_ObjStore.heap_ok w1 hp lev (carried (w_fp w1) p) -> storable w1 hp lev (carried (w_fp w1) p) n t1 v -> shape w2 t2 old -> name_fits p name -> names_fit w1 p hp v ->
  exists d tab size, (forall F, (size <= F)%nat -> stored_doc F w1 hp t1 v name [] = Ok (d, tab)) /\
  (size_fits p d -> exists bs c, stores_as w1 hp p name t1 v bs /\ unwraps_as w2 p bs t2 old c rs_new /\ turns w1 w2 t1 t2 v old c).
Proof.
  intros w1 w2 R p hp lev n t1 t2 v name old R1 R2 NW EV BR HP ST SH N NF. destruct (evolve_kept w1 w2 R false p hp lev n t1 t2 v name old R1 R2 NW EV BR HP ST SH N NF) as (d & tab & size & A & B).
  exists d, tab, size. split; [exact A|]. intros Z. destruct (B Z) as (bs & c & B1 & _ & B3 & B4). eauto.
Qed.
Print Assumptions C88_tree.
(** Directly from the input: full statement as above.  It is false if the last members of a class below the root have been
    removed and one of them has parts, see [C88_removed_refuted]; [evolution _ _ _ true] excludes that. *)
Theorem C88_direct_partial : forall w1 w2 R p hp lev n t1 t2 v name old, regular w1 -> regular w2 -> constructs w2 -> evolution w1 w2 R true -> becomes_root w1 w2 R t1 t2 ->
  S_ObjStore.heap_ok w1 hp lev (carried (w_fp w1) p) -> storable w1 hp lev (carried (w_fp w1) p) n t1 v -> shape w2 t2 old -> name_fits p name -> names_fit w1 p hp v ->
  exists d tab size, (forall F, (size <= F)%nat -> stored_doc F w1 hp t1 v name [] = Ok (d, tab)) /\
  (size_fits p d -> exists bs c, stores_as w1 hp p name t1 v bs /\ restores_as w2 p bs t2 old c rs_new /\ turns w1 w2 t1 t2 v old c).
Proof.
  intros w1 w2 R p hp lev n t1 t2 v name old R1 R2 NW EV BR HP ST SH N NF. destruct (evolve_kept w1 w2 R true p hp lev n t1 t2 v name old R1 R2 NW EV BR HP ST SH N NF) as (d & tab & size & A & B).
  exists d, tab, size. split; [exact A|]. intros Z. destruct (B Z) as (bs & c & B1 & B2 & B3 & B4). exists bs, c. auto.
Qed.
Print Assumptions C88_direct_partial.
(** A new member that is not optional: the object cannot be restored. *)
Theorem C88_required : forall w1 w2 p hp lev n c1 c2 v name g, regular w1 -> S_ObjStore.heap_ok w1 hp lev (carried (w_fp w1) p) -> storable w1 hp lev (carried (w_fp w1) p) n (CCls c1) v ->
  name_fits p name -> names_fit w1 p hp v -> w_fp w2 = w_fp w1 -> named_class (w_cls w2 c2) -> In g (w_cls w2 c2) -> f_opt g = false -> ~ In (f_name g) (names (w_cls w1 c1)) ->
  exists d tab size, (forall F, (size <= F)%nat -> stored_doc F w1 hp (CCls c1) v name [] = Ok (d, tab)) /\
  (size_fits p d -> exists bs k nd, stores_as w1 hp p name (CCls c1) v bs /\ loads_as (w_fp w2) p bs k nd /\ forall F old r, unwrap_prog F w2 (CCls c2) old nd rs_new <> ERet r).
Proof. exact required_missing. Qed.
Print Assumptions C88_required.

(** * Two versions of a program.
    Old: a place with a number, a tag and a path; a record with an id, a place, more places, a note and words.
    New: the path first, its numbers and the place's are wider, the tag is gone, there may be a note; of the record, the id is
    wider, the order is another one, note and words are gone, there may be flags. *)
Definition cls_old (c : nat) : list field :=
  match c with
  | 0 => [mkField ($"x") false (CNum TI32); mkField ($"tag") false (CStr EUTF8); mkField ($"path") false (CSeq (CNum TI8))]
  | 1 => [mkField ($"id") false (CNum TUI8); mkField ($"at") false (CCls 0); mkField ($"more") false (CSeq (CCls 0)); mkField ($"note") false (CStr EUTF8); mkField ($"words") false (CSeq (CStr EUTF8))]
  | _ => []
  end%nat.
Definition cls_new (c : nat) : list field :=
  match c with
  | 0 => [mkField ($"path") true (CSeq (CNum TI16)); mkField ($"note") true (CStr EUTF8); mkField ($"x") false (CNum TI64)]
  | 1 => [mkField ($"more") false (CSeq (CCls 0)); mkField ($"id") false (CNum TUI16); mkField ($"flags") true (CNum TI32); mkField ($"at") false (CCls 0)]
  | _ => []
  end%nat.
Definition made_old (c : nat) : cv :=
  match c with 0 => VList [VNum 0; VStr []; VList []] | 1 => VList [VNum 0; VList [VNum 0; VStr []; VList []]; VList []; VStr []; VList []] | _ => VList [] end%nat.
Definition made_new (c : nat) : cv :=
  match c with 0 => VList [VList []; VStr ($"-"); VNum 0] | 1 => VList [VList []; VNum 0; VNum 77; VList [VList []; VStr ($"-"); VNum 0]] | _ => VList [] end%nat.
Fixpoint made (f : nat -> cv) (t : ct) : cv :=
  match t with
  | CCls c | CTup c => f c
  | CArr n e => VList (repeat (made f e) n)
  | CPair a b => VList [made f a; made f b]
  | _ => ex_new t
  end.
Definition prog_old : world := mkWorld ex_fp cls_old (fun _ => $"") (fun _ _ => Ok None) (made made_old) ex_lt.
Definition prog_new : world := mkWorld ex_fp cls_new (fun _ => $"") (fun _ _ => Ok None) (made made_new) ex_lt.
Definition between (w1 w2 : world) (p : parser) (t1 t2 : ct) (v : cv) (old : cv) : res cv :=
  let* (_, bs, _) := store_object ex_fp 400 w1 [] p (heap_init no_mem) ($"o") t1 v in
  let* (r, _) := run_block (restore_object ex_fp 400 w2 p t2 old) (mkBlk [] bs) in Ok (fst (snd r)).
Definition between_tree (w1 w2 : world) (p : parser) (t1 t2 : ct) (v : cv) (old : cv) : res cv :=
  let* (_, bs, _) := store_object ex_fp 400 w1 [] p (heap_init no_mem) ($"o") t1 v in
  let* (r, _) := run_block (load_tree ex_fp 400 p) (mkBlk [] bs) in
  match erun (unwrap_prog 400 w2 t2 old (snd (snd r)) rs_new) [] with Some (Ok (x, _)) => Ok (fst x) | Some Err => Err | Some (UB u) => UB u | _ => Fuel end.
Definition rec_old : cv :=
  VList [VNum 200; VList [VNum (-9); VStr ($"t"); VList [VNum 1; VNum (-2)]]; VList [VList [VNum 5; VStr []; VList []]; VList [VNum 6; VStr ($"u"); VList [VNum 7]]]; VStr ($"gone"); VList [VStr ($"a"); VStr ($"b")]].
Definition rec_new : cv :=
  VList [VList [VList [VList []; VStr ($"-"); VNum 5]; VList [VList [VNum 7]; VStr ($"-"); VNum 6]]; VNum 200; VNum 42; VList [VList [VNum 1; VNum (-2)]; VStr ($"kept"); VNum (-9)]].
(** the object that is restored into; what is new keeps its values *)
Definition rec_before : cv := VList [VList []; VNum 1; VNum 42; VList [VList [VNum 3]; VStr ($"kept"); VNum 8]].

Definition same_class (a b : nat) : Prop := a = b /\ (a < 2)%nat.
Ltac listed := repeat (first [left; reflexivity | right]).
Ltac absent := let H := fresh in intros H; cbn [names map In f_name] in H; repeat (destruct H as [H|H]; [discriminate H|]); exact H.
Ltac class_named := split; [repeat (apply Forall_cons; [vm_compute; reflexivity|]); apply Forall_nil|
  cbn [map f_name]; repeat (apply NoDup_cons; [absent|]); apply NoDup_nil].
Lemma old_regular : regular prog_old.
Proof. split; [|intros u id c H; discriminate H]. intros c. left. destruct c as [|[|c]]; cbn [w_cls prog_old cls_old]; class_named. Qed.
Lemma new_regular : regular prog_new.
Proof. split; [|intros u id c H; discriminate H]. intros c. left. destruct c as [|[|c]]; cbn [w_cls prog_new cls_new]; class_named. Qed.
Ltac shaped_new :=
  repeat lazymatch goal with
  | |- shape _ (CCls _) _ => apply sh_cls; cbn [w_cls prog_new cls_new]
  | |- shape _ (CTup _) _ => apply sh_tup; cbn [w_cls prog_new cls_new]
  | |- shape _ _ _ => apply sh_any; exact I
  | |- Forall2 _ _ _ => constructor; cbn [f_type]
  end.
Lemma new_constructs : constructs prog_new.
Proof.
  intros t. induction t; try (apply sh_any; exact I); cbn [w_new prog_new made].
  - apply sh_chars.
  - destruct c as [|[|c]]; cbn [made_new]; shaped_new.
  - apply sh_arr; [apply repeat_length|]. apply Forall_forall. intros x Hx. apply repeat_spec in Hx. now subst.
  - now apply sh_pair.
  - destruct c as [|[|c]]; cbn [made_new]; shaped_new.
Qed.
Lemma versions : evolution prog_old prog_new same_class true.
Proof.
  split; [|split; reflexivity]. intros c1 c2 [<- L]. assert (W : forall a b, integer a -> integer b -> int_min b <= int_min a -> int_max a <= int_max b -> becomes prog_old prog_new same_class (CNum a) (CNum b)) by (intros; now apply bc_int).
  destruct c1 as [|[|c]]; [| |lia]; (split; [split; [cbn [w_cls prog_old cls_old]; class_named|split; [cbn [w_cls prog_new cls_new]; class_named|]]|]).
  - intros g I. cbn [w_cls prog_new cls_new In] in I. cbn [w_cls prog_old cls_old]. repeat destruct I as [<-|I]; [| | |destruct I].
    + left. exists (mkField ($"path") false (CSeq (CNum TI8))). split; [right; right; left; reflexivity|]. split; [reflexivity|]. apply bc_seq, W; cbn; auto; lia.
    + right. split; [reflexivity|absent].
    + left. exists (mkField ($"x") false (CNum TI32)). split; [left; reflexivity|]. split; [reflexivity|]. apply W; cbn; auto; lia.
  - intros _. left. exists (mkField ($"note") true (CStr EUTF8)). split; [right; left; reflexivity|cbn [w_cls prog_old cls_old]; absent].
  - intros g I. cbn [w_cls prog_new cls_new In] in I. cbn [w_cls prog_old cls_old]. repeat destruct I as [<-|I]; [| | | |destruct I].
    + left. exists (mkField ($"more") false (CSeq (CCls 0))). split; [right; right; left; reflexivity|]. split; [reflexivity|]. apply bc_seq, bc_cls. split; [reflexivity|lia].
    + left. exists (mkField ($"id") false (CNum TUI8)). split; [left; reflexivity|]. split; [reflexivity|]. apply W; cbn; auto; lia.
    + right. split; [reflexivity|absent].
    + left. exists (mkField ($"at") false (CCls 0)). split; [right; left; reflexivity|]. split; [reflexivity|]. apply bc_cls. split; [reflexivity|lia].
  - intros _. left. exists (mkField ($"flags") true (CNum TI32)). split; [right; right; left; reflexivity|cbn [w_cls prog_old cls_old]; absent].
Qed.
Example C88_ex : regular prog_old /\ regular prog_new /\ constructs prog_new /\ evolution prog_old prog_new same_class true /\ becomes_root prog_old prog_new same_class (CCls 1) (CCls 1) /\
  between prog_old prog_new (PsrlP psrl_init) (CCls 1) (CCls 1) rec_old rec_before = Ok rec_new /\
  between prog_old prog_new (MsgpP msgp_init) (CCls 1) (CCls 1) rec_old rec_before = Ok rec_new /\
  between prog_old prog_new json_p (CCls 1) (CCls 1) rec_old rec_before = Ok rec_new /\
  between_tree prog_old prog_new json_p (CCls 1) (CCls 1) rec_old rec_before = Ok rec_new /\
  (** back: the new member words of the old program is not optional *)
  between prog_new prog_old (MsgpP msgp_init) (CCls 1) (CCls 1) rec_new (made_old 1) = Err.
Proof.
  split; [exact old_regular|]. split; [exact new_regular|]. split; [exact new_constructs|]. split; [exact versions|]. split; [left; apply bc_cls; split; [reflexivity|lia]|].
  repeat (split; [vm_compute; reflexivity|]). vm_compute. reflexivity.
Qed.

(** A class below the root whose last member, a list, has been removed: not directly. *)
Definition cls_less (c : nat) : list field :=
  match c with
  | 0 => [mkField ($"x") false (CNum TI32); mkField ($"tag") false (CStr EUTF8)]
  | 1 => [mkField ($"at") false (CCls 0); mkField ($"note") false (CStr EUTF8)]
  | _ => []
  end%nat.
Definition made_less (c : nat) : cv := match c with 0 => VList [VNum 0; VStr []] | 1 => VList [VList [VNum 0; VStr []]; VStr []] | _ => VList [] end%nat.
Definition prog_less : world := mkWorld ex_fp cls_less (fun _ => $"") (fun _ _ => Ok None) (made made_less) ex_lt.
Lemma versions_less : evolution prog_old prog_less same_class false.
Proof.
  split; [|split; reflexivity]. intros c1 c2 [<- L].
  destruct c1 as [|[|c]]; [| |lia]; (split; [split; [cbn [w_cls prog_old cls_old]; class_named|split; [cbn [w_cls prog_less cls_less]; class_named|]]|discriminate]).
  - intros g I. cbn [w_cls prog_less cls_less In] in I. cbn [w_cls prog_old cls_old]. left. exists g. repeat destruct I as [<-|I]; [| |destruct I]; (split; [listed|]; split; [reflexivity|apply bc_leaf; exact Logic.I]).
  - intros g I. cbn [w_cls prog_less cls_less In] in I. cbn [w_cls prog_old cls_old]. left. exists g. repeat destruct I as [<-|I]; [| |destruct I]; (split; [listed|]; split; [reflexivity|]).
    + apply bc_cls. split; [reflexivity|lia].
    + apply bc_leaf. exact Logic.I.
Qed.
Theorem C88_removed_refuted : exists w1 w2 v c, evolution w1 w2 same_class false /\ becomes_root w1 w2 same_class (CCls 1) (CCls 1) /\
  between_tree w1 w2 (MsgpP msgp_init) (CCls 1) (CCls 1) v (made_less 1) = Ok c /\ between w1 w2 (MsgpP msgp_init) (CCls 1) (CCls 1) v (made_less 1) = Err.
Proof.
  exists prog_old, prog_less, rec_old, (VList [VList [VNum (-9); VStr ($"t")]; VStr ($"gone")]). split; [exact versions_less|]. split; [left; apply bc_cls; split; [reflexivity|lia]|].
  split; vm_compute; reflexivity.
Qed.
Print Assumptions C88_removed_refuted.
