(** C95: objects behind plain pointers are deleted when the pointers are restored. *)
From Coq Require Import ZArith List Bool.
From Verif Require Import Base M_Types M_Conv M_TpTools M_In S_Doc M_Env M_Event M_Tree M_TreeIO M_PSrl M_MsgPack M_Json M_Object M_ObjIO M_Fail S_Fail M_Delete S_Delete P_Delete Properties_Object Properties_Fail.
Import ListNotations.
Open Scope Z_scope.

(** * C95.  [restore_deletes], [paste_deletes]: the outcome of Tree::restore and of Node::paste and the ways to the pointers that were
    deleted, in order.  The outcome is that of C73. *)
Theorem C95_outcome : forall I (run : forall A, prog A -> I -> res (A * I)) x F w q t o v i, whole o = Some v -> formed w t v ->
  fst (restore_deletes run x F w q t v i) = fst (restore_over run x F w q t o i).
Proof. exact @restore_same. Qed.
Theorem C95_tree_outcome : forall F w t o v n s, whole o = Some v -> formed w t v -> fst (paste_deletes F w t v n s) = fst (paste_over F w t o n s).
Proof. exact paste_same. Qed.

(** whatever the input, the source and the outcome: only pointers of the object itself are deleted, none of them twice, in order *)
Theorem C95_once : forall I (run : forall A, prog A -> I -> res (A * I)) x F w q t old i,
  selection (snd (restore_deletes run x F w q t old i)) (own_pointers w t old) /\ NoDup (snd (restore_deletes run x F w q t old i)).
Proof. intros I run x F w q t old i. destruct (once_from _ _ _ _ (restore_deleted w run x F q t old i)) as (A & B & _). auto. Qed.
Theorem C95_tree_once : forall F w t old n s, selection (snd (paste_deletes F w t old n s)) (own_pointers w t old) /\ NoDup (snd (paste_deletes F w t old n s)).
Proof. intros F w t old n s. destruct (once_from _ _ _ _ (paste_deleted w F t old n s)) as (A & B & _). auto. Qed.
(** after a success each of them was deleted or is still there *)
Theorem C95_none_lost : forall I (run : forall A, prog A -> I -> res (A * I)) x F w q t old i v s, fst (restore_deletes run x F w q t old i) = Ok (v, s) ->
  forall p, In p (own_pointers w t old) -> In p (snd (restore_deletes run x F w q t old i)) \/ part_at p v = part_at p old.
Proof. intros I run x F w q t old i v s E. destruct (once_from _ _ _ _ (restore_deleted w run x F q t old i)) as (_ & _ & C). now apply (C v s). Qed.
Theorem C95_tree_none_lost : forall F w t old n s0 v s, fst (paste_deletes F w t old n s0) = Ok (v, s) ->
  forall p, In p (own_pointers w t old) -> In p (snd (paste_deletes F w t old n s0)) \/ part_at p v = part_at p old.
Proof. intros F w t old n s0 v s E. destruct (once_from _ _ _ _ (paste_deleted w F t old n s0)) as (_ & _ & C). now apply (C v s). Qed.
(** without optional members: exactly all of them.  So an object two of these pointers refer to is deleted twice *)
Theorem C95_all : forall I (run : forall A, prog A -> I -> res (A * I)) x F w q t old i v s, complete_classes w -> fst (restore_deletes run x F w q t old i) = Ok (v, s) ->
  snd (restore_deletes run x F w q t old i) = own_pointers w t old.
Proof. intros I run x F w q t old i v s CC E. destruct (once_from _ _ _ _ (restore_deleted w run x F q t old i)) as (_ & _ & C). now apply (C v s). Qed.
Theorem C95_tree_all : forall F w t old n s0 v s, complete_classes w -> fst (paste_deletes F w t old n s0) = Ok (v, s) -> snd (paste_deletes F w t old n s0) = own_pointers w t old.
Proof. intros F w t old n s0 v s CC E. destruct (once_from _ _ _ _ (paste_deleted w F t old n s0)) as (_ & _ & C). now apply (C v s). Qed.

(** Full statement: an object the restored object refers to by a plain pointer beforehand is deleted or still referred to
    afterwards.  Not true of containers: their elements are dropped without being deleted *)
Definition container (t : ct) : Prop := match t with CSeq _ | CSet _ | CMap _ _ | CTab _ | CUniq _ | CShared _ | CWeak _ => True | _ => False end.
Theorem C95_containers : forall I (run : forall A, prog A -> I -> res (A * I)) x F w q t old i, container t -> snd (restore_deletes run x F w q t old i) = [].
Proof.
  intros I run x F w q t old i C. pose proof (C95_once I run x F w q t old i) as [H _]. apply sel_of_nil. destruct t; try destruct C; destruct old; exact H.
Qed.
Theorem C95_tree_containers : forall F w t old n s, container t -> snd (paste_deletes F w t old n s) = [].
Proof. intros F w t old n s C. pose proof (C95_tree_once F w t old n s) as [H _]. apply sel_of_nil. destruct t; try destruct C; destruct old; exact H. Qed.
Definition dl_run (bs : bytes) (w : world) (t : ct) (old : cv) : res cv * list path :=
  let (r, d) := restore_deletes (@run_block) ex_fp 400 w json_p t old (mkBlk [] bs) in (let* x := r in Ok (fst x), d).
Theorem C95_leak_refuted : exists bs a b, dl_run bs fl_world (CSeq (CPtr (CCls 0))) (VList [VSome a]) = (Ok (VList [VSome b]), []) /\ b <> a.
Proof. exists (js ($"[{'x':7,'tag':'new'}]")), (pt 1 ($"old")), (pt 7 ($"new")). split; [vm_compute; reflexivity|discriminate]. Qed.
Print Assumptions C95_outcome.
Print Assumptions C95_tree_outcome.
Print Assumptions C95_once.
Print Assumptions C95_tree_once.
Print Assumptions C95_none_lost.
Print Assumptions C95_tree_none_lost.
Print Assumptions C95_all.
Print Assumptions C95_tree_all.
Print Assumptions C95_containers.
Print Assumptions C95_tree_containers.
Print Assumptions C95_leak_refuted.

(** class 1: two pointers, the second one optional; class 2: an array of three pointers to numbers, a pair with a pointer and a
    vector of pointers *)
Definition dl_cls (c : nat) : list field :=
  match c with
  | 0%nat => pt_fields
  | 1%nat => [mkField ($"a") false (CPtr (CCls 0)); mkField ($"b") true (CPtr (CCls 0))]
  | 2%nat => [mkField ($"r") false (CArr 3 (CPtr (CNum TI32))); mkField ($"q") false (CPair (CNum TI32) (CPtr (CCls 0))); mkField ($"v") false (CSeq (CPtr (CNum TI32)))]
  | _ => [mkField ($"a") false (CPtr (CCls 0)); mkField ($"b") false (CPtr (CCls 0))]
  end.
Definition dl_world : world := mkWorld ex_fp dl_cls (fun _ => []) (fun _ _ => Ok None) fl_new ex_lt.
Definition dl_two : cv := VList [VSome (pt 1 ($"a")); VSome (pt 2 ($"b"))].
Definition dl_all : cv := VList [VList [VSome (VNum 1); VNone; VSome (VNum 3)]; VList [VNum 4; VSome (pt 5 ($"p"))]; VList [VSome (VNum 6); VSome (VNum 7)]].
Example C95_ex : own_pointers dl_world (CCls 2) dl_all = [[0; 0]; [0; 2]; [1; 1]]%nat /\
  (* the optional member is there, is missing; the first member cannot be read: it was deleted before *)
  dl_run (js ($"{'a':{'x':3,'tag':'c'},'b':{'x':4,'tag':'d'}}")) dl_world (CCls 1) dl_two = (Ok (VList [VSome (pt 3 ($"c")); VSome (pt 4 ($"d"))]), [[0]; [1]]%nat) /\
  dl_run (js ($"{'a':{'x':3,'tag':'c'}}")) dl_world (CCls 1) dl_two = (Ok (VList [VSome (pt 3 ($"c")); VSome (pt 2 ($"b"))]), [[0]]%nat) /\
  dl_run (js ($"{'a':{'x':3},'b':{'x':4,'tag':'d'}}")) dl_world (CCls 1) dl_two = (Err, [[0]]%nat) /\
  dl_run (js ($"{'a':3}")) dl_world (CCls 3) dl_two = (Err, []) /\
  dl_run (js ($"{'r':[10,11,12],'q':{'first':13,'second':{'x':14,'tag':'n'}},'v':[15]}")) dl_world (CCls 2) dl_all =
    (Ok (VList [VList [VSome (VNum 10); VSome (VNum 11); VSome (VNum 12)]; VList [VNum 13; VSome (pt 14 ($"n"))]; VList [VSome (VNum 15)]]), [[0; 0]; [0; 2]; [1; 1]]%nat) /\
  dl_run (js ($"{'r':[10,11,12],'q':{'first':13}}")) dl_world (CCls 2) dl_all = (Err, [[0; 0]; [0; 2]]%nat).
Proof. split; [vm_compute; reflexivity|]. split; [vm_compute; reflexivity|]. split; [vm_compute; reflexivity|]. split; [vm_compute; reflexivity|]. split; [vm_compute; reflexivity|]. split; vm_compute; reflexivity. Qed.
Definition dl_strict : world := mkWorld ex_fp (fun c => match c with 0%nat => pt_fields | _ => dl_cls 3 end) (fun _ => []) (fun _ _ => Ok None) fl_new ex_lt.
Example C95_all_ex : complete_classes dl_strict /\ ~ complete_classes dl_world.
Proof.
  split.
  - intros [|c] f I; cbn in I; destruct I as [<-|[<-|[]]]; reflexivity.
  - intros H. specialize (H 1%nat (mkField ($"b") true (CPtr (CCls 0)))). cbn in H. discriminate H. now right; left.
Qed.
