(** Property C63: restoring objects from an input that nobody vouches for. *)
From Coq Require Import ZArith List Bool Lia ZifyBool ZifyNat.
From Verif Require Import Base Lemmas M_Types M_Conv M_Charset M_In S_Doc M_Event M_PSrl M_MsgPack M_Json M_Tree M_TreeIO M_Object M_ObjIO S_ObjIO S_ObjSafe
  P_TreeSafe P_ObjUntrusted Properties_Object.
Import ListNotations.
Open Scope Z_scope.

(** * C63: the full statement would be that Tree::restore returns or throws whatever the bytes are.  What is shown: every
    undefined behaviour comes from the parser ([load_ub], see C19, C20) or is one of the mishaps listed in [S_ObjSafe.mishap],
    caused by the items read so far.  Missing for the full statement: these causes, see the refutations below. *)
Theorem C63_restore_partial : forall w t old F q src u, well_made w t old -> parser_ok q -> wf_bytes src -> (length src < F)%nat ->
  run_block (restore_object (w_fp w) F w q t old) (set_block src) = UB u ->
  load_ub q src u \/
  (exists n q' es b, run_block (parse_items (w_fp w) F q n) (set_block src) = Ok ((q', es), b) /\ mishap w t (map snd es) u).
Proof. exact restore_untrusted. Qed.
Theorem C63_restore_stream_partial : forall w t old F q src u, well_made w t old -> parser_ok q -> wf_bytes src ->
  run_stream (restore_object (w_fp w) F w q t old) (set_stream src) = UB u ->
  (exists n, run_stream (parse_items (w_fp w) F q n) (set_stream src) = UB u) \/
  (exists n q' es b, run_stream (parse_items (w_fp w) F q n) (set_stream src) = Ok ((q', es), b) /\ mishap w t (map snd es) u).
Proof. exact restore_untrusted_stream. Qed.
(** an object is taken out of a tree that was loaded or built *)
Theorem C63_unwrap_partial : forall w t old F n u, well_made w t old -> Forall wf_value (values_of n) ->
  unwrap_prog F w t old n rs_new = EUndef u -> mishap w t (values_of n) u.
Proof. exact unwrap_tree. Qed.
(** MessagePack, and a type without integers, strings, shared and polymorphic parts: nothing is undefined *)
Theorem C63_harmless : forall w t old F st src u, well_made w t old -> harmless w t -> wf_bytes src ->
  run_block (restore_object (w_fp w) F w (MsgpP st) t old) (set_block src) <> UB u /\
  run_stream (restore_object (w_fp w) F w (MsgpP st) t old) (set_stream src) <> UB u.
Proof. exact restore_harmless. Qed.
Print Assumptions C63_restore_partial.
Print Assumptions C63_restore_stream_partial.
Print Assumptions C63_unwrap_partial.
Print Assumptions C63_harmless.

(** a class with members of many kinds *)
Definition sf_cls (c : nat) : list field :=
  match c with
  | 0 => [mkField ($"f") false (CNum TFP64); mkField ($"b") false (CNum TBool); mkField ($"l") true (CSeq (CNum TFP32)); mkField ($"p") true (CPtr (CCls 0))]
  | 1 => [mkField ($"d") false (CNum TFP64)]
  | _ => []
  end%nat.
Definition sf_new_cls (c : nat) : cv :=
  match c with 0 => VList [VNum 0; VNum 0; VList []; VNone] | 1 => VList [VNum 0] | _ => VList [] end%nat.
Definition sf_new (t : ct) : cv := match t with CCls c => sf_new_cls c | _ => ex_new t end.
Definition sf_world : world :=
  mkWorld ex_fp sf_cls (fun c => $"s") (fun _ s => Ok (if bytes_eqb (fst s) ($"s") then Some 1%nat else None)) sf_new ex_lt.
Ltac parts :=
  repeat match goal with
  | H : part _ (CNum _) _ |- _ => inversion H; subst; clear H
  | H : part _ (CStr _) _ |- _ => inversion H; subst; clear H
  | H : part _ CBits _ |- _ => inversion H; subst; clear H
  | H : part _ (CChars _ _) _ |- _ => inversion H; subst; clear H
  | H : part _ (CSeq _) _ |- _ => inversion H; subst; clear H
  | H : part _ (CPair _ _) _ |- _ => inversion H; subst; clear H
  | H : part _ (CShared _) _ |- _ => inversion H; subst; clear H
  | H : part _ (CCls 1) _ |- _ => inversion H; subst; clear H
  | H : part _ (CPoly _) _ |- _ => inversion H; subst; clear H
  | H : In _ (w_cls sf_world _) |- _ => cbn [w_cls sf_world sf_cls In] in H
  | H : _ \/ _ |- _ => destruct H
  | H : False |- _ => destruct H
  | H : mkField _ _ _ = _ |- _ => subst; cbn [f_type] in *
  | H : w_reg sf_world _ ?id = Ok (Some ?c) |- _ =>
      cbn [w_reg sf_world] in H; destruct (bytes_eqb (fst id) ($"s")); [injection H as <-|discriminate H]
  end.
Ltac sz := cbn [w_new sf_world sf_new sf_new_cls ex_new unit_size]; repeat first
  [ apply sz_any; exact I | apply sz_chars; [lia|reflexivity] | apply sz_cls; cbn [w_cls sf_world sf_cls] | apply sz_pair | apply sz_arr | constructor ].
Ltac made :=
  split; [discriminate|]; split; [intros d; exact (Forall_nil _)|]; split; [intros p P; parts; cbn; tauto|]; split; [sz|]; split; [intros p P; parts; sz|intros id c P Q; parts; sz].

(** the example: 1.5, true, [0.5], and the object once more *)
Lemma sf_parts p : part sf_world (CCls 0) p ->
  In p [CCls 0; CNum TFP64; CNum TBool; CSeq (CNum TFP32); CNum TFP32; CPtr (CCls 0)]%nat.
Proof.
  assert (X : forall t p, part sf_world t p -> In t [CCls 0; CNum TFP64; CNum TBool; CSeq (CNum TFP32); CNum TFP32; CPtr (CCls 0)]%nat ->
    In p [CCls 0; CNum TFP64; CNum TBool; CSeq (CNum TFP32); CNum TFP32; CPtr (CCls 0)]%nat).
  { induction 1; intros T; try exact T; try apply IHpart; cbn [In] in T; repeat (destruct T as [T|T]; [try discriminate T|]); try contradiction.
    - injection T as <-. cbn [w_cls sf_world sf_cls In] in H. repeat (destruct H as [<-|H]; [cbn; tauto|]). destruct H.
    - injection T as <-. cbn. tauto.
    - injection T as <-. cbn. tauto. }
  intros P. eapply X; [exact P|]. now left.
Qed.
Definition sf_bytes : bytes := [132; 161; 102; 203; 63; 248; 0; 0; 0; 0; 0; 0; 161; 98; 195; 161; 108; 145; 202; 63; 0; 0; 0;
  161; 112; 130; 161; 102; 202; 127; 128; 0; 0; 161; 98; 0].
Example C63_harmless_ex : well_made sf_world (CCls 0) (sf_new (CCls 0)) /\ harmless sf_world (CCls 0) /\
  outcome (let* (r, _) := run_block (restore_object ex_fp 100 sf_world (MsgpP msgp_init) (CCls 0) (sf_new (CCls 0))) (set_block sf_bytes) in Ok r) =
  Ok (VList [VNum 4609434218613702656; VNum 1; VList [VNum 1056964608]; VSome (VList [VNum 9218868437227405312; VNum 0; VList []; VNone])], rs_new) /\
  run_block (restore_object ex_fp 100 sf_world (MsgpP msgp_init) (CCls 0) (sf_new (CCls 0))) (set_block (firstn 20 sf_bytes)) = Err.
Proof.
  split; [|split; [|vm_compute; split; reflexivity]].
  - split; [discriminate|]. split; [intros d; exact (Forall_nil _)|]. split; [intros p P; apply sf_parts in P; cbn in P; intuition (try discriminate); match goal with H : CNum _ = CNum _ |- _ => injection H as <- end; cbn; tauto|].
    split; [sz|]. split.
    + intros p P. apply sf_parts in P. cbn [In] in P. repeat (destruct P as [<-|P]; [sz|]). destruct P.
    + intros b id c P. apply sf_parts in P. cbn [In] in P. intuition discriminate.
  - intros p P. apply sf_parts in P. cbn [In] in P. repeat (destruct P as [<-|P]; [cbn; tauto|]). destruct P.
Qed.

Definition undone (w : world) (t : ct) (old : cv) (src : bytes) (u : ub) : Prop :=
  well_made w t old /\ wf_bytes src /\ forall st, exists F, run_block (restore_object (w_fp w) F w (MsgpP st) t old) (set_block src) = UB u.
Ltac undo := split; [made|]; split; [apply wf_bytesb_spec; reflexivity|]; intros st; exists 30%nat; vm_compute; reflexivity.
(** NaN into an integer: the cast is undefined (TpTools.h:146-160) *)
Theorem C63_nan_refuted : exists w t old src, undone w t old src UbCast.
Proof. exists sf_world, (CSeq (CNum TI32)), (VList []), [145; 203; 127; 248; 0; 0; 0; 0; 0; 0]. undo. Qed.
(** 2^63 as a double into an int64_t *)
Theorem C63_two63_refuted : exists w t old src, undone w t old src UbCast.
Proof. exists sf_world, (CSeq (CNum TI64)), (VList []), [145; 203; 67; 224; 0; 0; 0; 0; 0; 0]. undo. Qed.
(** INT64_MIN into a string: it is negated (ToolsStrConv.cpp:102) *)
Theorem C63_min_refuted : exists w t old src, undone w t old src UbSigned.
Proof. exists sf_world, (CSeq (CStr EUTF8)), (VList []), [145; 211; 128; 0; 0; 0; 0; 0; 0; 0]. undo. Qed.
(** a byte beyond ASCII where base64 is expected: the lookup table is left *)
Theorem C63_base64_refuted : exists w t old src, undone w t old src UbOob.
Proof. exists sf_world, (CSeq CBits), (VList []), [145; 164; 65; 65; 65; 200]. undo. Qed.
(** three euro signs into a char16_t[4]: the terminator is written where the UTF-8 text would end (Resolve.hpp:210) *)
Theorem C63_chars_refuted : exists w t old src, undone w t old src UbOob.
Proof. exists sf_world, (CSeq (CChars EUTF16 4)), (VList []), [145; 169; 226; 130; 172; 226; 130; 172; 226; 130; 172]. undo. Qed.
(** one key for shared objects of two types: the cast is not checked (Resolve.hpp:797) *)
Theorem C63_shared_refuted : exists w t old src, undone w t old src UbCast.
Proof.
  exists sf_world, (CPair (CShared (CNum TFP64)) (CShared (CSeq (CNum TFP64)))), (VList [VNone; VNone]),
    ([130; 165] ++ $"first" ++ [130; 174] ++ $"srl_shared_key" ++ [1; 176] ++ $"srl_shared_value" ++ [1] ++
     [166] ++ $"second" ++ [129; 174] ++ $"srl_shared_key" ++ [1]). undo.
Qed.
Print Assumptions C63_nan_refuted.
Print Assumptions C63_two63_refuted.
Print Assumptions C63_min_refuted.
Print Assumptions C63_base64_refuted.
Print Assumptions C63_chars_refuted.
Print Assumptions C63_shared_refuted.
