(** Property C85: trees and objects from a stream and from memory. *)
From Coq Require Import ZArith List Bool Lia ZifyBool ZifyNat.
From Verif Require Import Base Lemmas M_Types M_Conv M_Charset M_In S_Doc M_Event M_PSrl M_MsgPack M_Json M_Tree M_TreeIO M_Object M_ObjIO M_Insert M_Pack S_ObjIO S_JsonStream S_Stream
  P_JsonStream P_StreamOnly P_StreamSame Properties_Charset Properties_PSrl Properties_Json Properties_Object.
Import ListNotations.
Open Scope Z_scope.

(** the result of a reading without the state of the input *)
Definition yields {R S} (r : res (R * S)) (v : R) : Prop := exists s, r = Ok (v, s).

(** * What a stream yields, memory yields: for all bytes, parsers, types and requests *)
Theorem C85_stream_only : forall x F q src,
  (forall v, yields (run_stream (load_tree x F q) (set_stream src)) v -> yields (run_block (load_tree x F q) (set_block src)) v) /\
  (forall w t old v, yields (run_stream (restore_object x F w q t old) (set_stream src)) v -> yields (run_block (restore_object x F w q t old) (set_block src)) v) /\
  (forall w ask v, yields (run_stream (unpack_object x F w q ask) (set_stream src)) v -> yields (run_block (unpack_object x F w q ask) (set_block src)) v).
Proof.
  intros x F q src. split; [|split].
  - intros v [s E]. exact (stream_only_memory x F q (load_prog F) src v s E).
  - intros w t old v [s E]. exact (stream_only_memory x F q (restore_prog F w t old) src v s E).
  - intros w ask v [s E]. exact (stream_only_memory x F q (unpack_prog F w ask) src v s E).
Qed.
Print Assumptions C85_stream_only.

(** * The converse.  Full statement: the theorem below without [streamable].  False for PSrl and JSON: *)
Theorem C85_memory_psrl_refuted : exists F src, 
  is_ok (run_block (load_tree ex_fp F (PsrlP psrl_init)) (set_block src)) = true /\ run_stream (load_tree ex_fp F (PsrlP psrl_init)) (set_stream src) = UB UbOob.
Proof. exists 100%nat, (psrl_bytes (DScope [] TObject [DVal (repeat 97 1100) (val_int TI32 5)])). vm_compute. auto. Qed.
Theorem C85_memory_json_refuted : exists F src, 
  is_ok (run_block (load_tree ex_fp F json_p) (set_block src)) = true /\ run_stream (load_tree ex_fp F json_p) (set_stream src) = UB UbOob.
Proof. exists 4000%nat, ($"[1" ++ repeat 10 3000 ++ $"]"). vm_compute. auto. Qed.
(** Missing: PSrl items with names of 1024 bytes or more, JSON numbers with 1000 bytes or more up to their end. *)
Theorem C85_memory_then_stream_partial : forall x F q src, streamable x F q src ->
  (forall v, yields (run_block (load_tree x F q) (set_block src)) v -> yields (run_stream (load_tree x F q) (set_stream src)) v) /\
  (forall w t old v, yields (run_block (restore_object x F w q t old) (set_block src)) v -> yields (run_stream (restore_object x F w q t old) (set_stream src)) v) /\
  (forall w ask v, yields (run_block (unpack_object x F w q ask) (set_block src)) v -> yields (run_stream (unpack_object x F w q ask) (set_stream src)) v).
Proof.
  intros x F q src H. split; [|split].
  - intros v [s E]. exact (memory_then_stream x F q (load_prog F) src v s H E).
  - intros w t old v [s E]. exact (memory_then_stream x F q (restore_prog F w t old) src v s H E).
  - intros w ask v [s E]. exact (memory_then_stream x F q (unpack_prog F w ask) src v s H E).
Qed.
Print Assumptions C85_memory_psrl_refuted.
Print Assumptions C85_memory_json_refuted.
Print Assumptions C85_memory_then_stream_partial.

(** an object read from JSON with a comment and 1500 line breaks, from a stream: the buffer is filled twice on the way *)
Definition st_text : bytes := js ($"{ /* x, tag */ 'y':true,") ++ repeat 10 1500 ++ js ($"'tag':'a b' , 'x':-7, 'l':[] }").
Example C85_ex : streamable ex_fp 3000 json_p st_text /\
  (let r := run_stream (restore_object ex_fp 3000 ex_world json_p (CCls 0) (ex_new (CCls 0))) (set_stream st_text) in
   let m := run_block (restore_object ex_fp 3000 ex_world json_p (CCls 0) (ex_new (CCls 0))) (set_block st_text) in
   match r, m with Ok (_, (v, _), _), Ok (_, (v', _), _) => Some (v, v') | _, _ => None end) =
  Some (pt (-7) ($"a b"), pt (-7) ($"a b")).
Proof. split; [apply short_check_spec; vm_compute; reflexivity|vm_compute; reflexivity]. Qed.
(** both fail: the document is cut *)
Example C85_ex_cut : is_ok (run_block (load_tree ex_fp 3000 json_p) (set_block (firstn 1510 st_text))) = false /\
  is_ok (run_stream (load_tree ex_fp 3000 json_p) (set_stream (firstn 1510 st_text))) = false.
Proof. vm_compute. auto. Qed.
