(** Properties C29, C30, C49: saving to memory, to a stream, and the allocator. *)
From Coq Require Import ZArith List Bool Lia ZifyBool ZifyNat.
From Verif Require Import Base Lemmas M_Types M_Conv M_In S_Doc M_OutOps S_Out M_Event M_MsgPack M_PSrl M_Heap S_Heap M_Out S_OutJobs P_Doc P_Heap P_Out P_MsgPackMain P_PSrlMain Properties_PSrl Properties_MsgPack.
Import ListNotations.
Open Scope Z_scope.

(** * C49 allocator.  For every sequence of operations of a client *)
Theorem C49_heap_disjoint : forall m ops, Forall op_ok ops ->
  let (h, live) := client_run ops (heap_init m, []) in
  disjoint_blocks live /\ Forall (placed_block (h_blocks h)) live.
Proof.
  intros m ops F. pose proof (client_run_inv ops (heap_init m, []) (heap_init_inv m) F) as I.
  destruct (client_run ops (heap_init m, [])) as [h live]. split; [exact (cinv_disjoint _ _ I)|apply I].
Qed.
(** contents change only by the client's own stores *)
Theorem C49_heap_contents : forall m ops op x b o, Forall op_ok ops -> op_ok op ->
  let (h, live) := client_run ops (heap_init m, []) in
  let (h', live') := client_step (h, live) op in
  In x live -> In x live' -> holds x b o ->
  (forall k bs y, op = HStore k bs -> nth_error live k = Some y -> ~ holds y b o) ->
  (forall k, op = HPut k -> nth_error live k <> Some x) -> op <> HClear ->
  h_mem h' b o = h_mem h b o.
Proof.
  intros m ops op x b o F F1. pose proof (client_run_inv ops (heap_init m, []) (heap_init_inv m) F) as I.
  destruct (client_run ops (heap_init m, [])) as [h live]. cbn [fst snd] in I.
  pose proof (client_step_contents h live op x b o I F1) as C.
  destruct (client_step (h, live) op) as [h' live']. intros. apply C; auto.
Qed.
Print Assumptions C49_heap_disjoint.
Print Assumptions C49_heap_contents.
Definition ex_heap_ops : list hop :=
  [HGet 401 1; HGet 60 1; HGet 8 8; HStore 1 [1; 2; 3]; HPut 0; HGet 300 4; HGet 64 16; HGet 5 4; HPut 2; HGet 2000 1; HGet 11 2].
Example C49_ex : let (h, live) := client_run ex_heap_ops (heap_init (fun _ _ => 0), []) in
  map (fun x => (hb_blk x, hb_off x, hb_size x)) live =
    [(0%nat, 401, 60); (0%nat, 464, 8); (0%nat, 304, 64); (0%nat, 368, 5); (1%nat, 0, 2000); (1%nat, 2000, 11)] /\
  h_blocks h = [512; 2048] /\ mget (h_mem h) 0 401 5 = [1; 2; 3; 0; 0].
Proof. vm_compute. auto. Qed.

(** * C29 saving to memory.  Full statement: the theorem below without the bound on the size.  False: *)
Theorem C29_memory_refuted : exists ops, valid_ops [] ops /\
  forall m, exists out h, save_buffer (heap_init m) ops = Ok (out, h) /\ out <> spec_out ops.
Proof.
  exists [OWrite (repeat 1 (Z.to_nat two32))]. split; [exact I|]. intro m.
  destruct (big_chunk_zeros m (repeat 1 (Z.to_nat two32))) as [h E].
  - unfold zlen. rewrite repeat_length, Z2Nat.id; [reflexivity|discriminate].
  - eexists _, h. split; [exact E|]. unfold spec_out. cbn [spec_run fold_left spec_op fst app]. rewrite repeat_length.
    assert (exists n, Z.to_nat two32 = S n) as [n ->] by (exists (Z.to_nat (two32 - 1)); unfold two32; lia).
    intro X. discriminate X.
Qed.
(** Missing: documents of 4 GiB or more.  Whatever was saved before with the same Out object. *)
Theorem C29_memory_partial : forall m earlier ops, Forall job_ok earlier -> valid_ops [] ops -> zlen (spec_out ops) < 2 ^ 32 ->
  exists h, run_jobs (heap_init m) (earlier ++ [ToMemory ops]) = Ok (map job_result earlier ++ [spec_out ops], h).
Proof.
  intros m earlier ops F V L. destruct (run_jobs_spec (earlier ++ [ToMemory ops]) (heap_init m) (heap_ok_init m)) as (h & E & _).
  - apply Forall_app. split; auto. constructor; auto. split; auto.
  - exists h. rewrite map_app in E. exact E.
Qed.
Print Assumptions C29_memory_refuted.
Print Assumptions C29_memory_partial.
Definition ex_ops : list oop :=
  [OWrite [1; 2; 3]; OReserve 4; OWrite (repeat 9 1500); OPatch 0 1 [7; 7]; OReserve 2; OWrite [5]; OPatch 1 0 [6; 6]; OPatch 0 3 [8]].
Definition result_of {A} (r : res (A * heap)) : option A := match r with Ok (x, _) => Some x | _ => None end.
Example C29_ex : result_of (run_jobs (heap_init (fun _ _ => 77)) [ToMemory ex_ops; ToStream [1] [OWrite (repeat 3 2000)]; ToMemory ex_ops]) =
  Some [[1; 2; 3; 0; 7; 7; 8] ++ repeat 9 1500 ++ [6; 6; 5]; 1 :: repeat 3 2000; [1; 2; 3; 0; 7; 7; 8] ++ repeat 9 1500 ++ [6; 6; 5]].
Proof. vm_compute. reflexivity. Qed.

(** * C30 saving to a stream.  Full statement: the theorem below without [place_ok].  False: a MessagePack document
    behind five other bytes; the element count written last lands five bytes too early. *)
Definition ex_stream_doc : doc := DScope [] TArray [DVal [] (val_string (repeat 97 1100) EUTF8)].
Theorem C30_stream_refuted : exists d w ops base h, wf_doc d /\ write_events msgp_write msgp_init (events d) = Ok (w, ops) /\
  result_of (save_stream h base ops) <> Some (base ++ spec_out ops).
Proof.
  exists ex_stream_doc. eexists _, _, [1; 2; 3; 4; 5], (heap_init (fun _ _ => 0)). 
  split; [apply (doc_check_spec (fun _ _ => true)); vm_compute; reflexivity|].
  split; [vm_compute; reflexivity|]. vm_compute. discriminate.
Qed.
(** Missing: a document with reserved places and more than 1024 bytes behind other data.  [place_ok]: the stream was empty,
    or nothing is reserved, or the document has at most 1024 bytes. *)
Theorem C30_stream_partial : forall m earlier base ops, Forall job_ok earlier -> valid_ops [] ops ->
  Forall (fun op => op_len op < 2 ^ 32) ops -> place_ok base ops (zlen (spec_out ops)) ->
  exists h, run_jobs (heap_init m) (earlier ++ [ToStream base ops]) = Ok (map job_result earlier ++ [base ++ spec_out ops], h).
Proof.
  intros m earlier base ops F V L P. destruct (run_jobs_spec (earlier ++ [ToStream base ops]) (heap_init m) (heap_ok_init m)) as (h & E & _).
  - apply Forall_app. split; auto. constructor; auto. split; auto.
  - exists h. rewrite map_app in E. exact E.
Qed.
Print Assumptions C30_stream_refuted.
Print Assumptions C30_stream_partial.
Example C30_ex : result_of (save_stream (heap_init (fun _ _ => 77)) [] ex_ops) = Some (spec_out ex_ops) /\
  result_of (save_stream (heap_init (fun _ _ => 77)) [4; 4] [OWrite (repeat 1 1020); OWrite (repeat 2 20); OWrite [3]]) =
    Some ([4; 4] ++ repeat 1 1020 ++ repeat 2 20 ++ [3]) /\
  result_of (save_stream (heap_init (fun _ _ => 77)) [4; 4] [OReserve 2; OWrite [7; 8]; OPatch 0 0 [5; 6]]) = Some [4; 4; 5; 6; 7; 8].
Proof. vm_compute. auto. Qed.
