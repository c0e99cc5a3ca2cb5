(** Properties C14-C16, C53 and the MessagePack part of C17-C21, C31. *)
From Coq Require Import ZArith List Bool Lia ZifyBool ZifyNat.
From Verif Require Import Base Lemmas M_Types M_Conv M_In S_Doc M_OutOps S_Out M_Event S_MsgPack M_MsgPack P_In P_Reads P_Doc P_MsgPackSafe P_MsgPackMain Properties_PSrl.
Import ListNotations.
Open Scope Z_scope.

Definition msgp_bytes (d : doc) : bytes :=
  match write_events msgp_write msgp_init (events d) with Ok (_, ops) => spec_out ops | _ => [] end.

(** * C14 round trip *)
Theorem C14_msgpack_roundtrip : forall d, wf_doc d -> small_scopes d ->
  exists w' ops, write_events msgp_write msgp_init (events d) = Ok (w', ops) /\ valid_ops [] ops /\
  exists r' d', mdoc_of d' = denote false d /\
    forall before rest, run_block (read_events msgp_read (length (events d)) msgp_init) (mkBlk before (spec_out ops ++ rest)) =
      Ok ((r', events d'), mkBlk (rev (spec_out ops) ++ before) rest).
Proof. exact msgp_roundtrip. Qed.
Print Assumptions C14_msgpack_roundtrip.
Example C14_ex : length (msgp_bytes ex_doc) = 73%nat /\
  shown (run_block (read_events msgp_read 13 msgp_init) (set_block (msgp_bytes ex_doc ++ [7]))) =
  Some ([([], MeObj); ($"id", MeInt (-5)); ($"name", MeStr ($"x/y")); ($"list", MeArr); ([], MeInt (2 ^ 64 - 1)); ([], MeObj);
     ($"id", MeFloat 4614253070214989087); ([], MeEnd); ([], MeEnd); ($"name", MeBool true); ($"bin", MeBin [0; 255; 128]); ($"id", MeNull);
     ([], MeEnd)], [7]).
Proof. split; vm_compute; reflexivity. Qed.
Example C14_ex_hyp : wf_doc ex_doc /\ small_scopes ex_doc /\ short_doc ex_doc.
Proof. split; [apply ex_doc_wf|]. split; vm_compute; repeat split; reflexivity. Qed.

(** * C15 the output is MessagePack.  Full statement: the theorem below without [short_doc].  False: *)
Theorem C15_msgpack_conforms_refuted : exists d w' ops, wf_doc d /\ small_scopes d /\
  write_events msgp_write msgp_init (events d) = Ok (w', ops) /\ ~ mp_doc true (denote false d) (spec_out ops).
Proof. exact msgp_wide_refuted. Qed.
(** Missing: strings, names and binary data of 255 bytes or more (16 and 32 bit lengths are written in the wrong byte order). *)
Theorem C15_msgpack_conforms_partial : forall d, wf_doc d -> small_scopes d -> short_doc d ->
  exists w' ops, write_events msgp_write msgp_init (events d) = Ok (w', ops) /\ mp_doc true (denote false d) (spec_out ops).
Proof. exact msgp_conforms. Qed.
Print Assumptions C15_msgpack_conforms_refuted.
Print Assumptions C15_msgpack_conforms_partial.
Example C15_ex : msgp_bytes (DScope [] TObject [DVal ($"a") (val_int TI16 (-300)); DVal ($"b") (val_int TUI32 127); DVal ($"c") (val_string ($"hi") EUTF8)]) =
  [223; 0; 0; 0; 3;  161; 97; 209; 254; 212;  161; 98; 127;  161; 99; 162; 104; 105].
Proof. vm_compute. reflexivity. Qed.

(** * C16 reserved prefixes.  Full statement: [forall p, In p [193; 199; ...] -> ... = Err].  False for 0xC1: *)
Theorem C16_msgpack_reserved_refuted : exists r b, run_block (msgp_read msgp_init) (set_block [193]) = Ok (r, b) /\ meaning_of (snd (snd r)) = MeInt (-31).
Proof. eexists _, _. split; reflexivity. Qed.
(** Missing: 0xC1. *)
Theorem C16_msgpack_reserved_partial : forall st p before rest, no_name st -> In p [199; 200; 201; 212; 213; 214; 215; 216] ->
  run_block (msgp_read st) (mkBlk before (p :: rest)) = Err.
Proof. exact msgp_rejects. Qed.
Print Assumptions C16_msgpack_reserved_refuted.
Print Assumptions C16_msgpack_reserved_partial.
Example C16_ex : run_block (read_events msgp_read 2 msgp_init) (set_block [145; 199; 1; 5; 0]) = Err /\
  shown (run_block (read_events msgp_read 2 msgp_init) (set_block [145; 198; 1; 0; 0; 0; 9])) = Some ([([], MeArr); ([], MeBin [9])], []).
Proof. split; vm_compute; reflexivity. Qed.

(** * C17 truncated documents throw *)
Theorem C17_msgpack_truncated : forall d w' ops, wf_doc d -> small_scopes d -> write_events msgp_write msgp_init (events d) = Ok (w', ops) ->
  forall pre x, spec_out ops = pre ++ x -> x <> [] ->
  run_block (read_events msgp_read (length (events d)) msgp_init) (set_block pre) = Err.
Proof. exact msgp_truncated. Qed.
Print Assumptions C17_msgpack_truncated.
Example C17_msgpack_ex : run_block (read_events msgp_read 13 msgp_init) (set_block (firstn 72 (msgp_bytes ex_doc))) = Err /\
  run_block (read_events msgp_read 13 msgp_init) (set_block []) = Err.
Proof. vm_compute. auto. Qed.

(** * C18 self-delimiting *)
Theorem C18_msgpack_concat : forall d1 d2, wf_doc d1 -> wf_doc d2 -> small_scopes d1 -> small_scopes d2 ->
  exists w1 o1 w2 o2 d1' d2' s1 s2 b1 b2,
    write_events msgp_write msgp_init (events d1) = Ok (w1, o1) /\ write_events msgp_write msgp_init (events d2) = Ok (w2, o2) /\
    run_block (read_events msgp_read (length (events d1)) msgp_init) (set_block (spec_out o1 ++ spec_out o2)) = Ok ((s1, events d1'), b1) /\
    run_block (read_events msgp_read (length (events d2)) (msgp_clear s1)) b1 = Ok ((s2, events d2'), b2) /\
    mdoc_of d1' = denote false d1 /\ mdoc_of d2' = denote false d2 /\ b_rest b2 = [].
Proof. exact msgp_concat. Qed.
Print Assumptions C18_msgpack_concat.
Example C18_msgpack_ex : let b := msgp_bytes (DScope [] TArray [DVal [] (val_int TI8 3)]) ++ msgp_bytes (DVal [] (val_int TI16 300)) in
  b = [221; 0; 0; 0; 1; 3; 209; 1; 44] /\
  shown (run_block (read_events msgp_read 3 msgp_init) (set_block b)) = Some ([([], MeArr); ([], MeInt 3); ([], MeEnd)], [209; 1; 44]).
Proof. vm_compute. auto. Qed.

(** * C19 the number of values and scopes read is bounded by twice the size of the input, whatever the bytes are *)
Theorem C19_msgpack_bounded : forall n src r b, wf_bytes src -> run_block (read_events msgp_read n msgp_init) (set_block src) = Ok (r, b) ->
  (n <= 2 * length src)%nat.
Proof. intros n src r b W E. pose proof (msgp_bounded n msgp_init src r b W E). cbn in *. lia. Qed.
Print Assumptions C19_msgpack_bounded.
(** a document with 2^32 - 1 announced items in 5 bytes *)
Example C19_msgpack_ex : run_block (read_events msgp_read 3 msgp_init) (set_block [221; 255; 255; 255; 255]) = Err /\
  shown (run_block (read_events msgp_read 4 msgp_init) (set_block [145; 144])) = Some ([([], MeArr); ([], MeArr); ([], MeEnd); ([], MeEnd)], []).
Proof. split; vm_compute; reflexivity. Qed.

(** * C20 no undefined behaviour on any bytes: a result or an exception *)
Theorem C20_msgpack_inside : forall n st src, wf_bytes src ->
  run_block (read_events msgp_read n st) (set_block src) = Err \/
  exists r b, run_block (read_events msgp_read n st) (set_block src) = Ok (r, b).
Proof. exact msgp_any_outcome. Qed.
Print Assumptions C20_msgpack_inside.
Example C20_msgpack_ex : run_block (msgp_read msgp_init) (set_block [219; 255; 255; 255; 255; 1]) = Err.
Proof. reflexivity. Qed.

(** * C21 announced sizes *)
Theorem C21_msgpack_size : forall st k w n before rest, no_name st ->
  In (k, w) [(217, 1); (218, 2); (219, 4); (196, 1); (197, 2); (198, 4)] -> zlen rest < n < 256 ^ w ->
  run_block (msgp_read st) (mkBlk before (k :: le (Z.to_nat w) n ++ rest)) = Err.
Proof. exact msgp_size_checked. Qed.
Print Assumptions C21_msgpack_size.
Example C21_msgpack_ex : run_block (msgp_read msgp_init) (set_block [218; 4; 0; 1; 2; 3]) = Err /\
  run_block (msgp_read msgp_init) (set_block [218; 3; 0; 1; 2; 3]) = Ok ((msgp_init, ([], val_block_enc [1; 2; 3] TString EUTF8)), mkBlk [3; 2; 1; 0; 3; 218] []).
Proof. vm_compute. auto. Qed.

(** * C31 stream source: for all bytes the same tree or error *)
Theorem C31_msgpack_stream : forall n st src, wf_bytes src ->
  match run_block (read_events msgp_read n st) (set_block src) with
  | Ok (r, _) => exists s, run_stream (read_events msgp_read n st) (set_stream src) = Ok (r, s)
  | Err => run_stream (read_events msgp_read n st) (set_stream src) = Err
  | UB _ | Fuel => False
  end.
Proof. exact msgp_stream_same. Qed.
Print Assumptions C31_msgpack_stream.
Example C31_msgpack_ex :
  match run_stream (read_events msgp_read 13 msgp_init) (set_stream (msgp_bytes ex_doc ++ [7])) with
  | Ok (_, es, _) => nth_error es 2 | _ => None end = Some ($"name", val_string ($"x/y") EUTF8).
Proof. vm_compute. reflexivity. Qed.

(** * C53 every MessagePack document is read.  Full statement: the theorem below for [mp_doc true].  False: *)
Theorem C53_msgpack_reads_spec_refuted : exists s b, mp_value true (MeStr s) b /\ run_block (msgp_read msgp_init) (set_block b) = Err.
Proof. exists [97], [218; 0; 1; 97]. split; [|reflexivity]. apply MPstr. change [218; 0; 1; 97] with (218 :: be 2 (zlen [97]) ++ [97]). now constructor. Qed.
(** Missing: strings and binary data with 16 or 32 bit lengths. *)
Theorem C53_msgpack_reads_spec_partial : forall m b, mp_doc false m b -> mname m = [] ->
  exists d', mdoc_of d' = m /\ forall before rest,
    run_block (read_events msgp_read (length (events d')) msgp_init) (mkBlk before (b ++ rest)) =
    Ok ((msgp_init, events d'), mkBlk (rev b ++ before) rest).
Proof. exact msgp_reads_spec. Qed.
Print Assumptions C53_msgpack_reads_spec_refuted.
Print Assumptions C53_msgpack_reads_spec_partial.
Example C53_ex : (* {"a": [-32, 3.5f, nil]} with the short container forms *)
  shown (run_block (read_events msgp_read 7 msgp_init) (set_block [129; 161; 97; 147; 224; 202; 64; 96; 0; 0; 192])) =
  Some ([([], MeObj); ($"a", MeArr); ([], MeInt (-32)); ([], MeFloat 4615063718147915776); ([], MeNull); ([], MeEnd); ([], MeEnd)], []).
Proof. vm_compute. reflexivity. Qed.
