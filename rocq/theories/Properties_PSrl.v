(** Properties C11-C13 and the Srl-format part of C17-C21, C31. *)
From Coq Require Import ZArith List Bool Lia ZifyBool ZifyNat.
From Verif Require Import Base Lemmas M_Types M_Conv M_In S_Doc M_OutOps S_Out M_Event S_PSrl M_PSrl P_In P_Reads P_Doc P_PSrl P_PSrlDoc P_PSrlSafe P_PSrlLayout P_PSrlMain.
Import ListNotations.
Open Scope Z_scope.

(** * C11 variable length integers *)
Theorem C11_varint_roundtrip : forall n, 0 <= n < 2 ^ 64 ->
  encode_integer n = Ok (varint n) /\ (1 <= length (varint n) <= 10)%nat /\
  forall d rest, run_block decode_integer (mkBlk d (varint n ++ rest)) = Ok (n, mkBlk (rev (varint n) ++ d) rest).
Proof. exact varint_roundtrip. Qed.
Print Assumptions C11_varint_roundtrip.
Example C11_ex : varint (2 ^ 64 - 1) = [255; 255; 255; 255; 255; 255; 255; 255; 255; 1] /\ varint 300 = [172; 2] /\
  run_block decode_integer (mkBlk [] [172; 2; 172]) = Ok (300, mkBlk [2; 172] [172]).
Proof. vm_compute. auto. Qed.

(** the documents used in the examples *)
Definition ex_doc : doc :=
  DScope [] TObject
    [DVal ($"id") (val_int TI32 (-5)); DVal ($"name") (val_string ($"x/y") EUTF8);
     DScope ($"list") TArray [DVal ($"ignored") (val_int TUI64 (2 ^ 64 - 1)); DScope [] TObject [DVal ($"id") (val_f64 4614253070214989087)]];
     DVal ($"name") (val_bool true); DVal ($"bin") (val_block [0; 255; 128] TBinary); DVal ($"id") (val_type TNull)].
Example ex_doc_wf : wf_doc ex_doc /\ all_vals (fun _ v => meaning_of v <> MeInt (- 2 ^ 63)) ex_doc.
Proof.
  assert (H : doc_check (fun _ v => not_int64_minb v) ex_doc = true) by (vm_compute; reflexivity).
  apply doc_check_spec in H. destruct H. split; [auto|]. eapply all_vals_impl; [|eassumption]. intros; now apply not_int64_minb_spec.
Qed.
Definition psrl_bytes (d : doc) : bytes :=
  match write_events psrl_write psrl_init (events d) with Ok (_, ops) => spec_out ops | _ => [] end.

(** * C12 round trip.  Full statement: the same without the hypothesis on INT64_MIN; false, see below.
    Missing: documents that contain INT64_MIN. *)
Theorem C12_psrl_roundtrip_partial : forall d, wf_doc d -> all_vals (fun _ v => meaning_of v <> MeInt (- 2 ^ 63)) d ->
  Z.of_nat (length (events d)) < 2 ^ 63 ->
  exists w' ops, write_events psrl_write psrl_init (events d) = Ok (w', ops) /\ valid_ops [] ops /\
  exists r' d', mdoc_of d' = denote false d /\
    forall before rest, run_block (read_events psrl_read (length (events d)) psrl_init) (mkBlk before (spec_out ops ++ rest)) =
      Ok ((r', events d'), mkBlk (rev (spec_out ops) ++ before) rest).
Proof. exact psrl_memory_roundtrip. Qed.
Print Assumptions C12_psrl_roundtrip_partial.
(** the hypothesis on INT64_MIN is needed *)
Theorem C12_psrl_int64_min_refuted : exists d, wf_doc d /\ write_events psrl_write psrl_init (events d) = UB UbSigned.
Proof.
  exists (DVal [] (val_int TI64 (- 2 ^ 63))). split; [|reflexivity].
  apply (doc_check_spec (fun _ _ => true)). vm_compute. reflexivity.
Qed.
Print Assumptions C12_psrl_int64_min_refuted.
Definition shown {S} (r : res (S * list event * blk)) : option (list (bytes * meaning) * bytes) :=
  match r with Ok (_, es, b) => Some (map (fun e => (fst e, meaning_of (snd e))) es, b_rest b) | _ => None end.
Example C12_ex : length (psrl_bytes ex_doc) = 60%nat /\
  shown (run_block (read_events psrl_read 13 psrl_init) (set_block (psrl_bytes ex_doc ++ [7]))) =
  Some ([([], MeObj); ($"id", MeInt (-5)); ($"name", MeStr ($"x/y")); ($"list", MeArr); ([], MeInt (2 ^ 64 - 1)); ([], MeObj);
     ($"id", MeFloat 4614253070214989087); ([], MeEnd); ([], MeEnd); ($"name", MeBool true); ($"bin", MeBin [0; 255; 128]); ($"id", MeNull);
     ([], MeEnd)], [7]).
Proof. split; vm_compute; reflexivity. Qed.

(** * C13 the text of each name is written once, later uses refer to it; the whole output is described by the
    independently written [layout] *)
Theorem C13_psrl_layout : forall d, wf_doc d -> all_vals (fun _ v => meaning_of v <> MeInt (- 2 ^ 63)) d ->
  Z.of_nat (length (events d)) < 2 ^ 63 ->
  exists w' ops, write_events psrl_write psrl_init (events d) = Ok (w', ops) /\ spec_out ops = layout [] [] (events d).
Proof. exact psrl_written_layout. Qed.
Print Assumptions C13_psrl_layout.
Example C13_ex : layout [] [] (events (DScope [] TObject [DVal ($"ab") (val_int TI8 1); DVal ($"c") (val_int TI8 2); DVal ($"ab") (val_int TI8 3)])) =
  [64; 3; 2; 97; 98; 1; 3; 1; 99; 2; 7; 0; 3; 0].
Proof. reflexivity. Qed.

(** * C17 truncated documents do not load *)
Theorem C17_psrl_truncated : forall d w' ops, wf_doc d -> all_vals (fun _ v => meaning_of v <> MeInt (- 2 ^ 63)) d ->
  Z.of_nat (length (events d)) < 2 ^ 63 ->
  write_events psrl_write psrl_init (events d) = Ok (w', ops) ->
  forall pre x, spec_out ops = pre ++ x -> x <> [] ->
  forall res, run_block (read_events psrl_read (length (events d)) psrl_init) (set_block pre) <> Ok res.
Proof. exact psrl_truncated. Qed.
Print Assumptions C17_psrl_truncated.
Example C17_psrl_ex : run_block (read_events psrl_read 13 psrl_init) (set_block (firstn 59 (psrl_bytes ex_doc))) = Err /\
  run_block (read_events psrl_read 13 psrl_init) (set_block (firstn 10 (psrl_bytes ex_doc))) = Err.
Proof. vm_compute. auto. Qed.

(** * C18 self-delimiting: two documents one after the other *)
Theorem C18_psrl_concat : forall d1 d2, wf_doc d1 -> wf_doc d2 ->
  all_vals (fun _ v => meaning_of v <> MeInt (- 2 ^ 63)) d1 -> all_vals (fun _ v => meaning_of v <> MeInt (- 2 ^ 63)) d2 ->
  Z.of_nat (length (events d1)) < 2 ^ 63 -> Z.of_nat (length (events d2)) < 2 ^ 63 ->
  exists w1 o1 w2 o2 d1' d2' s1 s2 b1 b2,
    write_events psrl_write psrl_init (events d1) = Ok (w1, o1) /\ write_events psrl_write psrl_init (events d2) = Ok (w2, o2) /\
    run_block (read_events psrl_read (length (events d1)) psrl_init) (set_block (spec_out o1 ++ spec_out o2)) = Ok ((s1, events d1'), b1) /\
    run_block (read_events psrl_read (length (events d2)) (psrl_clear s1)) b1 = Ok ((s2, events d2'), b2) /\
    mdoc_of d1' = denote false d1 /\ mdoc_of d2' = denote false d2 /\ b_rest b2 = [].
Proof. exact psrl_concat. Qed.
Print Assumptions C18_psrl_concat.
Example C18_psrl_ex : let b := psrl_bytes (DVal [] (val_int TI8 3)) ++ psrl_bytes (DVal [] (val_int TI16 300)) in
  b = [1; 3; 1; 172; 2] /\ run_block (psrl_read psrl_init) (set_block b) = Ok ((psrl_init, ([], val_int TUI64 3)), mkBlk [3; 1] [1; 172; 2]).
Proof. vm_compute. auto. Qed.

(** * C19 loading terminates: the loop bounds of the model are never exhausted, and every event consumes input *)
Theorem C19_psrl_total : forall n st b, run_block (read_events psrl_read n st) b <> Fuel.
Proof. exact psrl_total. Qed.
Theorem C19_psrl_progress : forall st b r b', run_block (psrl_read st) b = Ok (r, b') -> (length (b_rest b') < length (b_rest b))%nat.
Proof. exact psrl_progress. Qed.
Theorem C19_psrl_bounded : forall n st b r b', run_block (read_events psrl_read n st) b = Ok (r, b') ->
  (n + length (b_rest b') <= length (b_rest b))%nat.
Proof. exact psrl_bounded. Qed.
Print Assumptions C19_psrl_bounded.
Print Assumptions C19_psrl_total.
Print Assumptions C19_psrl_progress.
Example C19_psrl_ex : run_block (psrl_read psrl_init) (set_block [1; 255; 255; 255; 255; 255; 255; 255; 255; 255; 255; 1]) = UB UbShift /\
  run_block (psrl_read psrl_init) (set_block [2; 3]) = Err.
Proof. vm_compute. auto. Qed.

(** * C20 reading untrusted bytes.  Full statement: [forall n st b u, run_block (read_events psrl_read n st) b <> UB u].
    False: one byte after the input is read, *)
Theorem C20_psrl_inside_refuted : exists bs, run_block (psrl_read psrl_init) (set_block bs) = UB UbEnd.
Proof. exists [1]. reflexivity. Qed.
(** and an eleventh block of a number is shifted by 70 bits. *)
Theorem C20_psrl_shift_refuted : exists bs, run_block (psrl_read psrl_init) (set_block bs) = UB UbShift.
Proof. exists (1 :: repeat 255 12). reflexivity. Qed.
Theorem C20_psrl_negate_refuted : exists bs, run_block (psrl_read psrl_init) (set_block bs) = UB UbSigned.
Proof. exists [9; 128; 128; 128; 128; 128; 128; 128; 128; 128; 1]. reflexivity. Qed.
(** Missing in the partial result: the four kinds listed do occur. UbOob (any access other than the byte directly
    after the input) never does. *)
Theorem C20_psrl_inside_partial : forall n st b u, run_block (read_events psrl_read n st) b = UB u -> In u [UbEnd; UbShift; UbPtr; UbSigned].
Proof. exact psrl_undefined. Qed.
Print Assumptions C20_psrl_inside_refuted.
Print Assumptions C20_psrl_shift_refuted.
Print Assumptions C20_psrl_negate_refuted.
Print Assumptions C20_psrl_inside_partial.

(** * C21 announced sizes.  Full statement: for all [n] with [zlen rest < n < 2 ^ 64] the result is [Err].  False: *)
Theorem C21_psrl_size_refuted : exists n rest, zlen rest < n < 2 ^ 64 /\
  run_block (psrl_read psrl_init) (set_block (32 :: varint n ++ rest)) = UB UbPtr.
Proof. exists (2 ^ 64 - 1), [1; 2; 3]. split; [vm_compute; auto|reflexivity]. Qed.
(** Missing: sizes from 2^63 on. *)
Theorem C21_psrl_size_partial : forall st k n rest before, (k = 32 \/ k = 16) -> zlen rest < n < 2 ^ 63 ->
  run_block (psrl_read st) (mkBlk before (k :: varint n ++ rest)) = Err.
Proof. exact psrl_size_checked. Qed.
Print Assumptions C21_psrl_size_refuted.
Print Assumptions C21_psrl_size_partial.
Example C21_psrl_ex : run_block (psrl_read psrl_init) (set_block (32 :: varint 4 ++ [1; 2; 3])) = Err /\
  run_block (psrl_read psrl_init) (set_block (32 :: varint 3 ++ [1; 2; 3])) =
    Ok ((psrl_init, ([], val_block_enc [1; 2; 3] TString EUTF8)), mkBlk [3; 2; 1; 3; 32] []).
Proof. vm_compute. auto. Qed.

(** * C31 stream source.  Full statement: for all bytes the stream gives what memory gives.  False: *)
Theorem C31_psrl_stream_refuted : exists d, wf_doc d /\
  (exists r b, run_block (read_events psrl_read 3 psrl_init) (set_block (psrl_bytes d)) = Ok (r, b)) /\
  run_stream (read_events psrl_read 3 psrl_init) (set_stream (psrl_bytes d)) = UB UbOob.
Proof.
  exists (DScope [] TObject [DVal (repeat 97 1100) (val_int TI32 5)]). split.
  - apply (doc_check_spec (fun _ _ => true)). vm_compute. reflexivity.
  - split; [eexists _, _; vm_compute; reflexivity|vm_compute; reflexivity].
Qed.
(** Proved: any bytes that load from memory load from a stream with the same result, if no name has 1024 bytes or
    more.  Missing: long names (refuted), and which error is reported on malformed input. *)
Theorem C31_psrl_stream_partial : forall k st src r b,
  run_block (read_events psrl_read k st) (set_block src) = Ok (r, b) -> Forall (fun e => zlen (fst e) < 1024) (snd r) ->
  exists s, run_stream (read_events psrl_read k st) (set_stream src) = Ok (r, s).
Proof. exact psrl_stream_eq_block. Qed.
Theorem C31_psrl_stream_roundtrip_partial : forall d w' ops, wf_doc d -> all_vals (fun _ v => meaning_of v <> MeInt (- 2 ^ 63)) d ->
  Z.of_nat (length (events d)) < 2 ^ 63 -> Forall (fun e => zlen (fst e) < 1024) (events d) ->
  write_events psrl_write psrl_init (events d) = Ok (w', ops) ->
  exists r' d' s, mdoc_of d' = denote false d /\
    run_stream (read_events psrl_read (length (events d)) psrl_init) (set_stream (spec_out ops)) = Ok ((r', events d'), s).
Proof. exact psrl_stream. Qed.
Print Assumptions C31_psrl_stream_refuted.
Print Assumptions C31_psrl_stream_partial.
Print Assumptions C31_psrl_stream_roundtrip_partial.
Example C31_psrl_ex :
  match run_stream (read_events psrl_read 13 psrl_init) (set_stream (psrl_bytes ex_doc ++ [7])) with
  | Ok (_, es, _) => nth_error es 2 | _ => None end = Some ($"name", val_string ($"x/y") EUTF8).
Proof. vm_compute. reflexivity. Qed.
