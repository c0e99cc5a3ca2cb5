(** Results about Tools::conv_charset (C27). *)
From Coq Require Import ZArith List Bool Lia.
From Verif Require Import Base M_Types S_Charset M_Charset P_Charset.
Import ListNotations.
Open Scope Z_scope.

(** C27, start index 0: every text in UTF-8, UTF-16 or UTF-32 is converted to exactly its encoding in the target
    charset, which is put at the front of the buffer, whatever the buffer held before. *)
Theorem C27_convert_text : forall to from cs buf throw,
  to <> EUnknown -> from <> EUnknown -> Forall scalar cs ->
  exists buf', conv_charset to from (text from cs) buf throw 0 = Ok (zlen (text to cs), buf')
            /\ firstn (length (text to cs)) buf' = text to cs.
Proof. exact convert_text. Qed.
Print Assumptions C27_convert_text.
(** U+41, U+E9, U+20AC, U+10348 from UTF-16 to UTF-8, into an empty buffer: the buffer must grow in between *)
Example C27_example : match conv_charset EUTF8 EUTF16 (text EUTF16 [65; 233; 8364; 8364; 8364; 8364; 66376]) [] true 0 with
  | Ok (n, b) => n = 19 /\ firstn 19 b = [65; 195; 169; 226; 130; 172; 226; 130; 172; 226; 130; 172; 226; 130; 172; 240; 144; 141; 136]
  | _ => False end.
Proof. vm_compute. split; reflexivity. Qed.

(** The variant that returns a vector returns the converted text and nothing else. *)
Theorem C27_convert_vector : forall to from cs throw,
  to <> EUnknown -> from <> EUnknown -> Forall scalar cs ->
  conv_charset_vec to from (text from cs) throw = Ok (text to cs).
Proof. exact convert_vec. Qed.
Print Assumptions C27_convert_vector.
Example C27_example_vector : conv_charset_vec EUTF16 EUTF8 [240; 144; 141; 136; 65] true = Ok [0; 216; 72; 223; 65; 0].
Proof. vm_compute. reflexivity. Qed.

(** Data that is no text of the source charset is rejected (or 0 is returned, if no exception is wanted). *)
Theorem C27_rejects : forall to from data buf (throw : bool),
  to <> EUnknown -> from <> EUnknown -> to <> from -> wf_bytes data ->
  (forall cs, Forall scalar cs -> data <> text from cs) ->
  if throw then conv_charset to from data buf throw 0 = Err
  else exists buf', conv_charset to from data buf throw 0 = Ok (0, buf').
Proof. exact convert_rejects. Qed.
Print Assumptions C27_rejects.
(** a surrogate in UTF-8, an overlong form, a cut sequence *)
Example C27_example_rejects :
  conv_charset EUTF16 EUTF8 [65; 237; 160; 128] [] true 0 = Err /\ conv_charset EUTF16 EUTF8 [192; 175] [] true 0 = Err
  /\ conv_charset EUTF32 EUTF8 [226; 130] [] true 0 = Err.
Proof. vm_compute. repeat split. Qed.

(** At start index 0 there is no undefined behaviour, for any data, any pair of charsets and any buffer. *)
Theorem C27_never_undefined : forall to from data buf throw u,
  wf_bytes data -> conv_charset to from data buf throw 0 <> UB u.
Proof. exact convert_never_ub. Qed.
Print Assumptions C27_never_undefined.

(** C27 in full is false: at a start index above 0 the loop counts the index twice when it has to make room, and
    writes behind the end of the buffer; at smaller indexes the text goes to the wrong place. *)
Theorem C27_index_refuted :
  exists to from cs buf idx, to <> EUnknown /\ from <> EUnknown /\ Forall scalar cs /\ 0 <= idx <= zlen buf
    /\ conv_charset to from (text from cs) buf true idx = UB UbHeap.
Proof.
  exists EUTF8, EUTF16, [16961], (repeat 120 9), 9. repeat split; try discriminate.
  constructor; [left; lia|constructor].
Qed.
Print Assumptions C27_index_refuted.
Theorem C27_index_misplaced_refuted :
  exists to from cs buf idx n buf', to <> EUnknown /\ from <> EUnknown /\ Forall scalar cs /\ 0 <= idx <= zlen buf
    /\ conv_charset to from (text from cs) buf true idx = Ok (n, buf')
    /\ firstn (Z.to_nat idx + length (text to cs)) buf' <> firstn (Z.to_nat idx) buf ++ text to cs.
Proof.
  exists EUTF8, EUTF16, [16961], (repeat 120 3), 3. eexists _, _. repeat split; try discriminate.
  constructor; [left; lia|constructor].
Qed.
Print Assumptions C27_index_misplaced_refuted.

(** What holds at every index: if the free part of the buffer is big enough, or the converted text is not longer than
    the source, or the target charset is the wider one, the text is written at the index and what lies before stays.
    Missing for the full property: narrowing conversions that outgrow the buffer, for which it is false. *)
Theorem C27_index_partial : forall to from cs buf throw idx,
  to <> EUnknown -> from <> EUnknown -> to <> from -> cs <> [] -> Forall scalar cs -> 0 <= idx -> idx <= zlen buf ->
  (zlen (text to cs) <= zlen buf - idx \/ zlen (text to cs) <= zlen (text from cs)
   \/ enc_num from < enc_num to /\ from <> EUTF16 \/ from = EUTF16 /\ to = EUTF32) ->
  exists buf', conv_charset to from (text from cs) buf throw idx = Ok (zlen (text to cs), buf')
     /\ zlen buf <= zlen buf'
     /\ firstn (Z.to_nat idx + length (text to cs)) buf' = firstn (Z.to_nat idx) buf ++ text to cs.
Proof. exact convert_at. Qed.
Print Assumptions C27_index_partial.
Example C27_example_index : match conv_charset EUTF8 EUTF16 (text EUTF16 [233]) [1; 2; 3] true 3 with
  | Ok (n, b) => n = 2 /\ firstn 5 b = [1; 2; 3; 195; 169] | _ => False end.
Proof. vm_compute. split; reflexivity. Qed.
