(** C31 for JSON from anywhere, not only what PJson writes. *)
From Coq Require Import ZArith List Bool Lia ZifyBool ZifyNat.
From Verif Require Import Base Lemmas M_Types M_Conv M_Charset M_In S_Conv S_Doc S_Json M_OutOps M_Event M_Env M_Json S_JsonStream P_JsonStream Properties_Charset Properties_Json Properties_Object.
Import ListNotations.
Open Scope Z_scope.

(** Full statement: stream and memory agree on all bytes; false, see [C31_json_stream_refuted].
    Proved: any bytes that load from memory load from a stream with the same result, if every number or constant is followed by
    a comma, a space or a closing bracket within 1000 bytes.
    The converse holds for all bytes: [C85_stream_only]. *)
Theorem C31_json_stream_any_partial : forall x fuel n st src r b, short_literals src ->
  run_block (read_events (json_read x fuel) n st) (set_block src) = Ok (r, b) ->
  exists s, run_stream (read_events (json_read x fuel) n st) (set_stream src) = Ok (r, s).
Proof. exact json_stream_eq_block. Qed.
Print Assumptions C31_json_stream_any_partial.

(** comments, escapes, line breaks, a string of 1200 bytes in 120 words and 1100 line breaks where no number is near; the reader
    crosses the border of its buffer of 1024 bytes twice *)
Definition ex_text : bytes :=
  js ($"/* first */ [ 1, // two ") ++ [10] ++ repeat 10 1100 ++ js ($" {'aé':'") ++ concat (repeat ($"some/word ") 120) ++ js ($"\n'} , true ]").
Example C31_ex_any : short_literals ex_text /\
  (let m := run_block (read_events (json_read ex_fp 3000) 6 (json_init true)) (set_block ex_text) in
   let t := run_stream (read_events (json_read ex_fp 3000) 6 (json_init true)) (set_stream ex_text) in
   match m, t with
   | Ok (_, es, _), Ok (_, es', _) =>
       forallb (fun '(n1, v1, (n2, v2)) => bytes_eqb n1 n2 && bytes_eqb (v_data v1) (v_data v2)) (combine es es') && (length es =? 6)%nat &&
       match nth_error es 3 with Some (n, v) => bytes_eqb n [97; 195; 169] && (zlen (v_data v) =? 1201) | None => false end
   | _, _ => false
   end) = true.
Proof. split; [apply short_check_spec; vm_compute; reflexivity|vm_compute; reflexivity]. Qed.
