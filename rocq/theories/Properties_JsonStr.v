(** Property C66: JSON strings that nobody vouches for. *)
From Coq Require Import ZArith List Bool Lia.
From Verif Require Import Base Lemmas M_Types M_Conv M_Charset M_In M_Json S_JsonQuoted P_JsonUnesc.
Import ListNotations.
Open Scope Z_scope.

(** * C66 whatever follows an opening quote: the text up to the first quote that is not escaped; known escapes stand for their
    character, backslashes before other characters for themselves.  [Unicode]: see C25, C20. *)
Theorem C66_json_string : forall t s r buf fuel before, unquote t = Text s r -> (length t < fuel)%nat ->
  exists t1 buf', t = t1 ++ r /\ run_block (read_unescape fuel buf) (mkBlk before t) = Ok ((s, buf'), mkBlk (rev t1 ++ before) r) /\
    exists str, run_stream (read_unescape fuel buf) (set_stream t) = Ok ((s, buf'), str).
Proof. exact string_read. Qed.
(** without such a quote, the byte behind the end is read *)
Theorem C66_json_no_quote : forall t buf fuel before, unquote t = NoEnd -> (length t < fuel)%nat ->
  run_block (read_unescape fuel buf) (mkBlk before t) = UB UbEnd.
Proof. exact no_end. Qed.
Print Assumptions C66_json_string.
Print Assumptions C66_json_no_quote.
Example C66_ex : unquote ($"a\x\'\""\\\/" ++ [10] ++ $"\z"",1]") = Text ($"a\x'""\/" ++ [10] ++ $"\z") ($""",1]") /\
  unquote ($"abc\""") = NoEnd /\ unquote ($"abc\") = NoEnd /\ unquote ($"a" ++ 92 :: $"u0041""") = Unicode /\
  match run_block (read_unescape 30 []) (set_block ($"a\x\'\""\\\/" ++ [10] ++ $"\z"",1]")) with
  | Ok (s, _, b) => s = $"a\x'""\/" ++ [10] ++ $"\z" /\ b_rest b = $""",1]" | _ => False end.
Proof. vm_compute. repeat split. Qed.
