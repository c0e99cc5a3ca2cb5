(** C86: members of type Srl::String. *)
From Coq Require Import ZArith List Bool Lia ZifyBool ZifyNat.
From Verif Require Import Base Lemmas M_Types M_Conv M_Charset M_In S_Doc M_Env M_Event M_PSrl M_MsgPack M_Json M_Tree M_TreeIO M_Object M_ObjIO M_Heap S_ObjIO M_StrRef S_StrRef P_StrRef Properties_Charset Properties_Object.
Import ListNotations.
Open Scope Z_scope.

(** Full statement: restoring an object with Srl::String members shows in each of them the text that a std::string member gets;
    false, see the refutations below.
    Proved here: with PSrl or PMsgPack and the source in memory, whatever the source is, each member says the text, at the end and
    as long as the source is there, whatever else is read from it - except that a text of at most 8 bytes that was met before it was
    asked for is gone.  If a member's item is a number there is an exception (a std::string gets the number's digits). *)
Theorem C86_memory_partial : forall x f w c ks olds q src q1 v s1 i1, is_json q = false -> wf_bytes src -> zlen src < 2 ^ 32 -> string_class w c ks ->
  run_input (restore_object x (S f) w q (CCls c) (VList olds)) (block_input src) = Ok ((q1, (v, s1)), i1) ->
  restore_strings x (S f) ks q (block_input src) = Err \/
  exists vs ss, v = VList vs /\ restore_strings x (S f) ks q (block_input src) = Ok (q1, i1, ss) /\
    memory_at src q1 i1 /\ forall qe ie, memory_at src qe ie -> Forall2 (says_or_gone qe ie) vs ss.
Proof. exact from_memory. Qed.
Print Assumptions C86_memory_partial.

(** Nothing is gone and nothing fails if the members are the first items of the scope, in their order. *)
Theorem C86_in_order : forall x f q src r t kvs more, is_json q = false -> wf_bytes src -> zlen src < 2 ^ 32 ->
  holds x (S (S f)) q (set_block src) (DScope r t (map (fun kv => DVal (fst kv) (snd kv)) kvs ++ more)) -> is_scope t = true ->
  Forall is_text kvs ->
  exists qe ie ss, restore_strings x (S (S f)) (map fst kvs) q (block_input src) = Ok (qe, ie, ss) /\
    Forall2 (fun kv s => unwrap qe ie s = unwrap_text EUTF8 (v_enc (snd kv)) (v_data (snd kv))) kvs ss.
Proof. exact ordered. Qed.
Print Assumptions C86_in_order.

(** With any format, from memory or from a stream, the last member says its text right after it was restored (with the same
    exception). *)
Theorem C86_last_partial : forall x f w c ks olds q src i q1 v s1 i1, source src i -> string_class w c ks -> ks <> [] ->
  run_input (restore_object x (S f) w q (CCls c) (VList olds)) i = Ok ((q1, (v, s1)), i1) ->
  restore_strings x (S f) ks q i = Err \/
  exists vs ss, v = VList vs /\ restore_strings x (S f) ks q i = Ok (q1, i1, ss) /\ length ss = length vs /\
    says_or_gone q1 i1 (last vs VNone) (last ss (mkSs PlGone 0 EUTF8)).
Proof. exact from_anywhere. Qed.
Print Assumptions C86_last_partial.

(** From a tree that was loaded all members say their texts, whatever happens to parser and source. *)
Theorem C86_tree : forall F w c ks olds n s v s1 q i, string_class w c ks -> unwrap_prog (S F) w (CCls c) (VList olds) n s = ERet (v, s1) ->
  strings_of_tree ks n = Err \/ exists vs ss, v = VList vs /\ strings_of_tree ks n = Ok ss /\ Forall2 (says q i) vs ss.
Proof. exact of_tree. Qed.
Print Assumptions C86_tree.

(** * Examples *)
Definition sr_world (ks : list bytes) : world :=
  mkWorld ex_fp (fun _ => map (fun k => mkField k false (CStr EUTF8)) ks) (fun _ => []) (fun _ _ => Ok None) (fun _ => VNone) (fun _ _ => false).
Definition sr_doc (kvs : list (bytes * bytes)) : cv := VList (map (fun kv => VStr (snd kv)) kvs).
Definition sr_bytes (p : parser) (kvs : list (bytes * bytes)) : bytes :=
  match store_object ex_fp 200 (sr_world (map fst kvs)) [] p (heap_init no_mem) ($"o") (CCls 0) (sr_doc kvs) with Ok (_, bs, _) => bs | _ => [] end.
(** what the members say after restoring *)
Definition sr_seen (q : parser) (ks : list bytes) (i : input) : res (list (res bytes)) :=
  let* (q1, i1, ss) := restore_strings ex_fp 4000 ks q i in Ok (map (unwrap q1 i1) ss).
(** what std::strings get *)
Definition sr_plain (q : parser) (ks : list bytes) (i : input) : res cv :=
  let* (r, _) := run_input (restore_object ex_fp 4000 (sr_world ks) q (CCls 0) (VList (map (fun _ => VStr []) ks))) i in Ok (fst (snd r)).
Definition sr_ab : list (bytes * bytes) := [($"a", $"abc"); ($"long name", $"a text of more than eight bytes"); ($"é", $"xyz")].

Example C86_ex_memory :
  sr_seen (PsrlP psrl_init) (map fst sr_ab) (block_input (sr_bytes (PsrlP psrl_init) sr_ab ++ $"rest")) = Ok (map (fun kv => Ok (snd kv)) sr_ab) /\
  sr_seen (MsgpP msgp_init) (map fst sr_ab) (block_input (sr_bytes (MsgpP msgp_init) sr_ab ++ $"rest")) = Ok (map (fun kv => Ok (snd kv)) sr_ab) /\
  sr_plain (MsgpP msgp_init) (map fst sr_ab) (block_input (sr_bytes (MsgpP msgp_init) sr_ab ++ $"rest")) = Ok (sr_doc sr_ab).
Proof. repeat split; vm_compute; reflexivity. Qed.
(** out of order: the long text that was met first is kept, the short one is gone *)
Example C86_ex_order :
  let bs := sr_bytes (MsgpP msgp_init) [($"l", $"a text of more than eight bytes"); ($"s", $"short"); ($"z", $"last")] in
  sr_seen (MsgpP msgp_init) [$"z"; $"s"; $"l"] (block_input bs) = Ok [Ok ($"last"); UB UbDangling; Ok ($"a text of more than eight bytes")] /\
  sr_plain (MsgpP msgp_init) [$"z"; $"s"; $"l"] (block_input bs) = Ok (VList [VStr ($"last"); VStr ($"short"); VStr ($"a text of more than eight bytes")]).
Proof. repeat split; vm_compute; reflexivity. Qed.

(** * What is not true *)
(** a short text that is met before it is asked for *)
Theorem C86_order_refuted : exists q ks src vs l, sr_plain q ks (block_input src) = Ok (VList vs) /\ sr_seen q ks (block_input src) = Ok l /\
  is_json q = false /\ nth 1 vs VNone = VStr ($"short") /\ nth 1 l Err = UB UbDangling.
Proof.
  exists (MsgpP msgp_init), [$"z"; $"s"], (sr_bytes (MsgpP msgp_init) [($"s", $"short"); ($"z", $"last")]), [VStr ($"last"); VStr ($"short")], [Ok ($"last"); UB UbDangling].
  repeat split; vm_compute; reflexivity.
Qed.
Print Assumptions C86_order_refuted.
(** JSON: each string is unescaped into the same buffer, so both members say what was read last *)
Theorem C86_json_refuted : exists ks src vs l, sr_plain (JsonP (json_init true)) ks (block_input src) = Ok (VList vs) /\
  sr_seen (JsonP (json_init true)) ks (block_input src) = Ok l /\ vs = [VStr ($"abc"); VStr ($"xyz")] /\ l = [Ok ($"xyz"); Ok ($"xyz")].
Proof.
  exists [$"a"; $"b"], (js ($"{'a':'abc','b':'xyz'}")), [VStr ($"abc"); VStr ($"xyz")], [Ok ($"xyz"); Ok ($"xyz")]. repeat split; vm_compute; reflexivity.
Qed.
Print Assumptions C86_json_refuted.
(** a stream: the buffer the member points to is refilled when the next one is read *)
Theorem C86_stream_refuted : exists q ks src vs l, is_json q = false /\ sr_plain q ks (stream_input src) = Ok (VList vs) /\ sr_seen q ks (stream_input src) = Ok l /\
  nth 0 vs VNone = VStr ($"a text") /\ nth 0 l Err = UB UbDangling.
Proof.
  exists (PsrlP psrl_init), [$"a"; $"b"], (sr_bytes (PsrlP psrl_init) [($"a", $"a text"); ($"b", repeat 98 1100)]), [VStr ($"a text"); VStr (repeat 98 1100)], [UB UbDangling; Ok (repeat 98 1100)].
  repeat split; vm_compute; reflexivity.
Qed.
Print Assumptions C86_stream_refuted.
