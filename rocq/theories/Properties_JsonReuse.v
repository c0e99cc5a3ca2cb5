(** C51: reading JSON with a parser that was used before. *)
From Coq Require Import ZArith List Bool Lia.
From Verif Require Import Base M_Types M_Conv M_In S_Doc M_Json M_Tree M_TreeIO P_JsonReuse Properties_Charset Properties_Object.
Import ListNotations.
Open Scope Z_scope.

(** the tree and the rest of the input, without the parser *)
Definition tree_read (r : res ((parser * (bytes * node)) * blk)) : res ((bytes * node) * blk) := let* (r, b) := r in Ok (snd r, b).
(** a buffer as it is in a new parser, or after it was used *)
Definition buffer_ok (buf : bytes) : Prop := buf = [] \/ 10 <= zlen buf.
Definition parser_ok (st : pjson) : Prop := buffer_ok (j_nbuf st) /\ buffer_ok (j_vbuf st).
Lemma ok_roomy buf : buffer_ok buf <-> roomy buf.
Proof. unfold buffer_ok, roomy. split; intros [H|H]; auto; left; [now subst|]. destruct buf; [reflexivity|unfold zlen in H; cbn in H; lia]. Qed.

(** Full statement: [tree_read (run_block (load_tree x F (JsonP s)) b) = tree_read (run_block (load_tree x F (JsonP t)) b)] for all parsers; refuted by
    C51_json_read_reuse_refuted (Properties_Tree.v).  With any two parsers, new or used: the same outcome, unless one of them writes
    outside of its buffer, which needs an escape \u in the source. *)
Theorem C51_json_read_reuse_partial : forall x F s t b, parser_ok s -> parser_ok t ->
  tree_read (run_block (load_tree x F (JsonP s)) b) = tree_read (run_block (load_tree x F (JsonP t)) b) \/
  (exists p q, b_rest b = p ++ 92 :: 117 :: q) /\
  (run_block (load_tree x F (JsonP s)) b = UB UbHeap \/ run_block (load_tree x F (JsonP t)) b = UB UbHeap).
Proof.
  intros x F s t b [S1 S2] [T1 T2]. apply ok_roomy in S1, S2, T1, T2. destruct (two_load x F s t b S1 S2 T1 T2 (fun H => H)) as [H|H]; [right; exact H|left].
  unfold tree_read. destruct (run_block (load_tree x F (JsonP s)) b) as [[[p r] b1]| |u|], (run_block (load_tree x F (JsonP t)) b) as [[[q r'] b2]| |u'|]; cbn [step fst snd] in H; try contradiction; cbn [rbind snd]; try congruence.
  destruct H as (-> & _ & ->). reflexivity.
Qed.
(** new parsers and parsers that have loaded something are of that kind *)
Theorem C51_json_buffers : forall compact, parser_ok (json_init compact) /\
  forall x F s b q r b', parser_ok s -> run_block (load_tree x F (JsonP s)) b = Ok ((q, r), b') -> exists t, q = JsonP t /\ parser_ok t.
Proof.
  intros compact. split; [split; left; reflexivity|]. intros x F s b q r b' [S1 S2] E. apply ok_roomy in S1, S2. destruct (two_load x F s s b S1 S2 S1 S2 (fun H => H)) as [[_ [H|H]]|H]; [congruence..|].
  rewrite E in H. cbn [step fst snd] in H. destruct H as (_ & T & _). unfold twin_parsers in T. destruct q as [|st|st]; try contradiction. destruct T as (_ & _ & (A & B) & _). exists st. split; [reflexivity|]. split; now apply ok_roomy.
Qed.
Print Assumptions C51_json_read_reuse_partial.
Print Assumptions C51_json_buffers.
(** a parser that has read a longer document, and a document with escapes *)
Definition used_parser : parser := match run_block (load_tree ex_fp 200 json_p) (set_block (js ($"{'a long name':'some text that is longer','n':1}"))) with Ok ((q, _), _) => q | _ => json_p end.
Definition text_with_escape : bytes := js ($"['a','b" ++ 92 :: $"u4100c']").
Example C51_ex_json : exists st, used_parser = JsonP st /\ zlen (j_nbuf st) = 30 /\ zlen (j_vbuf st) = 30 /\
  (let r := tree_read (run_block (load_tree ex_fp 200 used_parser) (set_block text_with_escape)) in
   match r with Ok ((k, n), b) => map (fun v => v_data (snd v)) (n_values n) = [$"a"; $"bAc"] | _ => False end /\
   r = tree_read (run_block (load_tree ex_fp 200 json_p) (set_block text_with_escape))).
Proof. eexists. split; [vm_compute; reflexivity|]. split; [reflexivity|]. split; [reflexivity|]. vm_compute. auto. Qed.
