(** Properties C22-C26, C56, C57 and the JSON part of C18, C31. *)
From Coq Require Import ZArith List Bool Lia ZifyBool ZifyNat.
From Verif Require Import Base Lemmas M_Types M_Conv M_Charset M_In S_Conv S_Doc S_Json S_JsonText S_Charset M_OutOps S_Out M_Event M_Env M_Json
  P_Charset P_Doc P_JsonGrammar P_JsonRead P_JsonSafe P_JsonMain.
Import ListNotations.
Open Scope Z_scope.

(** the document and the printer of doubles used in the examples *)
Definition ex_fp : fp_text :=
  {| x_strtod := fun s => if bytes_eqb s ($"3.14") then Some 4614253070214989087 else None; x_dtoa := fun _ => $"3.14" |}.
Definition ex_json : doc :=
  DScope [] TObject
    [DVal ($"id") (val_int TI32 (-5)); DVal ($"na me") (val_string ($"x/""\" ++ [10; 228; 184]) EUTF8);
     DScope ($"list") TArray [DVal ($"ignored") (val_int TUI64 (2 ^ 64 - 1)); DScope [] TObject [DVal ($"pi") (val_f64 4614253070214989087)]; DScope [] TArray []];
     DVal ($"ok") (val_bool true); DVal ($"bin") (val_block [0; 255; 128; 7] TBinary); DVal ($"id") (val_type TNull)].
Definition json_bytes (compact : bool) (d : doc) : bytes :=
  match write_events (json_save ex_fp) (json_init compact) (events d) with Ok (_, ops) => spec_out ops | _ => [] end.
Definition json_events (n : nat) (src : bytes) : option (list (bytes * meaning) * bytes) :=
  match run_block (read_events (json_read ex_fp 1000) n (json_init true)) (set_block src) with
  | Ok (_, es, b) => Some (map (fun e => (fst e, meaning_of (snd e))) es, b_rest b) | _ => None end.

(** * C22 escaping is reversible, whatever follows the closing quote and whatever the state of the buffer *)
Theorem C22_json_string_roundtrip : forall s buf fuel before rest, (length s < fuel)%nat ->
  spec_out (write_escape s) = flat_map json_escape s /\
  exists buf', run_block (read_unescape fuel buf) (mkBlk before (spec_out (write_escape s) ++ 34 :: rest)) =
      Ok ((s, buf'), mkBlk (rev (spec_out (write_escape s)) ++ before) (34 :: rest)) /\
    exists str, run_stream (read_unescape fuel buf) (set_stream (spec_out (write_escape s) ++ 34 :: rest)) = Ok ((s, buf'), str).
Proof. exact json_string_roundtrip. Qed.
Print Assumptions C22_json_string_roundtrip.
Example C22_ex : spec_out (write_escape ($"a\""" ++ [10] ++ $"/\")) = $"a\\\""\n\/\\" /\
  match run_block (read_unescape 20 []) (set_block ($"a\\\""\n\/\\"",""b""")) with
  | Ok (s, _, b) => s = $"a\""" ++ [10] ++ $"/\" /\ b_rest b = $""",""b""" | _ => False end.
Proof. vm_compute. auto. Qed.

(** * C23 round trip, compact and indented.  Full statement: the same without the hypotheses on values and names;
    false for names with quotes (C24), for INT64_MIN (C06), 2^63 as a double (C28) and strings of unknown encoding.
    Missing: that the printer and reader of doubles satisfy [prints_well] (see C52), nodes as the root of the document only. *)
Theorem C23_json_roundtrip_partial : forall x d w0 r0,
  wf_doc d -> is_scope_doc d -> all_vals (fun _ v => json_value x v) d -> json_names false d ->
  exists w' ops, write_events (json_save x) (json_clear w0) (events d) = Ok (w', ops) /\ valid_ops [] ops /\
  exists d', mdoc_of d' = json_denote false d /\
    forall F before rest, (length (spec_out ops) + 5 <= F)%nat ->
    exists r', run_block (read_events (json_read x F) (length (events d)) (json_clear r0)) (mkBlk before (spec_out ops ++ rest)) =
      Ok ((r', events d'), mkBlk (rev (spec_out ops) ++ before) rest).
Proof. exact json_roundtrip. Qed.
Print Assumptions C23_json_roundtrip_partial.
(** the hypotheses hold of the example *)
Definition json_valueb (v : value) : bool :=
  match meaning_of v with
  | MeInt n => negb (n =? - 2 ^ 63)
  | MeFloat d => match whole d with Some n => negb (Z.abs n =? 2 ^ 63) | None => d =? 4614253070214989087 end
  | MeStr _ => enc_eqb (v_enc v) EUTF8
  | MeBin bs => zlen bs <? 1000
  | _ => true
  end.
Example C23_ex_applies : wf_doc ex_json /\ is_scope_doc ex_json /\ all_vals (fun _ v => json_value ex_fp v /\ rfc_value ex_fp v) ex_json /\
  json_names false ex_json /\ rfc_names false ex_json.
Proof.
  assert (H : doc_check (fun _ v => json_valueb v && match meaning_of v with MeStr s => forallb (fun c => (32 <=? c) || (c =? 10)) s | _ => true end) ex_json = true) by (vm_compute; reflexivity).
  apply doc_check_spec in H. destruct H as [H1 H2]. split; [exact H1|]. split; [exact I|]. split.
  - eapply all_vals_impl; [|exact H2]. cbv beta. intros _ v H. clear H1 H2. unfold json_value, rfc_value, json_valueb in *. apply andb_true_iff in H. destruct H as [H0 H3].
    destruct (meaning_of v) as [|b|n|d|s|bs| | |]; try (split; exact I).
    + split; [|exact I]. unfold two63. lia.
    + destruct (whole d) as [n|] eqn:Wd; [split; [unfold two63; lia|intros; discriminate]|]. assert (d = 4614253070214989087) by lia. subst d. clear.
      split.
      * unfold prints_well. cbn [x_dtoa ex_fp x_strtod]. split; [apply Forall_forall; intros c Hc; cbn in Hc; unfold number_char, is_digit; cbn; lia|].
        split; [exists 51; eexists; split; [reflexivity|unfold is_digit; lia]|]. split; [|split; reflexivity].
        assert (D : forall s, digits s -> In 46 s -> False) by (intros s [_ D] I; rewrite Forall_forall in D; specialize (D _ I); unfold is_digit in D; lia).
        intros [D0|(s & E & _)]; [|discriminate]. apply (D _ D0). cbn. tauto.
      * intros _. cbn [x_dtoa ex_fp].
        assert (G : forall s, forallb (fun c => (48 <=? c) && (c <=? 57)) s = true -> s <> [] -> digits s)
          by (intros s Hs Ns; split; [exact Ns|apply Forall_forall; intros c Hc; rewrite forallb_forall in Hs; specialize (Hs c Hc); unfold is_digit; lia]).
        exists ($"3"), 3, ($".14"), []. split; [reflexivity|]. split.
        { exists ($"3"). split; [split; [apply G; [reflexivity|discriminate]|right; cbn; lia]|left; split; reflexivity]. }
        split; [right; exists ($"14"); split; [reflexivity|apply G; [reflexivity|discriminate]]|].
        split; [left; reflexivity|discriminate].
    + split; [now apply enc_eqb_spec|]. apply Forall_forall. intros c Hc. rewrite forallb_forall in H3. specialize (H3 c Hc). unfold rfc_char. cbn. lia.
    + split; [lia|exact I].
  - assert (N : forall s, forallb (fun c => (32 <=? c) && negb (c =? 34) && negb (c =? 92)) s = true -> json_name s /\ Forall (fun c => 32 <= c) s).
    { intros s Hs. rewrite forallb_forall in Hs. split; [split; intros I; specialize (Hs _ I); lia|]. apply Forall_forall. intros c Hc. specialize (Hs _ Hc). lia. }
    cbn [json_names rfc_names ex_json]. change (ty_eqb TObject TObject) with true. change (ty_eqb TArray TObject) with false.
    repeat match goal with |- _ /\ _ => split | |- True => exact I | |- true = true -> _ => intros _ | |- false = true -> _ => discriminate
      | |- json_name _ => apply N; reflexivity | |- Forall _ _ => apply N; reflexivity end.
Qed.
Example C23_ex : json_events 14 (json_bytes false ex_json ++ [7]) = json_events 14 (json_bytes true ex_json ++ [7]) /\
  json_events 14 (json_bytes true ex_json ++ [7]) =
  Some ([([], MeObj); ($"id", MeInt (-5)); ($"na me", MeStr ($"x/""\" ++ [10; 228; 184])); ($"list", MeArr); ([], MeInt (2 ^ 64 - 1)); ([], MeObj);
     ($"pi", MeFloat 4614253070214989087); ([], MeEnd); ([], MeArr); ([], MeEnd); ([], MeEnd); ($"ok", MeBool true); ($"bin", MeStr ($"AP+ABw==")); ($"id", MeNull)], $"}" ++ [7]).
Proof. split; vm_compute; reflexivity. Qed.

(** * C18 for JSON: two documents one after the other *)
Theorem C18_json_concat : forall x d1 d2 w0 r0 F,
  wf_doc d1 -> is_scope_doc d1 -> all_vals (fun _ v => json_value x v) d1 -> json_names false d1 ->
  wf_doc d2 -> is_scope_doc d2 -> all_vals (fun _ v => json_value x v) d2 -> json_names false d2 ->
  (forall w o, (exists d, (d = d1 \/ d = d2) /\ write_events (json_save x) (json_clear w0) (events d) = Ok (w, o)) -> (length (spec_out o) + 5 <= F)%nat) ->
  exists w1 o1 w2 o2 d1' d2' s1 s2 b1 b2,
    write_events (json_save x) (json_clear w0) (events d1) = Ok (w1, o1) /\ write_events (json_save x) (json_clear w0) (events d2) = Ok (w2, o2) /\
    run_block (read_events (json_read x F) (length (events d1)) (json_clear r0)) (set_block (spec_out o1 ++ spec_out o2)) = Ok ((s1, events d1'), b1) /\
    run_block (read_events (json_read x F) (length (events d2)) (json_clear s1)) b1 = Ok ((s2, events d2'), b2) /\
    mdoc_of d1' = json_denote false d1 /\ mdoc_of d2' = json_denote false d2 /\ b_rest b2 = [].
Proof. exact json_concat. Qed.
Print Assumptions C18_json_concat.
Example C18_json_ex : json_events 3 ($"[1][""a""]") = Some ([([], MeArr); ([], MeInt 1); ([], MeEnd)], $"[""a""]").
Proof. vm_compute. reflexivity. Qed.

(** * C31 for JSON: documents read from a stream.
    Full statement: stream and memory agree on all bytes; false, see [C31_json_stream_refuted]. *)
Theorem C31_json_stream_roundtrip_partial : forall x d w0 r0 w' ops,
  wf_doc d -> is_scope_doc d -> all_vals (fun _ v => json_value x v) d -> json_names false d ->
  (j_compact w0 = true \/ (depth d <= 150)%nat) -> write_events (json_save x) (json_clear w0) (events d) = Ok (w', ops) ->
  exists d', mdoc_of d' = json_denote false d /\
    forall F rest, (length (spec_out ops) + 5 <= F)%nat ->
    exists r' s, run_stream (read_events (json_read x F) (length (events d)) (json_clear r0)) (set_stream (spec_out ops ++ rest)) =
      Ok ((r', events d'), s).
Proof. exact json_stream_roundtrip. Qed.
Print Assumptions C31_json_stream_roundtrip_partial.
Example C31_json_ex : match run_stream (read_events (json_read ex_fp 1000) 14 (json_init true)) (set_stream (json_bytes false ex_json)) with
  | Ok (_, es, _) => nth_error es 2 | _ => None end = Some ($"na me", val_string ($"x/""\" ++ [10; 228; 184]) EUTF8).
Proof. vm_compute. reflexivity. Qed.
(** a number followed by more than 1000 line breaks *)
Theorem C31_json_stream_refuted : exists src F,
  (exists r b, run_block (read_events (json_read ex_fp F) 3 (json_init true)) (set_block src) = Ok (r, b)) /\
  run_stream (read_events (json_read ex_fp F) 3 (json_init true)) (set_stream src) = UB UbOob.
Proof.
  exists ($"[1" ++ repeat 10 3000 ++ $"]"), 4000%nat. split; [eexists _, _; vm_compute; reflexivity|vm_compute; reflexivity].
Qed.
Print Assumptions C31_json_stream_refuted.

(** * C24 names.  False: names are not escaped. *)
Theorem C24_json_name_refuted : exists n w ops r b, wf_doc (DScope [] TObject [DVal n (val_int TI32 1)]) /\
  write_events (json_save ex_fp) (json_init true) (events (DScope [] TObject [DVal n (val_int TI32 1)])) = Ok (w, ops) /\
  run_block (read_events (json_read ex_fp 100) 2 (json_init true)) (set_block (spec_out ops)) = Ok (r, b) /\
  map fst (snd r) <> [[]; n].
Proof.
  exists ($"a\nb"). eexists _, _, _, _. split; [apply (doc_check_spec (fun _ _ => true)); vm_compute; reflexivity|].
  split; [vm_compute; reflexivity|]. split; [vm_compute; reflexivity|]. vm_compute. discriminate.
Qed.
Print Assumptions C24_json_name_refuted.
(** with a quote in the name, loading reads behind the end of the buffer *)
Theorem C24_json_name_quote_refuted : exists n, wf_doc (DScope [] TObject [DVal n (val_int TI32 1)]) /\
  forall F, (20 <= F)%nat ->
  run_block (read_events (json_read ex_fp F) 3 (json_init true)) (set_block (json_bytes true (DScope [] TObject [DVal n (val_int TI32 1)]))) = UB UbEnd.
Proof.
  exists ($"a""b"). split; [apply (doc_check_spec (fun _ _ => true)); vm_compute; reflexivity|].
  intros F HF. do 20 (destruct F as [|F]; [lia|]). vm_compute. reflexivity.
Qed.
Print Assumptions C24_json_name_quote_refuted.

(** * C25 \uXXXX.  False: the two bytes of the code point are exchanged. *)
Theorem C25_json_unicode_swapped_partial : forall h a b buf fuel before rest,
  length h = 4%nat -> hex_ref h = Some [a; b] -> scalar (256 * b + a) -> (1 < fuel)%nat ->
  exists buf', run_block (read_unescape fuel buf) (mkBlk before (92 :: 117 :: h ++ 34 :: rest)) =
    Ok ((utf8 (256 * b + a), buf'), mkBlk (rev (92 :: 117 :: h) ++ before) (34 :: rest)).
Proof. exact json_unicode_swapped. Qed.
Print Assumptions C25_json_unicode_swapped_partial.
Theorem C25_json_unicode_refuted : exists h n s buf b, hex4 h n /\ scalar n /\
  run_block (read_unescape 100 []) (set_block (92 :: 117 :: h ++ [34])) = Ok ((s, buf), b) /\ s <> utf8 n.
Proof.
  exists ($"0041"), 65. eexists _, _, _. split; [split; [reflexivity|exists 0, 65; split; reflexivity]|]. split; [left; lia|].
  split; [vm_compute; reflexivity|]. vm_compute. discriminate.
Qed.
Print Assumptions C25_json_unicode_refuted.
Example C25_ex : match run_block (read_unescape 100 []) (set_block (92 :: $"u4141"" ")) with Ok (s, _, _) => s = utf8 16705 | _ => False end /\
  match run_block (read_unescape 100 []) (set_block (92 :: $"uAC20"" ")) with Ok (s, _, _) => s = utf8 8364 | _ => False end.
Proof. vm_compute. auto. Qed.
(** and behind other characters the conversion writes over the end of the buffer *)
Theorem C20_json_heap_refuted : exists src F, run_block (read_events (json_read ex_fp F) 2 (json_init true)) (set_block src) = UB UbHeap.
Proof. exists ($"[""123456789" ++ 92 :: $"u2020""]"), 100%nat. vm_compute. reflexivity. Qed.
Print Assumptions C20_json_heap_refuted.
(** a document that ends inside a scope: the byte behind the end of the buffer is read *)
Theorem C20_json_end_refuted : exists src F, run_block (read_events (json_read ex_fp F) 2 (json_init true)) (set_block src) = UB UbEnd.
Proof. exists ($"{"), 100%nat. vm_compute. reflexivity. Qed.
Print Assumptions C20_json_end_refuted.

(** Missing in the partial result: both kinds listed do occur, as shown.  Nothing else does; without a unicode
    escape only the byte directly behind the input is ever touched. *)
Theorem C20_json_inside_partial : forall x F n st b u, (length (b_rest b) < F)%nat ->
  run_block (read_events (json_read x F) n st) b = UB u ->
  u = UbEnd \/ (u = UbHeap /\ exists p q, b_rest b = p ++ 92 :: 117 :: q).
Proof. exact json_undefined. Qed.
Print Assumptions C20_json_inside_partial.
Example C20_json_ex : run_block (read_events (json_read ex_fp 100) 2 (json_init true)) (set_block ($"[""a")) = UB UbEnd /\
  run_block (read_events (json_read ex_fp 100) 2 (json_init true)) (set_block ($"[tru,1]")) = Err.
Proof. vm_compute. auto. Qed.

(** * C19 reading ends on every input: loop bounds above the size of the input are never exhausted, and every
    value and scope takes at least one byte *)
Theorem C19_json_total : forall x F n st b, (length (b_rest b) < F)%nat -> run_block (read_events (json_read x F) n st) b <> Fuel.
Proof. exact json_total. Qed.
Theorem C19_json_bounded : forall x F n st b r b', (length (b_rest b) < F)%nat ->
  run_block (read_events (json_read x F) n st) b = Ok (r, b') -> (n + length (b_rest b') <= length (b_rest b))%nat.
Proof. exact json_bounded. Qed.
Print Assumptions C19_json_total.
Print Assumptions C19_json_bounded.
Example C19_json_ex : (* three events out of nine bytes, seven rounds on garbage *)
  match run_block (read_events (json_read ex_fp 10) 3 (json_init true)) (set_block ($"[///*x,]]")) with UB UbEnd => True | _ => False end /\
  match run_block (read_events (json_read ex_fp 10) 3 (json_init true)) (set_block ($"[ ; ,1,]]")) with Ok (_, b) => b_rest b = [93] | _ => False end.
Proof. vm_compute. auto. Qed.

(** * C26 bracket kinds.  False: any closing bracket closes the scope. *)
Theorem C26_json_bracket_refuted : exists r b,
  run_block (read_events (json_read ex_fp 100) 3 (json_init true)) (set_block ($"{""a"":1]")) = Ok (r, b) /\
  map (fun e => (fst e, meaning_of (snd e))) (snd r) = [([], MeObj); ($"a", MeInt 1); ([], MeEnd)] /\ b_rest b = [].
Proof. eexists _, _. split; [vm_compute; reflexivity|]. split; vm_compute; reflexivity. Qed.
Print Assumptions C26_json_bracket_refuted.

(** * C56 the bytes written are those of the independently written layout *)
Theorem C56_json_layout : forall x d w0,
  wf_doc d -> is_scope_doc d -> all_vals (fun _ v => json_value x v) d -> json_names false d ->
  exists w' ops, write_events (json_save x) (json_clear w0) (events d) = Ok (w', ops) /\ spec_out ops = render (j_compact w0) x false 0 d.
Proof. exact json_output_layout. Qed.
Print Assumptions C56_json_layout.
Example C56_ex :
  render true ex_fp false 0 ex_json = $"{""id"":-5,""na me"":""x\/\""\\\n" ++ [228; 184] ++
    $""",""list"":[18446744073709551615,{""pi"":3.14},[]],""ok"":true,""bin"":""AP+ABw=="",""id"":null}" /\
  render false ex_fp false 0 (DScope [] TObject [DVal ($"a") (val_int TI8 1); DScope ($"b") TArray [DVal [] (val_bool false)]]) =
    $"{" ++ [10; 9] ++ $"""a"": 1," ++ [10; 9] ++ $"""b"": [" ++ [10; 9; 9] ++ $"false" ++ [10; 9] ++ $"]" ++ [10] ++ $"}".
Proof. split; vm_compute; reflexivity. Qed.

(** * C57 the output is a JSON text for the document.  Full statement: for all documents JSON can carry; false: *)
Theorem C57_json_control_refuted : exists d, wf_doc d /\ is_scope_doc d /\ all_vals (fun _ v => json_value ex_fp v) d /\ json_names false d /\
  json_bytes true d <> [] /\ forall m, ~ js_value ex_fp true [] (json_bytes true d) m.
Proof.
  exists (DScope [] TArray [DVal [] (val_string [1] EUTF8)]).
  assert (H : doc_check (fun _ v => json_valueb v) (DScope [] TArray [DVal [] (val_string [1] EUTF8)]) = true) by (vm_compute; reflexivity).
  apply doc_check_spec in H. destruct H as [H1 H2]. split; [exact H1|]. split; [exact I|].
  split; [cbn; split; [reflexivity|exact I]|]. split; [cbn; split; [discriminate|]; split; [discriminate|exact I]|].
  assert (E : json_bytes true (DScope [] TArray [DVal [] (val_string [1] EUTF8)]) = [91; 34; 1; 34; 93]) by (vm_compute; reflexivity).
  rewrite E. split; [discriminate|]. intros m V. apply (proj1 (seen_json _ _)) in V. inversion V as [|? ? _ V1]; inversion V1 as [|? ? _ V2]; inversion V2 as [|? ? [S|S] _]; [lia|].
  cbn in S. lia.
Qed.
Print Assumptions C57_json_control_refuted.
(** Proved for documents without other control characters than \b \f \n \r \t, if the printer of doubles prints JSON numbers.
    Missing: control characters (refuted); the printer of doubles (C52). *)
Theorem C57_json_conforms_partial : forall x d w0,
  wf_doc d -> is_scope_doc d -> all_vals (fun _ v => json_value x v /\ rfc_value x v) d -> json_names false d -> rfc_names false d ->
  exists w' ops, write_events (json_save x) (json_clear w0) (events d) = Ok (w', ops) /\
    js_value x false [] (spec_out ops) (json_denote false d).
Proof. exact json_output_conforms. Qed.
Print Assumptions C57_json_conforms_partial.
(** the grammar is not empty and not everything *)
Example C57_ex : js_value ex_fp false [] ($"{ ""a"" : [ ] }") (MScope [] TObject [MScope ($"a") TArray []]) /\
  forall m, ~ js_value ex_fp true [] ($"nul") m.
Proof.
  split.
  - apply (JvObj ex_fp false [] ($" ""a"" : [ ] ") [MScope ($"a") TArray []]).
    apply (JiOne ex_fp false TObject ($" ") ($"""a"" : ") ($"a") ($"[ ]") ($" ")).
    + repeat constructor.
    + apply (JkObj false ($"a") ($"a") ($" ") ($" ")); [apply (JcRaw false 97 [] []); [lia|lia|lia|constructor]|repeat constructor|repeat constructor].
    + apply (JvArr ex_fp false ($"a") ($" ") []). apply JiNone. repeat constructor.
    + repeat constructor.
  - intros m V. inversion V; subst.
    + destruct H as (s & [[N D] _] & [[<- _]|[E _]]); [|discriminate]. inversion D as [|? ? C _]. unfold is_digit in C. lia.
    + destruct H as (i & n & f & e & E & I & _). destruct I as (s & [[N D] _] & [[-> _]|[-> _]]); [|discriminate].
      destruct s as [|c s]; [contradiction|]. injection E as <- _. inversion D as [|? ? C _]. unfold is_digit in C. lia.
Qed.

(** * C58 every JSON text loads with the meaning the grammar gives it.
    Proved for texts without \u escapes and with integers above -2^63 and below 2^64.
    Missing: \u escapes (refuted, also C25); larger integers (refuted); roots other than objects and arrays. *)
Theorem C58_json_reads_grammar_partial : forall x w t m r0 F before rest,
  Forall js_space w -> js_value x false [] t m -> (exists sc ms, m = MScope [] sc ms) ->
  all_means (fun v => match v with MeInt n => - 2 ^ 63 < n < 2 ^ 64 | _ => True end) m -> zlen t < 2 ^ 32 -> (length (w ++ t) + 5 <= F)%nat ->
  exists d r', mdoc_of d = m /\
    run_block (read_events (json_read x F) (length (events d)) (json_clear r0)) (mkBlk before ((w ++ t) ++ rest)) =
      Ok ((r', events d), mkBlk (rev (w ++ t) ++ before) rest).
Proof. exact json_text_block. Qed.
Print Assumptions C58_json_reads_grammar_partial.
Example C58_ex : json_events 8 ($" { ""a"" : [ ] ,""b\t"":" ++ [10] ++ $"[-0" ++ [9] ++ $"]" ++ [13] ++ $", ""c"" :3.14 } ") =
  Some ([([], MeObj); ($"a", MeArr); ([], MeEnd); ($"b" ++ [9], MeArr); ([], MeInt 0); ([], MeEnd); ($"c", MeFloat 4614253070214989087); ([], MeEnd)], $" ").
Proof. vm_compute. reflexivity. Qed.
Theorem C58_json_unicode_refuted : exists t m, js_value ex_fp true [] t m /\
  exists es r b, run_block (read_events (json_read ex_fp 100) 3 (json_init true)) (set_block t) = Ok ((r, es), b) /\ b_rest b = [] /\
    forall d, es = events d -> mdoc_of d <> m.
Proof.
  exists ($"[""" ++ 92 :: $"u0041""]"), (MScope [] TArray [MVal [] (MeStr (utf8 65))]). split.
  - apply (JvArr ex_fp true [] ($"""" ++ 92 :: $"u0041""")). apply (JiOne ex_fp true TArray [] [] [] ($"""" ++ 92 :: $"u0041""") []); [constructor|constructor| |constructor].
    apply (JvStr ex_fp true [] (92 :: $"u0041") (utf8 65)). apply (JcUni true ($"0041") 65 [] []); [reflexivity| |left; lia|constructor].
    split; [reflexivity|]. exists 0, 65. split; reflexivity.
  - eexists _, _, _. split; [vm_compute; reflexivity|]. split; [reflexivity|]. intros d R M.
    destruct d as [n v|n t [|[n1 v1|n1 t1 ds1] [|y ds]]]; cbn in M; try discriminate M. cbn in R. injection R as _ _ _ R. rewrite <- R in M. vm_compute in M. discriminate M.
Qed.
Print Assumptions C58_json_unicode_refuted.
Theorem C58_json_integer_refuted : exists t m, js_value ex_fp false [] t m /\
  exists es r b, run_block (read_events (json_read ex_fp 100) 3 (json_init true)) (set_block t) = Ok ((r, es), b) /\ b_rest b = [] /\
    forall d, es = events d -> mdoc_of d <> m.
Proof.
  exists ($"[30000000000000000000]"), (MScope [] TArray [MVal [] (MeInt 30000000000000000000)]). split.
  - apply (JvArr ex_fp false [] ($"30000000000000000000")). rewrite <- (app_nil_r ($"30000000000000000000")).
    apply (JiOne ex_fp false TArray [] [] [] ($"30000000000000000000") []); [constructor|constructor| |constructor].
    apply JvInt. exists ($"30000000000000000000"). split; [|left; split; reflexivity]. split; [|right; cbn; lia].
    split; [discriminate|]. apply Forall_forall. intros c Hc. cbn in Hc. unfold is_digit. lia.
  - eexists _, _, _. split; [vm_compute; reflexivity|]. split; [reflexivity|]. intros d R M.
    destruct d as [n v|n t [|[n1 v1|n1 t1 ds1] [|y ds]]]; cbn in M; try discriminate M. cbn in R. injection R as _ _ _ R. rewrite <- R in M. vm_compute in M. discriminate M.
Qed.
Print Assumptions C58_json_integer_refuted.
