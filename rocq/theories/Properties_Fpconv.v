(** Properties C52, C61, C62: doubles as text. *)
From Coq Require Import ZArith List Bool QArith Lia ZifyBool ZifyNat.
From Verif Require Import Base M_Types M_Conv M_In S_Conv S_Doc S_Json S_JsonText S_Charset M_OutOps S_Out M_Event M_Env M_Json M_Fpconv
  S_Fpconv S_FpRead S_FpJson S_ObjIO P_Doc P_FpNear P_FpEmit P_FpRead P_FpJson.
Import ListNotations.
Open Scope Z_scope.

(** * C52 the printer of doubles *)
(** at most 24 characters, of a decimal number that is nearer to the double than to every other one *)
Theorem C52_text_fits_and_is_nearest : forall bits, finite bits ->
  exists t q, fpconv_dtoa bits = Ok t /\ zlen t <= 24 /\ decimal_text t (negative bits) q /\ nearest (bits mod 2 ^ 63) q.
Proof. exact fpconv_text. Qed.
Print Assumptions C52_text_fits_and_is_nearest.
(** infinities and NaN *)
Theorem C52_special_texts : forall bits, 0 <= bits < 2 ^ 64 -> ~ finite bits ->
  fpconv_dtoa bits = Ok ((if negative bits then [45] else []) ++ if bits mod 2 ^ 63 =? 2047 * 2 ^ 52 then $"inf" else $"nan").
Proof. exact fpconv_special. Qed.
Print Assumptions C52_special_texts.
(** so that it reads back exactly, the sign of zero included *)
Theorem C52_reads_back : forall strtod, reads_nearest strtod -> forall bits, finite bits ->
  exists t, fpconv_dtoa bits = Ok t /\ strtod t = Some bits.
Proof. exact fpconv_reads_back. Qed.
Print Assumptions C52_reads_back.
(** there are such readers *)
Theorem C52_reader_exists : reads_nearest ref_strtod.
Proof. exact ref_reads_nearest. Qed.
Print Assumptions C52_reader_exists.
(** different doubles have different texts *)
Theorem C52_texts_differ : forall a b t, finite a -> finite b -> fpconv_dtoa a = Ok t -> fpconv_dtoa b = Ok t -> a = b.
Proof. exact fpconv_injective. Qed.
Print Assumptions C52_texts_differ.
Example C52_ex :
  fpconv_dtoa 4614253070214989087 = Ok ($"3.14") /\ fpconv_dtoa 1 = Ok ($"5e-324") /\ fpconv_dtoa (2047 * 2 ^ 52 - 1) = Ok ($"1.7976931348623157e+308") /\
  fpconv_dtoa (2 ^ 63) = Ok ($"-0") /\ fpconv_dtoa 13832287573073995485 = Ok ($"-1.3848293726354577") /\ fpconv_dtoa (2047 * 2 ^ 52 + 2 ^ 63) = Ok ($"-inf") /\
  fpconv_dtoa 4607182418800017409 = Ok ($"1.0000000000000002") /\ ref_strtod ($"1.0000000000000002") = Some 4607182418800017409 /\
  ref_strtod ($"-0.1e-2") = ref_strtod ($"-0.001") /\ ref_strtod ($"1.00000000000000016") = Some 4607182418800017409 /\ ref_strtod ($"1.0000000000000001") = Some 4607182418800017408 /\
  ref_strtod ($"1e") = None /\ ref_strtod ($"2e308") = None.
Proof. repeat split; vm_compute; reflexivity. Qed.

(** * C62 the text is the shortest one that reads back: not always *)
Theorem C62_shortest_refuted : exists bits t s q, finite bits /\ fpconv_dtoa bits = Ok t /\
  decimal_text s (negative bits) q /\ nearest (bits mod 2 ^ 63) q /\ zlen s < zlen t.
Proof.
  exists 7237259105495185343, ($"6.3137359483597504e+175"), ($"6.31373594835975e+175"), (inject_Z (dec_value ($"631373594835975")) * power 10 161)%Q.
  split; [split; [lia|vm_compute; reflexivity]|]. split; [vm_compute; reflexivity|]. split; [|split; [|vm_compute; reflexivity]].
  - exists ($"6"), ($".31373594835975"), ($"31373594835975"), ($"e+175"), 175. assert (D : forall s, forallb digitb s = true -> s <> [] -> digits s) by
      (intros s H N; split; [exact N|]; rewrite forallb_forall in H; apply Forall_forall; intros c Hc; specialize (H c Hc); unfold digitb in H; unfold is_digit; lia).
    split; [reflexivity|]. split; [apply D; [reflexivity|discriminate]|]. split; [right; split; [reflexivity|apply D; [reflexivity|discriminate]]|]. split; [right; exists ($"+"), ($"175"); split; [reflexivity|]; split; [apply D; [reflexivity|discriminate]|]; left; split; [now right|reflexivity]|reflexivity].
  - apply nearest_between; vm_compute; reflexivity.
Qed.
Print Assumptions C62_shortest_refuted.
(** never more than 17 digits *)
Theorem C62_digits_partial : forall bits, finite bits -> 0 < bits mod 2 ^ 63 ->
  exists ds K, grisu2 bits = Ok (ds, K) /\ digits ds /\ hd 48 ds <> 48 /\ zlen ds <= 17 /\ nearest (bits mod 2 ^ 63) (inject_Z (dec_value ds) * power 10 K).
Proof. exact grisu2_digits. Qed.
Print Assumptions C62_digits_partial.

(** * C61 documents with doubles in JSON: no hypothesis on the printer any more *)
(** Missing: doubles between 2^63 and 2^80 with many digits (refuted), infinities and NaN; the hypotheses of C23 on the other values. *)
Theorem C61_json_doubles_partial : forall x d w0 r0, real_fp x -> wf_doc d -> is_scope_doc d -> all_vals (fun _ v => plain_value v) d -> json_names false d ->
  exists w' ops, write_events (json_save x) (json_clear w0) (events d) = Ok (w', ops) /\ valid_ops [] ops /\
  exists d', mdoc_of d' = json_denote false d /\
    forall F before rest, (length (spec_out ops) + 5 <= F)%nat ->
    exists r', run_block (read_events (json_read x F) (length (events d)) (json_clear r0)) (mkBlk before (spec_out ops ++ rest)) =
      Ok ((r', events d'), mkBlk (rev (spec_out ops) ++ before) rest).
Proof. exact json_doubles. Qed.
Print Assumptions C61_json_doubles_partial.
Theorem C61_json_doubles_conform_partial : forall x d w0, real_fp x -> wf_doc d -> is_scope_doc d ->
  all_vals (fun _ v => plain_value v /\ rfc_string v) d -> json_names false d -> rfc_names false d ->
  exists w' ops, write_events (json_save x) (json_clear w0) (events d) = Ok (w', ops) /\ js_value x false [] (spec_out ops) (json_denote false d).
Proof. exact json_doubles_conform. Qed.
Print Assumptions C61_json_doubles_conform_partial.
(** members of type float and double of objects stored as JSON *)
Theorem C61_object_doubles : forall x d, real_fp x -> moderate d -> printable x d.
Proof. exact moderate_printable. Qed.
Print Assumptions C61_object_doubles.
Theorem C61_real_fp : real_fp the_fp.
Proof. exact the_fp_real. Qed.
Print Assumptions C61_real_fp.
(** 30000000000000004096.0 is written as 30000000000000004000 and read as the integer 11553255926290452384 *)
Theorem C61_large_doubles_refuted : exists d w ops es r b, finite d /\
  write_events (json_save the_fp) (json_init true) (events (DScope [] TArray [DVal [] (val_f64 d)])) = Ok (w, ops) /\
  run_block (read_events (json_read the_fp 100) 3 (json_init true)) (set_block (spec_out ops)) = Ok ((r, es), b) /\
  map (fun e => meaning_of (snd e)) es = [MeArr; MeInt 11553255926290452384; MeEnd] /\
  f64_scaled d = 30000000000000004096 * fp_unit.
Proof.
  exists 4898233414074358657. eexists _, _, _, _, _. split; [split; [lia|vm_compute; reflexivity]|].
  split; [vm_compute; reflexivity|]. split; [vm_compute; reflexivity|]. split; [reflexivity|]. vm_compute; reflexivity.
Qed.
Print Assumptions C61_large_doubles_refuted.
Definition ex_doubles : doc := DScope [] TObject [DVal ($"pi") (val_f64 4614253070214989087); DVal ($"tiny") (val_f64 1); DVal ($"big") (val_f64 5803729174622436191);
  DVal ($"whole") (val_f64 4629700416936869888)].
Example C61_ex_applies : wf_doc ex_doubles /\ is_scope_doc ex_doubles /\ all_vals (fun _ v => plain_value v) ex_doubles /\ json_names false ex_doubles.
Proof.
  assert (H : doc_check (fun _ v => match meaning_of v with MeFloat d => (0 <=? d) && (d <? 2 ^ 63) && (d <? 2047 * 2 ^ 52) && ((d <? 1086 * 2 ^ 52) || (1103 * 2 ^ 52 <=? d)) | _ => false end) ex_doubles = true) by (vm_compute; reflexivity).
  apply doc_check_spec in H. destruct H as [H1 H2]. split; [exact H1|]. split; [exact I|]. split.
  - assert (M : forall d, 0 <= d < 2 ^ 63 -> d < 2047 * 2 ^ 52 -> (Z.abs (f64_scaled d) <? 2 ^ 63 * fp_unit) || (2 ^ 80 * fp_unit <=? Z.abs (f64_scaled d)) = true -> moderate d).
    { intros d B F M. split; [split; [lia|rewrite Z.mod_small; lia]|lia]. }
    assert (V : forall d, meaning_of (val_f64 d) = MeFloat d -> moderate d -> plain_value (val_f64 d)) by (intros d E H; unfold plain_value; rewrite E; exact H).
    cbn [ex_doubles all_vals]. repeat match goal with |- _ /\ _ => split | |- True => exact I end; (apply V; [vm_compute; reflexivity|apply M; [lia|lia|vm_compute; reflexivity]]).
  - cbn [ex_doubles json_names]. assert (N : forall s, forallb (fun c => negb (c =? 34) && negb (c =? 92)) s = true -> json_name s).
    { intros s Hs. rewrite forallb_forall in Hs. split; intros I; specialize (Hs _ I); lia. }
    repeat match goal with |- _ /\ _ => split | |- True => exact I | |- _ = true -> _ => intros _ end; try (now apply N). 
Qed.
Example C61_ex : match write_events (json_save the_fp) (json_init true) (events ex_doubles) with
  | Ok (_, ops) => spec_out ops = $"{""pi"":3.14,""tiny"":5e-324,""big"":1e+80,""whole"":32}" | _ => False end.
Proof. vm_compute. reflexivity. Qed.
