(** JSON: the results in the form in which they are stated. *)
From Coq Require Import ZArith List Bool Lia ZifyBool ZifyNat.
From Verif Require Import Base Lemmas M_Types M_Conv M_Charset M_In S_Conv S_Doc S_Json S_JsonText S_Charset M_OutOps S_Out M_Event M_Env M_Json
  P_In P_Reads P_Safe P_Text P_Doc P_Scan P_Charset P_JsonStr P_JsonLit P_JsonDoc P_JsonText P_JsonGrammar.
Import ListNotations.
Open Scope Z_scope.

Lemma json_string_roundtrip s buf fuel before rest : (length s < fuel)%nat ->
  spec_out (write_escape s) = flat_map json_escape s /\
  exists buf', run_block (read_unescape fuel buf) (mkBlk before (spec_out (write_escape s) ++ 34 :: rest)) =
      Ok ((s, buf'), mkBlk (rev (spec_out (write_escape s)) ++ before) (34 :: rest)) /\
    exists str, run_stream (read_unescape fuel buf) (set_stream (spec_out (write_escape s) ++ 34 :: rest)) = Ok ((s, buf'), str).
Proof.
  intros F. rewrite writes_only_out by apply writes_only_escape. rewrite flat_write_escape, escaped_eq. split; [reflexivity|].
  destruct (rd_escaped true s fuel buf rest F) as (buf' & R). rewrite escaped_eq in R. exists buf'. split.
  - exact (rd_block _ _ _ _ _ R before).
  - exact (rd_stream _ _ _ _ R).
Qed.

Lemma json_roundtrip x d w0 r0 : wf_doc d -> is_scope_doc d -> all_vals (fun _ v => json_value x v) d -> json_names false d ->
  exists w' ops, write_events (json_save x) (json_clear w0) (events d) = Ok (w', ops) /\ valid_ops [] ops /\
  exists d', mdoc_of d' = json_denote false d /\
    forall F before rest, (length (spec_out ops) + 5 <= F)%nat ->
    exists r', run_block (read_events (json_read x F) (length (events d)) (json_clear r0)) (mkBlk before (spec_out ops ++ rest)) =
      Ok ((r', events d'), mkBlk (rev (spec_out ops) ++ before) rest).
Proof.
  intros W S A N. assert (J : json_doc x d) by (repeat split; auto).
  destruct (json_written x d w0 J) as (w' & ops & E & Wo & O). exists w', ops. split; [exact E|]. split; [now apply writes_only_valid|].
  exists (doc_norm json_norm_v false d). split; [now apply (json_norm_denote x)|].
  intros F before rest L. rewrite O in *.
  destruct (json_read_back false x d (j_compact w0) r0 F rest J ltac:(discriminate) L) as (r' & R & _).
  exists r'. exact (rd_block _ _ _ _ _ R before).
Qed.

Lemma json_stream_roundtrip x d w0 r0 w' ops : wf_doc d -> is_scope_doc d -> all_vals (fun _ v => json_value x v) d -> json_names false d ->
  (j_compact w0 = true \/ (depth d <= 150)%nat) -> write_events (json_save x) (json_clear w0) (events d) = Ok (w', ops) ->
  exists d', mdoc_of d' = json_denote false d /\
    forall F rest, (length (spec_out ops) + 5 <= F)%nat ->
    exists r' s, run_stream (read_events (json_read x F) (length (events d)) (json_clear r0)) (set_stream (spec_out ops ++ rest)) =
      Ok ((r', events d'), s).
Proof.
  intros W S A N C E. assert (J : json_doc x d) by (repeat split; auto).
  destruct (json_written x d w0 J) as (w2 & ops2 & E2 & Wo & O). rewrite E in E2. injection E2 as <- <-.
  exists (doc_norm json_norm_v false d). split; [now apply (json_norm_denote x)|].
  intros F rest L. rewrite O in *.
  destruct (json_read_back true x d (j_compact w0) r0 F rest J (fun _ => C) L) as (r' & R & _).
  destruct (rd_stream _ _ _ _ R) as (s & Es). eauto.
Qed.

Lemma json_output_layout x d w0 : wf_doc d -> is_scope_doc d -> all_vals (fun _ v => json_value x v) d -> json_names false d ->
  exists w' ops, write_events (json_save x) (json_clear w0) (events d) = Ok (w', ops) /\ spec_out ops = render (j_compact w0) x false 0 d.
Proof.
  intros W S A N. assert (J : json_doc x d) by (repeat split; auto).
  destruct (json_written x d w0 J) as (w' & ops & E & Wo & O). exists w', ops. split; [exact E|]. rewrite O. now apply json_layout.
Qed.

Lemma json_output_conforms x d w0 : wf_doc d -> is_scope_doc d -> all_vals (fun _ v => json_value x v /\ rfc_value x v) d ->
  json_names false d -> rfc_names false d ->
  exists w' ops, write_events (json_save x) (json_clear w0) (events d) = Ok (w', ops) /\
    js_value x false [] (spec_out ops) (json_denote false d).
Proof.
  intros W S A N R.
  assert (A1 : all_vals (fun _ v => json_value x v) d) by (eapply all_vals_impl; [|exact A]; cbn; tauto).
  destruct (json_output_layout x d w0 W S A1 N) as (w' & ops & E & O). exists w', ops. split; [exact E|]. rewrite O.
  destruct (render_json x (j_compact w0) d W A false 0%nat N R) as (kt & bt & nm & Er & K & V). rewrite Er. inversion K; subst. exact V.
Qed.

(** \uXXXX: the code point is built with its two bytes exchanged *)
Lemma some2 (a b p q : Z) : Some [a; b] = Some [p; q] -> a = p /\ b = q.
Proof. intros H. injection H. auto. Qed.
Lemma hex4_bytes h a b : length h = 4%nat -> hex_ref h = Some [a; b] -> 0 <= a < 256 /\ 0 <= b < 256.
Proof.
  intros L H. do 5 (destruct h as [|? h]; try discriminate). cbn [hex_ref] in H.
  repeat match type of H with context [hex_digit ?c] => destruct (hex_digit c) eqn:?; try discriminate end. apply some2 in H. destruct H as [<- <-].
  repeat match goal with E : hex_digit _ = Some _ |- _ => apply hex_digit_range in E end. lia.
Qed.
Lemma json_unicode_swapped h a b buf fuel before rest : length h = 4%nat -> hex_ref h = Some [a; b] -> scalar (256 * b + a) -> (1 < fuel)%nat ->
  exists buf', run_block (read_unescape fuel buf) (mkBlk before (92 :: 117 :: h ++ 34 :: rest)) =
    Ok ((utf8 (256 * b + a), buf'), mkBlk (rev (92 :: 117 :: h) ++ before) (34 :: rest)).
Proof.
  intros L H Sc F. destruct (hex4_bytes h a b L H) as [Ha Hb]. do 2 (destruct fuel as [|fuel]; [lia|]). unfold read_unescape.
  set (grow := zlen buf <? 0 + 1). set (bsz := if grow then zlen buf + (0 + 10) else zlen buf). set (buf1 := if grow then resize buf bsz else buf).
  destruct (convert_text EUTF8 EUTF16 [256 * b + a] buf1 true) as (buf' & C & Cf); [discriminate|discriminate|constructor; [exact Sc|constructor]|].
  assert (T : text EUTF16 [256 * b + a] = [a; b]).
  { unfold text, encode, utf16le. cbn [flat_map]. replace (256 * b + a <? 65536) with true by lia. cbn [le app]. f_equal; [|f_equal]; Z.to_euclidean_division_equations; lia. }
  assert (T8 : text EUTF8 [256 * b + a] = utf8 (256 * b + a)) by (unfold text; cbn [flat_map]; apply app_nil_r). rewrite T, T8 in C. rewrite T8 in Cf.
  exists buf'. rewrite run_block_bind.
  assert (R : run_block (read_substitute (S (S fuel)) 34 buf (zlen buf) 0) (mkBlk before (92 :: 117 :: h ++ 34 :: rest)) =
    Ok ((0 + zlen (utf8 (256 * b + a)), buf'), mkBlk (rev (92 :: 117 :: h) ++ before) (34 :: rest))).
  { assert (Z1 : zlen (92 :: 117 :: h ++ 34 :: rest) = 7 + zlen rest) by (unfold zlen; cbn [length]; rewrite app_length; cbn [length]; lia).
    pose proof (zlen_nonneg rest).
    remember (S fuel) as f1 eqn:Ef. cbn [read_substitute run_block b_rest nth_error]. rewrite !Z1. change (two63 <=? 0) with false. cbv iota.
    replace (0 <=? 7 + zlen rest) with true by lia. change (92 =? 34) with false. cbn [run_block b_rest]. rewrite Z1. replace (2 <=? 7 + zlen rest) with true by lia. cbv iota.
    fold grow. fold bsz. fold buf1. cbv iota. rewrite run_block_bind.
    assert (U : run_block (substitute_token buf1 0 2) (mkBlk before (92 :: 117 :: h ++ 34 :: rest)) = Ok ((zlen (utf8 (256 * b + a)), buf'), mkBlk (rev (92 :: 117 :: h) ++ before) (34 :: rest))).
    { unfold substitute_token. change (2 <=? 2) with true. cbn [run_block b_rest nth_error]. change (92 =? 92) with true. cbv iota.
      change (substitute_of 117) with (@None Z). cbv iota. change (117 =? 117) with true. cbv iota. unfold uc_literal. rewrite run_block_bind, run_read_block.
      cbn [b_rest b_done]. rewrite Z1. change (two63 <=? 6) with false. cbv iota. replace (6 <=? 7 + zlen rest) with true by lia.
      change (Z.to_nat 6) with 6%nat. cbn [firstn skipn rbind]. 
      destruct h as [|h1 [|h2 [|h3 [|h4 [|]]]]]; try discriminate. cbn [app firstn skipn].
      rewrite hex_to_bytes_dest_ref, H. cbn [length Nat.div Nat.divmod fst Nat.sub Nat.leb lift pbind run_block rbind]. rewrite C. reflexivity. }
    rewrite U. cbn [rbind]. subst f1. cbn [read_substitute run_block b_rest nth_error].
    change (two63 <=? 0) with false. cbv iota. replace (0 <=? zlen (34 :: rest)) with true by (pose proof (zlen_nonneg (34 :: rest)); lia).
    change (34 =? 34) with true. reflexivity. }
  rewrite R. cbn [rbind run_block]. rewrite Z.add_0_l. unfold zlen. rewrite Nat2Z.id, Cf. reflexivity.
Qed.

Lemma json_concat x d1 d2 w0 r0 F : wf_doc d1 -> is_scope_doc d1 -> all_vals (fun _ v => json_value x v) d1 -> json_names false d1 ->
  wf_doc d2 -> is_scope_doc d2 -> all_vals (fun _ v => json_value x v) d2 -> json_names false d2 ->
  (forall w o, (exists d, (d = d1 \/ d = d2) /\ write_events (json_save x) (json_clear w0) (events d) = Ok (w, o)) -> (length (spec_out o) + 5 <= F)%nat) ->
  exists w1 o1 w2 o2 d1' d2' s1 s2 b1 b2,
    write_events (json_save x) (json_clear w0) (events d1) = Ok (w1, o1) /\ write_events (json_save x) (json_clear w0) (events d2) = Ok (w2, o2) /\
    run_block (read_events (json_read x F) (length (events d1)) (json_clear r0)) (set_block (spec_out o1 ++ spec_out o2)) = Ok ((s1, events d1'), b1) /\
    run_block (read_events (json_read x F) (length (events d2)) (json_clear s1)) b1 = Ok ((s2, events d2'), b2) /\
    mdoc_of d1' = json_denote false d1 /\ mdoc_of d2' = json_denote false d2 /\ b_rest b2 = [].
Proof.
  intros. destruct (json_roundtrip x d1 w0 r0) as (w1 & o1 & E1 & _ & d1' & M1 & R1); auto.
  destruct (json_roundtrip x d2 w0 r0) as (w2 & o2 & E2 & _ & _); auto.
  destruct (R1 F [] (spec_out o2)) as (s1 & Q1); [eauto|].
  destruct (json_roundtrip x d2 w0 s1) as (w2' & o2' & E2' & _ & d2' & M2 & R2); auto. rewrite E2 in E2'. injection E2' as <- <-.
  destruct (R2 F (rev (spec_out o1) ++ []) []) as (s2 & Q2); [eauto|]. rewrite (app_nil_r (spec_out o2)) in Q2.
  exists w1, o1, w2, o2, d1', d2', s1, s2. eexists _, _. split; [exact E1|]. split; [exact E2|]. split; [exact Q1|]. split; [exact Q2|]. auto.
Qed.
