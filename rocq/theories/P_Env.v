(** What Environment::write makes of a value before the parser sees it. *)
From Coq Require Import ZArith List Bool Lia ZifyBool ZifyNat.
From Verif Require Import Base Lemmas M_Types M_Conv M_Charset S_Charset S_Conv S_Doc S_Json S_JsonText M_Env P_Conv P_Charset P_Doc P_JsonLit P_JsonDoc P_JsonText P_TreeOps.
Import ListNotations.
Open Scope Z_scope.

Lemma to_utf8_id data : to_utf8 data EUTF8 = Ok data.
Proof.
  unfold to_utf8, conv_charset. destruct data as [|c r] eqn:E; [reflexivity|]. rewrite <- E. cbn [enc_eqb enc_num Z.eqb Pos.eqb].
  replace (zlen (@nil Z) <? zlen data + 0) with true by (unfold zlen; subst; cbn [length]; lia). rewrite Z.add_0_r.
  assert (S : store (resize [] (zlen data)) 0 data = Ok data).
  { assert (L : length (resize [] (zlen data)) = length data). { unfold resize. rewrite firstn_nil. cbn [app length]. rewrite repeat_length. unfold zlen. lia. }
    revert L. generalize (resize [] (zlen data)). intros buf L. unfold store. rewrite E at 1.
    replace (0 + zlen data <=? zlen buf) with true by (unfold zlen; lia). cbn [Z.to_nat firstn Nat.add app]. rewrite skipn_all2 by lia. now rewrite app_nil_r. }
  rewrite S. cbn [rbind]. replace (Z.to_nat (zlen data)) with (length data) by (unfold zlen; lia). now rewrite firstn_all.
Qed.
Lemma to_utf8_bad e data : e <> EUnknown -> e <> EUTF8 -> wf_bytes data -> (forall cs, Forall scalar cs -> data <> text e cs) -> to_utf8 data e = Err.
Proof.
  intros K N W H. unfold to_utf8. pose proof (convert_rejects EUTF8 e data [] true ltac:(discriminate) K ltac:(congruence) W H) as E. cbn in E. now rewrite E.
Qed.

(** a string on its way to any format: its text in UTF-8 or an exception; what is UTF-8 already is not checked *)
Lemma env_string text_format x v : v_type v = TString -> wf_value v -> v_enc v <> EUnknown ->
  (v_enc v = EUTF8 -> exists v', env_value text_format x v = Ok v' /\ v_type v' = TString /\ v_data v' = v_data v) /\
  (forall cs, Forall scalar cs -> v_data v = text (v_enc v) cs -> zlen (text EUTF8 cs) < 2 ^ 32 ->
     exists v', env_value text_format x v = Ok v' /\ v_type v' = TString /\ v_data v' = text EUTF8 cs) /\
  (v_enc v <> EUTF8 -> (forall cs, Forall scalar cs -> v_data v <> text (v_enc v) cs) -> env_value text_format x v = Err).
Proof.
  intros T W K. unfold wf_value in W. rewrite T in W. destruct W as [Wb Wl].
  assert (E : env_value text_format x v = if negb text_format && enc_eqb (v_enc v) EUTF8 then Ok v else
     let* d := to_utf8 (v_data v) (v_enc v) in Ok (val_block d TString)).
  { unfold env_value, conv_type. rewrite T. cbn [is_scope ty_eqb ty_num Z.eqb Pos.eqb orb andb negb]. rewrite orb_false_r. reflexivity. }
  rewrite E. split; [|split].
  - intros U. rewrite U. destruct text_format; cbn [negb andb enc_eqb enc_num Z.eqb Pos.eqb]; [|eauto]. rewrite to_utf8_id. cbn [rbind]. eexists. split; [reflexivity|].
    split; [reflexivity|]. cbn [val_block v_data]. apply trunc_block_id. unfold_words. lia.
  - intros cs F D L. destruct (negb text_format && enc_eqb (v_enc v) EUTF8) eqn:C.
    + exists v. split; [reflexivity|]. split; [exact T|]. destruct (v_enc v) eqn:N; cbn in C; try (rewrite andb_false_r in C; discriminate). exact D.
    + rewrite D, to_utf8_text by auto. cbn [rbind]. eexists. split; [reflexivity|]. split; [reflexivity|]. cbn [val_block v_data]. apply trunc_block_id. unfold_words. lia.
  - intros N H. replace (negb text_format && enc_eqb (v_enc v) EUTF8) with false by (destruct (v_enc v); cbn; try rewrite andb_false_r; congruence).
    now rewrite to_utf8_bad.
Qed.
Lemma env_unknown x v : v_type v = TString -> v_enc v = EUnknown -> v_data v <> [] -> forall text_format, env_value text_format x v = Err.
Proof.
  intros T U N text_format. unfold env_value, conv_type. rewrite T, U. cbn [is_scope ty_eqb ty_num Z.eqb Pos.eqb orb andb negb enc_eqb enc_num].
  rewrite andb_false_r. cbn [orb]. unfold to_utf8, conv_charset. destruct (v_data v); [congruence|]. reflexivity.
Qed.
(** everything else, for a text format *)
Lemma env_binary x v : v_type v = TBinary -> wf_value v -> zlen (v_data v) < 3 * 2 ^ 30 - 3 ->
  exists v', env_value true x v = Ok v' /\ v_type v' = TBinary /\ v_data v' = b64_text (v_data v) /\ b64_ref (v_data v') = Some (v_data v).
Proof.
  intros T W L. unfold wf_value in W. rewrite T in W. destruct W as [Wb _]. unfold env_value, conv_type. rewrite T.
  cbn [is_scope ty_eqb ty_num Z.eqb Pos.eqb orb andb negb is_scalar rbind]. eexists. split; [reflexivity|]. split; [reflexivity|]. cbn [val_block v_data].
  rewrite b64_text_eq by exact Wb. rewrite trunc_block_id by (rewrite b64_text_len; unfold_words; Z.to_euclidean_division_equations; lia). split; [reflexivity|].
  rewrite <- b64_text_eq by exact Wb. now apply base64_encode_wellformed.
Qed.
Lemma env_scalar x v : is_scalar (v_type v) = true -> wf_value v -> json_value x v ->
  exists v', env_value true x v = Ok v' /\ v_type v' = v_type v /\ v_data v' = value_text x (meaning_of v).
Proof.
  intros Sc W J. destruct (lit_spec x v W J Sc) as (t & [P _ _ Ln _]). pose proof (vtext_value x TNull v W J) as V. unfold vtext in V.
  assert (E : env_value true x v = Ok (val_block t (v_type v))).
  { unfold env_value, conv_type. rewrite P. destruct (v_type v); try discriminate Sc; reflexivity. }
  rewrite E. eexists. split; [reflexivity|]. split; [reflexivity|]. cbn [val_block v_data]. rewrite trunc_block_id by (unfold_words; lia). rewrite P in V.
  destruct (v_type v); try discriminate Sc; exact V.
Qed.
Lemma env_other x v text_format : (is_scope (v_type v) = true \/ v_type v = TScopeEnd) \/ (text_format = false /\ v_type v <> TString) ->
  env_value text_format x v = Ok v.
Proof. unfold env_value. intros [[H|H]|[-> H]]; [rewrite H; reflexivity|rewrite H; reflexivity|]. destruct (v_type v); try reflexivity. congruence. Qed.
