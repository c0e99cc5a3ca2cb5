(** Storing objects in one of the formats and restoring them from the bytes. *)
From Coq Require Import ZArith List Bool Lia ZifyBool ZifyNat.
From Verif Require Import Base Lemmas M_Types M_Conv M_TpTools M_Charset M_In S_Conv S_Charset S_Doc M_OutOps S_Out M_Env M_Event S_PSrl M_PSrl S_MsgPack M_MsgPack S_Json M_Json
  M_Heap M_Out S_OutJobs M_Tree S_Tree M_TreeIO S_TreeIO M_Object S_Object S_Chars S_ObjStore M_ObjIO S_ObjIO P_In P_Reads P_Safe P_Conv P_Float P_FloatInt P_Paste P_Doc P_Text P_Charset P_PSrlDoc P_PSrlMain
  P_MsgPack P_MsgPackDoc P_MsgPackMain P_Scan P_JsonLit P_JsonDoc P_JsonMain P_Out P_Tree P_TreeOps P_TreeIO P_ObjEager P_ObjLazy P_Chars P_ObjStore.
Import ListNotations.
Open Scope Z_scope.

(** what a format delivers for a value *)
Definition brought (x : fp_text) (p : parser) (sv v' : value) : Prop := exists u, same_text sv u /\ wf_value u /\ vcarries x p u /\ v' = norm_of p u.

Lemma norm_int p t n : is_int_ty t = true -> in_range t n -> exists s, int_or_bool s /\ is_int_ty s = true /\ in_range s n /\ norm_of p (val_int t n) = val_int s n.
Proof.
  intros It R. destruct (int_value_of (val_int t n) n It R eq_refl) as [E B].
  assert (S64 : forall (b : bool), b = (n <? 0) -> exists s, int_or_bool s /\ is_int_ty s = true /\ in_range s n /\ (if b then val_int TI64 n else val_int TUI64 n) = val_int s n).
  { intros b ->. destruct (n <? 0) eqn:N; [exists TI64|exists TUI64]; (split; [unfold int_or_bool; cbn; tauto|]); (split; [reflexivity|]); (split; [|reflexivity]); unfold in_range; cbn [int_min int_max]; unfold_words; lia. }
  destruct p as [st|st|st]; cbn [norm_of].
  - destruct (S64 _ eq_refl) as (s & A). exists s. unfold psrl_norm_v. change (v_type (val_int t n)) with t. destruct t; try discriminate It; rewrite E; exact A.
  - unfold mp_norm_v. change (v_type (val_int t n)) with t.
    assert (Q : forall c : bool, (c = true -> -31 <= n <= 127) -> exists s, int_or_bool s /\ is_int_ty s = true /\ in_range s n /\ (if c then val_int TI32 n else val_int t n) = val_int s n).
    { intros [|] H; [exists TI32|exists t]; (split; [unfold int_or_bool; destruct t; try discriminate It; cbn; tauto|]); (split; [first [exact It|reflexivity]|]); (split; [|reflexivity]); [|exact R].
      specialize (H eq_refl). unfold in_range. cbn [int_min int_max]. unfold_words. lia. }
    destruct t; try discriminate It; rewrite E; apply Q; cbn [is_signed]; lia.
  - unfold json_norm_v. rewrite meaning_int_ty by exact It. rewrite E. destruct (S64 _ eq_refl) as (s & A). exists s. destruct (n <? 0); exact A.
Qed.
Lemma brought_int x p t n v' : is_int_ty t = true -> in_range t n -> brought x p (val_int t n) v' -> exists s, int_or_bool s /\ is_int_ty s = true /\ in_range s n /\ v' = val_int s n.
Proof.
  intros It R (u & T & _ & _ & ->). apply conv_not_string in T; [subst u|]; [|intros H; cbn in H; subst t; discriminate]. now apply norm_int.
Qed.
Lemma paste_number_solid x t v : v_type v <> TString -> paste_number x t v = paste_num x t v.
Proof. intros N. unfold paste_number. replace (ty_eqb (v_type v) TString) with false; [reflexivity|]. destruct (v_type v); congruence || reflexivity. Qed.
Lemma paste_back x s t n : int_or_bool s -> int_or_bool t -> in_range s n -> in_range t n -> paste_number x t (val_int s n) = Ok n.
Proof.
  intros S T Rs Rt. rewrite paste_number_solid; [now apply paste_int|]. cbn. unfold int_or_bool in S. intros ->. cbn in S. intuition discriminate.
Qed.
Lemma val_f64_keeps p n : 0 <= n < two64 -> is_json p = false -> norm_of p (val_f64 n) = val_f64 n.
Proof.
  intros R J. unfold val_f64. destruct (narrow64 n) as [f|] eqn:E; destruct p; try discriminate J; cbn; try reflexivity; unfold val_f64, psrl_norm_v, mp_norm_v; cbn [v_type v_raw]; unfold val_f64; now rewrite E.
Qed.
Lemma apply_whole x n : - two63 <= n < two64 ->
  paste_number x TFP64 (val_int (if n <? 0 then TI64 else TUI64) n) = Ok (f64_of_int n) /\
  paste_number x TFP32 (val_int (if n <? 0 then TI64 else TUI64) n) = Ok (f32_of_int n).
Proof.
  intros B. rewrite !paste_number_solid by (destruct (n <? 0); discriminate). destruct (n <? 0) eqn:N; unfold paste_num; cbn [v_type val_int ty_eqb ty_num Z.eqb Pos.eqb is_scalar negb andb orb];
    unfold apply_or_throw, apply_type; cbn [v_type val_int].
  - change (mkValue TI64 (u64 n) [] EUnknown) with (val_int TI64 n). rewrite v_i64_val_int by (unfold_words; lia). split; reflexivity.
  - change (mkValue TUI64 (u64 n) [] EUnknown) with (val_int TUI64 n). rewrite raw_val_int by (unfold_words; lia). split; reflexivity.
Qed.
Lemma paste_f64 x n : 0 <= n < two64 -> paste_number x TFP64 (val_f64 n) = Ok n.
Proof.
  intros R. pose proof (val_f64_roundtrip n R) as D. assert (T : v_type (val_f64 n) = TFP32 \/ v_type (val_f64 n) = TFP64) by (unfold val_f64; destruct (narrow64 n); auto).
  rewrite paste_number_solid by (destruct T as [T|T]; rewrite T; discriminate). unfold paste_num, apply_or_throw, apply_type, fp_cast. rewrite D.
  destruct T as [T|T]; rewrite T; reflexivity.
Qed.
Lemma paste_f32 x n : 0 <= n < two32 -> paste_number x TFP32 (mkValue TFP32 n [] EUnknown) = Ok n.
Proof. intros R. unfold paste_number, paste_num. cbn. unfold v_fp32. cbn. now rewrite Z.mod_small. Qed.
Lemma v_double_f32 n : 0 <= n < two32 -> v_double (val_f32 n) = f32_to_f64 n.
Proof. intros R. unfold v_double, v_fp32. cbn. now rewrite Z.mod_small. Qed.

(** numbers *)
Lemma brought_num x p t n v' : cpp_value (is_json p) (CNum t) (VNum n) -> brought x p (num_value t n) v' -> paste_number x t v' = Ok n.
Proof.
  intros C B. destruct (is_int_ty t) eqn:It.
  - assert (R : in_range t n) by (unfold in_range; destruct t; try discriminate It; exact C).
    assert (E : num_value t n = val_int t n) by (destruct t; try discriminate It; reflexivity). rewrite E in B.
    destruct (brought_int _ _ _ _ _ It R B) as (s & S1 & S2 & S3 & ->). apply paste_back; auto. unfold int_or_bool. destruct t; try discriminate It; cbn; tauto.
  - destruct B as (u & T & W & VC & ->). destruct t; try discriminate It; cbn [cpp_value] in C; try contradiction; cbn [num_value] in T.
    + apply conv_not_string in T; [subst u|discriminate]. assert (E : norm_of p (val_int TBool n) = val_int TBool n) by (destruct C as [-> | ->]; destruct p; reflexivity).
      rewrite E. apply paste_back; try (unfold int_or_bool; cbn; tauto); unfold in_range; cbn; lia.
    + destruct C as [R NN]. apply conv_not_string in T; [subst u|discriminate]. destruct p as [st|st|st]; cbn [norm_of is_json] in *.
      * unfold psrl_norm_v. cbn [v_type val_f32 v_raw]. apply paste_f32. unfold_words. lia.
      * unfold mp_norm_v. cbn [v_type val_f32 v_raw]. apply paste_f32. unfold_words. lia.
      * destruct (NN eq_refl) as [N1 N2]. unfold json_norm_v, meaning_of. cbn [v_type val_f32]. change (mkValue TFP32 n [] EUnknown) with (val_f32 n). rewrite v_double_f32 by (unfold_words; lia).
        destruct (whole (f32_to_f64 n)) as [k|] eqn:Wh.
        -- pose proof (whole_range _ _ Wh). destruct (apply_whole x k ltac:(unfold_words; lia)) as [_ ->]. f_equal. apply f32_whole; auto; unfold_words; lia.
        -- unfold val_f64. rewrite narrow64_complete by (auto; unfold_words; lia). apply paste_f32. unfold_words. lia.
    + destruct C as [R NN]. apply conv_not_string in T; [subst u|unfold val_f64; destruct (narrow64 n); discriminate]. destruct (is_json p) eqn:J.
      * destruct p as [st|st|st]; try discriminate J. cbn [norm_of]. specialize (NN eq_refl). unfold json_norm_v. assert (M : meaning_of (val_f64 n) = MeFloat n).
        { pose proof (val_f64_roundtrip n ltac:(unfold_words; lia)) as D. unfold meaning_of. rewrite D. unfold val_f64. destruct (narrow64 n); reflexivity. }
        rewrite M. destruct (whole n) as [k|] eqn:Wh.
        -- pose proof (whole_range _ _ Wh). destruct (apply_whole x k ltac:(unfold_words; lia)) as [-> _]. f_equal. apply f64_whole; auto; unfold_words; lia.
        -- apply paste_f64. unfold_words. lia.
      * rewrite val_f64_keeps by (auto; unfold_words; lia). apply paste_f64. unfold_words. lia.
Qed.

(** text and blocks *)
Lemma norm_text p u : wf_value u -> v_type u = TString -> v_type (norm_of p u) = TString /\ v_data (norm_of p u) = v_data u /\ v_enc (norm_of p u) = EUTF8.
Proof.
  intros W T. assert (L : zlen (v_data u) < two32) by (unfold wf_value in W; rewrite T in W; unfold_words; lia). destruct p as [st|st|st]; cbn [norm_of].
  - unfold psrl_norm_v. rewrite T. cbn. now rewrite trunc_block_id.
  - unfold mp_norm_v. rewrite T. cbn. now rewrite trunc_block_id.
  - unfold json_norm_v, meaning_of. rewrite T. cbn. now rewrite trunc_block_id.
Qed.
Lemma encode_unit e c : known e -> zlen (encode e c) mod unit_size e = 0.
Proof.
  intros K. destruct e; [now destruct K| | |]; cbn [unit_size encode].
  - apply Z.mod_1_r.
  - unfold utf16le. repeat match goal with |- context [if ?b then _ else _] => destruct b end; reflexivity.
  - reflexivity.
Qed.
Lemma text_unit e cs : known e -> zlen (text e cs) mod unit_size e = 0.
Proof.
  intros K. assert (U : 0 < unit_size e) by (destruct e; cbn; lia). induction cs as [|c cs IH]; [apply Z.mod_0_l; lia|]. cbn [text flat_map]. change (flat_map (encode e) cs) with (text e cs).
  rewrite zlen_app, Z.add_mod, (encode_unit e c K), IH by lia. reflexivity.
Qed.
Lemma firstn_units e (s : bytes) : zlen s mod unit_size e = 0 -> firstn (Z.to_nat (zlen s / unit_size e * unit_size e)) s = s.
Proof.
  intros U. assert (P : 0 < unit_size e) by (destruct e; cbn; lia). pose proof (Z.div_mod (zlen s) (unit_size e) ltac:(lia)). apply firstn_all2. unfold zlen in *. lia.
Qed.
Lemma brought_text x p e s v' : zlen s < 2 ^ 32 -> brought x p (val_string s e) v' ->
  v_type v' = TString /\ v_enc v' = EUTF8 /\ ((e = EUTF8 /\ v_data v' = s) \/ exists cs, e <> EUTF8 /\ known e /\ Forall scalar cs /\ s = text e cs /\ v_data v' = text EUTF8 cs).
Proof.
  intros L (u & T & W & _ & ->). assert (E : v_data (val_string s e) = s) by (cbn; apply trunc_block_id; unfold_words; lia).
  inversion T as [? H|? cs H1 H2 H3 H4 H5 H6]; subst.
  - destruct (norm_text p _ W eq_refl) as (N1 & N2 & N3). rewrite N1, N2, N3, E. split; [reflexivity|]. split; [reflexivity|]. left. split; [now apply H|reflexivity].
  - destruct (norm_text p _ W eq_refl) as (N1 & N2 & N3). rewrite N1, N2, N3. split; [reflexivity|]. split; [reflexivity|]. right. exists cs. rewrite E in H5.
    split; [exact H3|]. split; [exact H2|]. split; [exact H4|]. split; [exact H5|]. cbn. apply trunc_block_id. unfold_words. lia.
Qed.
Lemma eqb_utf8 e : enc_eqb EUTF8 e = true <-> e = EUTF8.
Proof. destruct e; cbn; split; congruence. Qed.
Lemma paste_text x p w e s v' old : zlen s < 2 ^ 32 -> brought x p (val_string s e) v' -> paste_value w (CStr e) old v' = Ok (VStr s).
Proof.
  intros L B. destruct (brought_text _ _ _ _ _ L B) as (T & E & C). cbn [paste_value]. rewrite T, E. cbn [ty_eqb ty_num Z.eqb Pos.eqb]. unfold unwrap_text. destruct C as [[-> D]|(cs & N & K & F & -> & D)]; rewrite D.
  - cbn [enc_eqb enc_num Z.eqb Pos.eqb rbind]. rewrite firstn_units by apply Z.mod_1_r. reflexivity.
  - replace (enc_eqb EUTF8 e) with false by (symmetry; apply not_true_iff_false; rewrite eqb_utf8; exact N). rewrite convert_vec by (auto; discriminate). cbn [rbind].
    rewrite firstn_units by now apply text_unit. reflexivity.
Qed.
Lemma paste_character x p e s v' : zlen s = unit_size e -> brought x p (val_string s e) v' -> paste_char e v' = Ok s.
Proof.
  intros L B. assert (L' : zlen s < 2 ^ 32) by (rewrite L; destruct e; reflexivity). destruct (brought_text _ _ _ _ _ L' B) as (T & E & C). unfold paste_char. rewrite T, E. cbn [ty_eqb ty_num Z.eqb Pos.eqb negb andb].
  destruct C as [[-> D]|(cs & N & K & F & -> & D)]; rewrite D.
  - cbn [enc_eqb enc_num Z.eqb Pos.eqb rbind]. now rewrite L, Z.eqb_refl.
  - replace (enc_eqb EUTF8 e) with false by (symmetry; apply not_true_iff_false; rewrite eqb_utf8; exact N). rewrite convert_vec by (auto; discriminate). cbn [rbind]. now rewrite L, Z.eqb_refl.
Qed.
Lemma base64_empty s d : base64_to_bytes s = Ok d -> get_base64_decoded_size s = 0%nat -> d = [].
Proof. unfold base64_to_bytes, base64_to_bytes_dest. intros H E. rewrite E in H. destruct (_ && _); [discriminate|]. cbn in H. now inversion H. Qed.
Lemma paste_bits x p w s v' old : zlen s < 2 ^ 32 -> brought x p (val_block s TBinary) v' -> paste_value w CBits old v' = Ok (VStr s).
Proof.
  intros L (u & T & W & VC & ->). apply conv_not_string in T; [subst u|discriminate]. assert (E : trunc_block s = s) by (apply trunc_block_id; unfold_words; lia).
  unfold wf_value in W. cbn [v_type val_block v_data] in W. rewrite E in W. destruct W as [W _].
  destruct p as [st|st|st]; cbn [norm_of vcarries] in *; unfold psrl_norm_v, mp_norm_v, json_norm_v, meaning_of; cbn [v_type val_block v_data val_block_enc paste_value val_string].
  - now rewrite !E.
  - now rewrite !E.
  - unfold json_value, meaning_of in VC. cbn [v_type val_block v_data] in VC. rewrite E in *. rewrite trunc_block_id.
    + rewrite <- b64_text_eq by exact W. destruct (Nat.eqb _ 0) eqn:N; [|now rewrite base64_roundtrip by exact W].
      apply Nat.eqb_eq in N. now rewrite (base64_empty _ _ (base64_roundtrip s W) N).
    + rewrite b64_text_len. unfold_words. Z.to_euclidean_division_equations. lia.
Qed.

(** * What the formats make of the values of an object *)
Section Leaves.
Variables (w : world) (p : parser).
Notation x := (w_fp w).
Lemma chars_leaf e n mem sv : cpp_value (is_json p) (CChars e n) (VStr mem) -> leaf_value (CChars e n) (VStr mem) = Some sv ->
  e = EUTF8 /\ exists s, padded n s mem /\ sv = val_string s EUTF8 /\ zlen s < 2 ^ 32.
Proof.
  intros C L. destruct e; try contradiction C. destruct C as (LN & s & P). split; [reflexivity|]. exists s. split; [exact P|]. cbn [leaf_value] in L. rewrite (wrap_text _ _ _ _ (padded_text _ _ _ P)) in L.
  injection L as <-. split; [reflexivity|]. destruct P as (_ & LS & _). lia.
Qed.
Lemma leaf_back : forall t v sv v' old, shape w t old -> cpp_value (is_json p) t v -> leaf_value t v = Some sv -> brought x p sv v' -> paste_value w t old v' = Ok v.
Proof.
  intros t v sv v' old SH C L B. destruct t as [t|e|e|e n| |c|e|e|k e|e|m e|a b|c|e|e|e|e|]; try discriminate L; destruct v as [z|s|vs|l|l| |y|a0|c0 vs]; try discriminate L.
  4: { destruct (chars_leaf _ _ _ _ C L) as (-> & s0 & P & -> & LS). inversion SH as [? ? X| | | | |]; subst; [contradiction|]. cbn [paste_value].
       destruct (brought_text x p EUTF8 s0 v' LS B) as (T & E & [[_ D]|(cs & N & _)]); [|now destruct N]. destruct P as (-> & L1 & NI).
       rewrite (paste_padded n s0 v') by (auto; pose proof (zlen_nonneg s0); lia). reflexivity. }
  all: injection L as <-.
  - cbn [paste_value]. now rewrite (brought_num _ _ _ _ _ C B).
  - now apply (paste_text x p).
  - cbn [paste_value]. now rewrite (paste_character x p _ _ _ C B).
  - now apply (paste_bits x p).
Qed.
Lemma leaf_solid : forall t v sv, cpp_value (is_json p) t v -> leaf_value t v = Some sv -> v_type sv <> TNull.
Proof.
  intros t v sv C L. destruct t as [t|e|e|e n| |c|e|e|k e|e|m e|a b|c|e|e|e|e|]; try discriminate L; destruct v as [z|s|vs|l|l| |y|a0|c0 vs]; try discriminate L.
  4: { destruct (chars_leaf _ _ _ _ C L) as (-> & s0 & P & -> & LS). discriminate. }
  all: injection L as <-; try discriminate.
  destruct t; cbn in C; try contradiction; cbn [num_value]; try discriminate. unfold val_f64. destruct (narrow64 z); discriminate.
Qed.
Lemma leaf_null : forall sv v', brought x p sv v' -> (v_type v' = TNull <-> v_type sv = TNull).
Proof.
  intros sv v' (u & T & W & VC & ->). assert (E : v_type u = v_type sv) by (destruct T as [|? ? T]; [reflexivity|now rewrite T]). rewrite <- E. clear E T sv.
  pose proof (norm_meaning x p u W VC) as M.
  assert (Q : forall v, meaning_of v = MeNull <-> v_type v = TNull) by (intros v; unfold meaning_of; destruct (v_type v); split; congruence). rewrite <- !Q, M. unfold hmean.
  destruct p; [tauto|tauto|]. unfold json_meaning. destruct (meaning_of u) as [| | |d| | | | |]; try (split; congruence). destruct (whole d); split; congruence.
Qed.
Lemma leaf_key : forall k v' old, 0 <= k < two64 -> brought x p (val_int TUI64 k) v' -> paste_value w (CNum TUI64) old v' = Ok (VNum k).
Proof.
  intros k v' old R B. cbn [paste_value]. assert (IR : in_range TUI64 k) by (unfold in_range; cbn [int_min int_max]; unfold_words; lia). destruct (brought_int _ _ TUI64 k v' eq_refl IR B) as (s & S1 & S2 & S3 & ->).
  rewrite paste_back by (auto; unfold int_or_bool; cbn; tauto). reflexivity.
Qed.
Lemma leaf_text : forall s v', cpp_value (is_json p) (CStr EUTF8) (VStr s) -> brought x p (val_string s EUTF8) v' -> v_type v' = TString /\ v_data v' = s /\ v_enc v' = EUTF8.
Proof. intros s v' C B. destruct (brought_text _ _ _ _ _ C B) as (T & E & [[_ D]|(cs & N & _)]); [auto|now destruct N]. Qed.
End Leaves.

(** * Documents *)
Lemma like_norm x p : forall d u, utf8_doc d u -> wf_doc u -> vcarry x p u -> forall nm, like (brought x p) nm d (doc_norm (norm_of p) nm u).
Proof.
  unfold vcarry. induction d as [k v|k t its IH] using doc_ind2; intros u U W C nm; inversion U as [? ? v' Sv|? ? ? its' F]; subst.
  - cbn [doc_norm wf_doc all_vals] in *. constructor; [now intros ->|]. exists v'. tauto.
  - cbn [doc_norm]. apply wf_doc_scope in W. destruct W as (_ & _ & W). cbn [all_vals] in C. constructor; [now intros ->|]. generalize (ty_eqb t TObject). intros b. clear U nm.
    revert IH W C. induction F as [|a b' l l' H1 F IHF]; intros IH W C; cbn [map]; [constructor|]. inversion IH; inversion W; subst. destruct C as [C1 C2]. constructor; auto.
Qed.
Lemma stored_same : forall d, Forall2 same_event (stored_events d) (events d).
Proof.
  induction d as [k v|k t its IH] using doc_ind2; [constructor; [now left|constructor]|]. cbn [stored_events events]. constructor; [now left|]. apply Forall2_app.
  - induction IH as [|a l H F IHl]; cbn [flat_map]; [constructor|]. now apply Forall2_app.
  - constructor; [|constructor]. right. split; reflexivity.
Qed.
Lemma norm_depth nv : forall d nm, depth (doc_norm nv nm d) = depth d.
Proof.
  induction d as [k v|k t its IH] using doc_ind2; intros nm; [reflexivity|]. cbn [doc_norm]. rewrite !depth_scope. f_equal. generalize (ty_eqb t TObject). intros b.
  unfold deepest. induction IH as [|a l H F IHl]; [reflexivity|]. cbn [map fold_right]. now rewrite H, IHl.
Qed.

(** * Reading a part of what was written *)
Lemma ecomp_part {St R} (rd : St -> prog (St * event)) : forall n (p : eprog R) st b st' es b' r tail,
  run_block (read_events rd n st) b = Ok ((st', es), b') -> erun p es = Some (Ok (r, tail)) -> exists st2 b2, run_block (ecomp rd p st) b = Ok ((st2, r), b2).
Proof.
  induction n as [|n IH]; intros p st b st' es b' r tail E Hp; cbn [read_events] in E.
  - cbn [run_block] in E. injection E as <- <- <-. destruct p; cbn [erun] in Hp; try discriminate. injection Hp as <- <-. now exists st, b.
  - rewrite run_block_bind in E. destruct (run_block (rd st) b) as [[[st1 e] b1]| | |] eqn:E1; try discriminate E. cbn [rbind] in E.
    rewrite run_block_bind in E. destruct (run_block (read_events rd n st1) b1) as [[[st2 es2] b2]| | |] eqn:E2; try discriminate E.
    cbn [rbind run_block] in E. injection E as <- <- <-. destruct p as [r0| |u| |k]; cbn [erun] in Hp; try discriminate.
    + injection Hp as <- <-. now exists st, b.
    + cbn [ecomp]. rewrite run_block_bind, E1. cbn [rbind]. eapply IH; eauto.
Qed.
Lemma delivers x p d u : carries x p u -> utf8_doc d u ->
  exists p' ops, write_all x p (events d) = Ok (p', ops) /\ valid_ops [] ops /\
  forall q, same_format p q -> forall F before rest, (length (spec_out ops) + length (events u) + 5 <= F)%nat ->
  forall R (pr : eprog R) r tail, erun pr (events (dnorm p u)) = Some (Ok (r, tail)) ->
  exists q' b', run_block (with_parser x F q pr) (mkBlk before (spec_out ops ++ rest)) = Ok ((q', r), b').
Proof.
  intros C U. pose proof C as (W & Sc & C'). pose proof (utf8_events d u U (wf_shaped u W)) as UE.
  assert (G : forall R (pr : eprog R) r tail, erun pr (events (dnorm p u)) = Some (Ok (r, tail)) ->
     forall {St} (rd : St -> prog (St * event)) (mk : St -> parser) st b st' b',
     run_block (read_events rd (length (events u)) st) b = Ok ((st', events (dnorm p u)), b') ->
     exists q' b', run_block (let! (st', r) := ecomp rd pr st in Ret (mk st', r)) b = Ok ((q', r), b')).
  { intros R pr r tail LD St rd mk st b st' b' E. rewrite run_block_bind. destruct (ecomp_part rd _ _ _ _ _ _ _ _ _ E LD) as (st2 & b2 & ->). cbn [rbind run_block]. eauto. }
  unfold write_all. destruct p as [st|st|st]; cbn [parser_clear].
  - destruct C' as [A L]. destruct (psrl_doc u W A ltac:(lia) [] psrl_init psrl_init psrl_rel_init eq_refl) as (w' & ops & r' & X1 & X2 & X3 & _).
    exists (PsrlP w'), ops. rewrite (write_rel (bin_save x psrl_write) psrl_write conv_event) with (es' := events u) by (auto using bin_conv, psrl_blind).
    change (psrl_clear st) with psrl_init. rewrite X1. split; [reflexivity|]. split; [now apply writes_only_valid|].
    rewrite writes_only_out by auto. intros [q|q|q] SF; try destruct SF. intros F before rest LF R pr r tail LD.
    unfold with_parser. cbn [parser_clear]. change (psrl_clear q) with psrl_init. eapply G; [exact LD|]. apply X3.
  - destruct (msgp_doc u W C') as (w' & ops & E & V & _ & RR). exists (MsgpP w'), ops.
    rewrite (write_rel (bin_save x msgp_write) msgp_write conv_event) with (es' := events u) by (auto using bin_conv, msgp_blind).
    change (msgp_clear st) with msgp_init. rewrite E. split; [reflexivity|]. split; [exact V|].
    intros [q|q|q] SF; try destruct SF. intros F before rest LF R pr r tail LD.
    unfold with_parser. cbn [parser_clear]. change (msgp_clear q) with msgp_init. eapply G; [exact LD|]. apply RR.
  - destruct C' as [A N]. assert (J : json_doc x u) by (repeat split; auto).
    destruct (json_written x u st J) as (w' & ops & E & Wo & O). exists (JsonP w'), ops.
    rewrite (write_rel (json_save x) (json_save x) conv_event) with (es' := events u) by (auto using json_conv).
    rewrite E. split; [reflexivity|]. split; [now apply writes_only_valid|].
    intros [q|q|q] SF; try destruct SF. intros F before rest LF R pr r tail LD. rewrite O in *.
    destruct (json_read_back false x u (j_compact st) q F rest J ltac:(discriminate) ltac:(lia)) as (r' & RB & _).
    unfold with_parser. cbn [parser_clear]. eapply G; [exact LD|]. exact (rd_block _ _ _ _ _ RB before).
Qed.

(** * Documents in an input *)
Lemma holds_run {R} x F q b d (pr : eprog R) r tail : holds x F q b d -> erun pr (events d) = Some (Ok (r, tail)) ->
  exists q' b', run_block (with_parser x F q pr) b = Ok ((q', r), b').
Proof.
  intros (q1 & b1 & H) E.
  assert (G : forall {St} (rd : St -> prog (St * event)) (mk : St -> parser) st,
     run_block (let! (st', es) := read_events rd (length (events d)) st in Ret (mk st', es)) b = Ok ((q1, events d), b1) ->
     exists q' b', run_block (let! (st', r) := ecomp rd pr st in Ret (mk st', r)) b = Ok ((q', r), b')).
  { intros St rd mk st H1. rewrite run_block_bind in *. destruct (run_block (read_events rd (length (events d)) st) b) as [[[st' es] b']| | |] eqn:H2; try discriminate.
    cbn [rbind run_block] in H1. injection H1 as _ -> _. destruct (ecomp_part rd _ _ _ _ _ _ _ _ _ H2 E) as (st2 & b2 & ->). cbn [rbind run_block]. eauto. }
  unfold parse_items in H. unfold with_parser. destruct (parser_clear q); now apply G.
Qed.
Fixpoint take_events (n : nat) (acc : list event) : eprog (list event) :=
  match n with O => ERet (rev acc) | S n' => ERead (fun e => take_events n' (e :: acc)) end.
Lemma take_run : forall es acc, erun (take_events (length es) acc) es = Some (Ok (rev acc ++ es, [])).
Proof. induction es as [|e es IH]; intros acc; cbn [length take_events erun]; [now rewrite app_nil_r|]. rewrite IH. cbn [rev]. now rewrite <- app_assoc. Qed.
Lemma take_read {St} (rd : St -> prog (St * event)) : forall n acc st b st' es b', run_block (ecomp rd (take_events n acc) st) b = Ok ((st', rev acc ++ es), b') ->
  run_block (read_events rd n st) b = Ok ((st', es), b').
Proof.
  induction n as [|n IH]; intros acc st b st' es b' H; cbn [take_events ecomp read_events] in *.
  - cbn [run_block] in *. injection H as -> E ->. rewrite <- (app_nil_r (rev acc)) in E at 1. apply app_inv_head in E. now subst.
  - rewrite run_block_bind in *. destruct (run_block (rd st) b) as [[[st1 e] b1]| | |]; try discriminate. cbn [rbind] in *.
    assert (X : exists es', es = e :: es').
    { clear - H. revert acc st1 b1 H. cut (forall acc st1 b1 r, run_block (ecomp rd (take_events n (e :: acc)) st1) b1 = Ok ((st', r), b') -> exists es', r = rev (e :: acc) ++ es').
      { intros C acc st1 b1 H. destruct (C _ _ _ _ H) as [es' E]. cbn [rev] in E. rewrite <- app_assoc in E. apply app_inv_head in E. now exists es'. }
      intros acc. generalize (e :: acc). clear. induction n as [|n IH]; intros l st b r H; cbn [take_events ecomp] in H.
      - cbn [run_block] in H. injection H as _ <- _. exists []. now rewrite app_nil_r.
      - rewrite run_block_bind in H. destruct (run_block (rd st) b) as [[[st1 e] b1]| | |]; try discriminate. cbn [rbind] in H. destruct (IH _ _ _ _ H) as [es' ->]. cbn [rev]. rewrite <- app_assoc. eauto. }
    destruct X as [es' ->]. rewrite run_block_bind. rewrite (IH (e :: acc) st1 b1 st' es' b'); [reflexivity|]. rewrite H. cbn [rev]. now rewrite <- app_assoc.
Qed.
Lemma take_holds x F q b d q' b' : run_block (with_parser x F q (take_events (length (events d)) [])) b = Ok ((q', events d), b') -> holds x F q b d.
Proof.
  intros H. exists q', b'. unfold with_parser in H. unfold parse_items. destruct (parser_clear q); rewrite run_block_bind in *.
  all: match goal with H : rbind ?r _ = _ |- _ => destruct r as [[[st' es] b1]| | |] eqn:E; try discriminate end; cbn [rbind run_block] in H; injection H as <- -> <-;
    rewrite (take_read _ _ [] _ _ _ (events d) _ E); reflexivity.
Qed.
Lemma holds_written x p d u : carries x p u -> utf8_doc d u -> exists p' ops size, write_all x p (events d) = Ok (p', ops) /\
  forall q F before rest, same_format p q -> (size <= F)%nat -> holds x F q (mkBlk before (spec_out ops ++ rest)) (dnorm p u).
Proof.
  intros C U. destruct (delivers x p d u C U) as (p' & ops & W & _ & R). exists p', ops, (length (spec_out ops) + length (events u) + 5)%nat. split; [exact W|].
  intros q F before rest SF L. destruct (R q SF F before rest L _ _ _ _ (take_run (events (dnorm p u)) [])) as (q' & b' & H). exact (take_holds _ _ _ _ _ _ _ H).
Qed.

(** * Storing succeeds *)
Lemma emits_more {A} (f g : A -> shared_tab -> res (doc * shared_tab)) : (forall a tab r, f a tab = Ok r -> g a tab = Ok r) ->
  forall l tab r, emits f l tab = Ok r -> emits g l tab = Ok r.
Proof.
  intros M. induction l as [|a l IH]; intros tab r H; cbn [emits] in *; [exact H|]. destruct (f a tab) as [[d t1]| | |] eqn:E; try discriminate. rewrite (M _ _ _ E). cbn [rbind] in *.
  destruct (emits f l t1) as [[ds t2]| | |] eqn:E2; try discriminate. rewrite (IH _ _ E2). exact H.
Qed.
Lemma bind_more {A B} (r r' : res A) (f f' : A -> res B) b : (forall a, r = Ok a -> r' = Ok a) -> (forall a, f a = Ok b -> f' a = Ok b) -> rbind r f = Ok b -> rbind r' f' = Ok b.
Proof. intros H K E. destruct r as [a| | |]; try discriminate. rewrite (H a eq_refl). now apply K. Qed.
Lemma emit_step w hp : forall F t v name tab r, emit F w hp t v name tab = Ok r -> emit (S F) w hp t v name tab = Ok r.
Proof.
  induction F as [|F IH]; intros t v name tab r H; [discriminate H|].
  assert (EM : forall A (g : A -> ct) (h : A -> cv) (k : A -> bytes) l tab r, emits (fun a => emit F w hp (g a) (h a) (k a)) l tab = Ok r -> emits (fun a => emit (S F) w hp (g a) (h a) (k a)) l tab = Ok r).
  { intros A g h k. apply emits_more. intros. now apply IH. }
  remember (S F) as F' eqn:EF. rewrite EF in H. cbn [emit] in H |- *.
  destruct t; try (exact H); destruct v; try (exact H).
  - destruct (Nat.eqb _ _); [|discriminate]. revert H. apply bind_more; [|auto]. intros a. apply EM.
  - revert H. apply bind_more; [|auto]. intros a. apply (EM _ (fun _ => t) (fun x => x) (fun _ => [])).
  - revert H. apply bind_more; [|auto]. intros a. apply (EM _ (fun _ => t) (fun x => x) (fun _ => [])).
  - revert H. apply bind_more; [|auto]. intros a. apply emits_more. intros q tb r'. apply bind_more; [intros; now apply IH|]. intros [d1 tb1]. apply bind_more; [intros; now apply IH|auto].
  - revert H. apply bind_more; [|auto]. intros a. apply (EM _ (fun _ => t) snd fst).
  - destruct (Nat.eqb _ _); [|discriminate]. revert H. apply bind_more; [|auto]. intros a. apply (EM _ (fun _ => t) (fun x => x) (fun _ => [])).
  - destruct vs as [|a [|b [|? ?]]]; try exact H. revert H. apply bind_more; [intros; now apply IH|]. intros [d1 tb1]. apply bind_more; [intros; now apply IH|auto].
  - destruct (Nat.eqb _ _); [|discriminate]. revert H. apply bind_more; [|auto]. intros a. apply (EM _ (fun fv => f_type (fst fv)) snd (fun _ => [])).
  - now apply IH.
  - now apply IH.
  - destruct (nth_error hp a) as [[e x]|]; [|exact H]. destruct (insert_shared a tab) as [[[] key] tab1]; [exact H|]. revert H. apply bind_more; [intros; now apply IH|auto].
  - destruct (nth_error hp a) as [[e x]|]; [|exact H]. destruct (insert_shared a tab) as [[[] key] tab1]; [exact H|]. revert H. apply bind_more; [intros; now apply IH|auto].
  - destruct (Nat.eqb _ _); [|discriminate]. revert H. apply bind_more; [|auto]. intros q. apply EM.
Qed.
Lemma emit_more w hp F G t v name tab r : (F <= G)%nat -> emit F w hp t v name tab = Ok r -> emit G w hp t v name tab = Ok r.
Proof. intros L H. induction L; [exact H|]. now apply emit_step. Qed.

Definition succeeds {A} (f : nat -> A -> shared_tab -> res (doc * shared_tab)) (a : A) : Prop := exists F0, forall F, (F0 <= F)%nat -> forall tab, exists r, f F a tab = Ok r.
Lemma emits_total {A} (f : nat -> A -> shared_tab -> res (doc * shared_tab)) : forall l, Forall (succeeds f) l ->
  exists F0, forall F, (F0 <= F)%nat -> forall tab, exists r, emits (f F) l tab = Ok r.
Proof.
  induction 1 as [|a l [F1 H1] _ [F2 H2]]; [exists O; intros; cbn; eauto|]. exists (Nat.max F1 F2). intros F L tab. cbn [emits].
  destruct (H1 F ltac:(lia) tab) as [[d t1] ->]. cbn [rbind]. destruct (H2 F ltac:(lia) t1) as [[ds t2] ->]. cbn [rbind]. eauto.
Qed.
Section Total.
Variables (w : world) (hp : heap_t) (lev : nat -> nat) (leaf : ct -> cv -> Prop).
Hypothesis HEAP : S_ObjStore.heap_ok w hp lev leaf.
Hypothesis LEAF : forall t v, leaf t v -> match t with CNum _ | CStr _ | CChar _ | CChars _ _ | CBits => exists sv, leaf_value t v = Some sv | _ => True end.
Notation ok := (storable w hp lev leaf).
Definition total (t : ct) (v : cv) : Prop := forall name, succeeds (fun F v tab => emit F w hp t v name tab) v.
Lemma total_step t v : (forall name, exists F0, forall F, (F0 <= F)%nat -> forall tab, exists r, emit (S F) w hp t v name tab = Ok r) -> total t v.
Proof. intros H name. destruct (H name) as [F0 H0]. exists (S F0). intros [|F] L tab; [lia|]. apply H0. lia. Qed.
Lemma fields_total n (fn : field -> bytes) : forall fs vs, Forall2 (fun f v => ok n (f_type f) v) fs vs -> Forall (fun v => forall t, ok n t v -> total t v) vs ->
  length vs = length fs /\ Forall (succeeds (fun F fv tab => emit F w hp (f_type (fst fv)) (snd fv) (fn (fst fv)) tab)) (combine fs vs).
Proof.
  induction 1 as [|f v fs vs H F IH]; intros A; [split; [reflexivity|constructor]|]. inversion A as [|? ? A1 A2]; subst. destruct (IH A2) as [L1 L2]. cbn [length combine]. split; [lia|].
  constructor; [|exact L2]. destruct (A1 _ H (fn f)) as [F0 T]. exists F0. intros G L tab. apply T. exact L.
Qed.
Lemma list_total n e : forall vs, Forall (ok n e) vs -> Forall (fun v => forall t, ok n t v -> total t v) vs -> forall name, Forall (succeeds (fun F v tab => emit F w hp e v name tab)) vs.
Proof. induction 1; intros A name; constructor; inversion A; subst; auto. apply H3. exact H. Qed.
Ltac useit E := match goal with |- context [emits ?f ?l ?tb] => match type of E with _ = ?r => let E' := fresh in assert (E' : emits f l tb = r) by exact E; rewrite E'; clear E' end end.
Ltac ends := cbn [rbind]; eauto.

Lemma emit_total : forall n v t, ok n t v -> total t v.
Proof.
  induction n as [n RANK] using (well_founded_induction lt_wf). apply (cv_ind2 (fun v => forall t, ok n t v -> total t v)).
  - intros k t O. apply total_step. intros name. inversion O as [? ? T _ L| | | | | | | | | | | | | |]; subst. exists 0%nat. intros F _ tab. specialize (LEAF _ _ L). destruct t; try contradiction; destruct LEAF as [sv S]; try discriminate S; cbn [emit]; eauto.
  - intros k t O. apply total_step. intros name. inversion O as [? ? T _ L| | | | | | | | | | | | | |]; subst. exists 0%nat. intros F _ tab. specialize (LEAF _ _ L). destruct t; try contradiction; destruct LEAF as [sv S]; try discriminate S; cbn [emit]; eauto. cbn [leaf_value] in S. destruct (wrap_array e n0 k); try discriminate S. cbn [rbind]. eauto.
  - intros vs IH t O. apply total_step. intros name.
    inversion O as [? ? T _ L|c ? FV|c ? FV|e ? FV|e ? FV PL SO|e ? FV| | |a b y z OA OB| | | | | |]; subst.
    + specialize (LEAF _ _ L). destruct t; try contradiction; destruct LEAF as [sv S]; discriminate S.
    + destruct (fields_total n f_name _ _ FV IH) as [LN FT]. destruct (emits_total _ _ FT) as [F0 T]. exists F0. intros F L tab. cbn [emit]. rewrite LN, Nat.eqb_refl. destruct (T F L tab) as [[its t1] E]. useit E. ends.
    + destruct (fields_total n (fun _ => []) _ _ FV IH) as [LN FT]. destruct (emits_total _ _ FT) as [F0 T]. exists F0. intros F L tab. cbn [emit]. rewrite LN, Nat.eqb_refl. destruct (T F L tab) as [[its t1] E]. useit E. ends.
    + destruct (emits_total _ _ (list_total n _ _ FV IH [])) as [F0 T]. exists F0. intros F L tab. cbn [emit]. destruct (T F L tab) as [[its t1] E]. useit E. ends.
    + destruct (emits_total _ _ (list_total n _ _ FV IH [])) as [F0 T]. exists F0. intros F L tab. cbn [emit]. destruct (T F L tab) as [[its t1] E]. useit E. ends.
    + destruct (emits_total _ _ (list_total n _ _ FV IH [])) as [F0 T]. exists F0. intros F L tab. cbn [emit]. rewrite Nat.eqb_refl. destruct (T F L tab) as [[its t1] E]. useit E. ends.
    + inversion IH as [|? ? I1 I2]; subst. inversion I2 as [|? ? I3 _]; subst. destruct (I1 _ OA str_first) as [F1 T1]. destruct (I3 _ OB str_second) as [F2 T2]. exists (Nat.max F1 F2). intros F L tab. cbn [emit].
      destruct (T1 F ltac:(lia) tab) as [[d1 t1] ->]. cbn [rbind]. destruct (T2 F ltac:(lia) t1) as [[d2 t2] ->]. ends.
  - intros l IK IV t O. apply total_step. intros name.
    inversion O as [? ? T _ L| | | | | |k e ? FK FV| | | | | | | |]; subst.
    + specialize (LEAF _ _ L). destruct t; try contradiction; destruct LEAF as [sv S]; discriminate S.
    + assert (Q : Forall (succeeds (fun F p tab => let* (d1, tab1) := emit F w hp k (fst p) str_key tab in let* (d2, tab2) := emit F w hp e (snd p) str_value tab1 in Ok (DScope [] TObject [d1; d2], tab2))) l).
      { clear - IK IV FK FV. induction l as [|[a b] l IH]; [constructor|]. cbn [map fst snd] in *. inversion IK as [|? ? K1 K2]; inversion IV as [|? ? V1 V2]; inversion FK as [|? ? G1 G2]; inversion FV as [|? ? W1 W2]; subst.
        constructor; [|auto]. destruct (K1 _ G1 str_key) as [F1 T1]. destruct (V1 _ W1 str_value) as [F2 T2]. exists (Nat.max F1 F2). intros F L tab. cbn [fst snd].
        destruct (T1 F ltac:(lia) tab) as [[d1 t1] ->]. cbn [rbind]. destruct (T2 F ltac:(lia) t1) as [[d2 t2] ->]. ends. }
      destruct (emits_total _ _ Q) as [F0 T]. exists F0. intros F L tab. cbn [emit]. destruct (T F L tab) as [[its t1] E]. useit E. ends.
  - intros l IV t O. apply total_step. intros name.
    inversion O as [? ? T _ L| | | | | | |e ? FV| | | | | | |]; subst.
    + specialize (LEAF _ _ L). destruct t; try contradiction; destruct LEAF as [sv S]; discriminate S.
    + assert (Q : Forall (succeeds (fun F (p : bytes * cv) tab => emit F w hp e (snd p) (fst p) tab)) l).
      { clear - IV FV. induction l as [|[a b] l IH]; [constructor|]. cbn [map fst snd] in *. inversion IV as [|? ? V1 V2]; inversion FV as [|? ? W1 W2]; subst. constructor; [|auto]. apply (V1 _ W1 a). }
      destruct (emits_total _ _ Q) as [F0 T]. exists F0. intros F L tab. cbn [emit]. destruct (T F L tab) as [[its t1] E]. useit E. ends.
  - intros t O. apply total_step. intros name. inversion O as [? ? T _ L| | | | | | | | | | |e SC| | |]; subst.
    + specialize (LEAF _ _ L). destruct t; try contradiction; destruct LEAF as [sv S]; discriminate S.
    + exists 0%nat. intros F _ tab. cbn [emit]. eauto.
  - intros y IH t O. apply total_step. intros name. inversion O as [? ? T _ L| | | | | | | | |e ? OX _|e ? OX _| | | |]; subst.
    + specialize (LEAF _ _ L). destruct t; try contradiction; destruct LEAF as [sv S]; discriminate S.
    + destruct (IH _ OX name) as [F0 T]. exists F0. intros F L tab. cbn [emit]. apply T. exact L.
    + destruct (IH _ OX name) as [F0 T]. exists F0. intros F L tab. cbn [emit]. apply T. exact L.
  - intros a t O. apply total_step. intros name. inversion O as [? ? T _ L| | | | | | | | | | | |e y ? E L|e y ? E L|]; subst.
    + specialize (LEAF _ _ L). destruct t; try contradiction; destruct LEAF as [sv S]; discriminate S.
    + destruct (RANK _ L y e (proj1 HEAP _ _ _ E) str_shared_value) as [F0 T]. exists F0. intros F LF tab. cbn [emit]. rewrite E. destruct (insert_shared a tab) as [[[] key] tab1]; [eauto|]. destruct (T F LF tab1) as [[d t2] ->]. ends.
    + destruct (RANK _ L y e (proj1 HEAP _ _ _ E) str_shared_value) as [F0 T]. exists F0. intros F LF tab. cbn [emit]. rewrite E. destruct (insert_shared a tab) as [[[] key] tab1]; [eauto|]. destruct (T F LF tab1) as [[d t2] ->]. ends.
  - intros c vs IH t O. apply total_step. intros name. inversion O as [? ? T _ L| | | | | | | | | | | | | |? ? ? FV RG _]; subst.
    + specialize (LEAF _ _ L). destruct t; try contradiction; destruct LEAF as [sv S]; discriminate S.
    + destruct (fields_total n f_name _ _ FV IH) as [LN FT]. destruct (emits_total _ _ FT) as [F0 T]. exists F0. intros F L tab. cbn [emit]. rewrite LN, Nat.eqb_refl. destruct (T F L tab) as [[its t1] E]. useit E. ends.
Qed.
(** for every object there is one document *)
Lemma stored_total n t v name : ok n t v -> exists F0 r, forall F, (F0 <= F)%nat -> stored_doc F w hp t v name [] = Ok r.
Proof.
  intros O. unfold stored_doc. replace (null_root t v) with false by (destruct O as [t v T _ _| | | | | | | | | | | | | |]; try reflexivity; destruct t; try contradiction; reflexivity). destruct (scoped t).
  - destruct (emit_total n v t O name) as [F0 T]. destruct (T F0 (le_n _) []) as [r E]. exists F0, r. intros F L. revert E. now apply emit_more.
  - destruct (emit_total n v t O str_value) as [F0 T]. destruct (T F0 (le_n _) []) as [[d tb] E]. exists F0, (DScope name TObject [d], tb). intros F L. rewrite (emit_more _ _ _ F _ _ _ _ _ L E). reflexivity.
Qed.
End Total.

(** * Storing and restoring *)
Lemma cpp_leaf j t v : cpp_value j t v -> match t with CNum _ | CStr _ | CChar _ | CChars _ _ | CBits => exists sv, leaf_value t v = Some sv | _ => True end.
Proof.
  destruct t as [t|e|e|e n| |c|e|e|k e|e|m e|a b|c|e|e|e|e|]; auto; destruct v as [z|s|vs|l|l| |y|a0|c0 vs]; cbn [cpp_value]; intros H; cbn [leaf_value]; eauto; try contradiction; try (destruct t; contradiction);
    destruct e; try contradiction. destruct H as (_ & s0 & P). rewrite (wrap_text _ _ _ _ (padded_text _ _ _ P)). eauto.
Qed.
Lemma norm_is_sc nv nm d : is_sc (doc_norm nv nm d) = is_sc d. Proof. destruct d; reflexivity. Qed.
Theorem store_restore w p (leaf : ct -> cv -> Prop) hp lev n t v name old : (forall t v, leaf t v -> cpp_value (is_json p) t v) ->
  regular w -> (forall t, shape w t (w_new w t)) -> S_ObjStore.heap_ok w hp lev leaf -> storable w hp lev leaf n t v -> shape w t old ->
  exists d tab size, (forall F, (size <= F)%nat -> stored_doc F w hp t v name [] = Ok (d, tab)) /\
  forall u, utf8_doc d u -> carries (w_fp w) p u -> (depth u <= 129)%nat ->
  exists p' bs size', (forall F m, (size' <= F)%nat -> zlen bs < 2 ^ 32 -> exists h, store_object (w_fp w) F w hp p (heap_init m) name t v = Ok (p', bs, h)) /\
  exists c s r, same_object r v c /\ same_heap r hp (r_heap s) /\
  (forall q F before rest, same_format p q -> (size' <= F)%nat ->
    exists q' b', run_block (restore_object (w_fp w) F w q t old) (mkBlk before (bs ++ rest)) = Ok ((q', (c, s)), b')) /\ unwraps_as w p bs t old c s /\
  exists dn, deep_enough dn /\ says size' w true t old dn rs_new = Ok (c, s) /\
    forall q F before rest, same_format p q -> (size' <= F)%nat -> holds (w_fp w) F q (mkBlk before (bs ++ rest)) dn.
Proof.
  intros LC RG NW HP ST SH. destruct (stored_total w hp lev _ HP (fun t v H => cpp_leaf _ t v (LC t v H)) n t v name ST) as (F0 & [d tab] & TOT). exists d, tab, F0. split; [exact TOT|]. intros u U C D.
  destruct (delivers _ p d u C U) as (p' & ops & WR & VO & RD). pose proof C as (W & Sc & _).
  pose proof (like_norm _ p d u U W (carries_vals _ _ _ C) false) as LK.
  destruct (stored_says w hp lev _ (brought (w_fp w) p) RG NW HP (fun t v sv v' old SH' H => leaf_back w p t v sv v' old SH' (LC t v H)) (fun t v sv H => leaf_solid p t v sv (LC t v H)) (leaf_null w p) (leaf_key w p) (fun s v' H => leaf_text w p s v' (LC _ _ H)) F0 n t v false name d tab _ old (TOT F0 (le_n _)) ST SH LK) as (c & s & SY & r & SO & SM).
  change (doc_norm (norm_of p) false u) with (dnorm p u) in SY.
  exists p', (spec_out ops), (F0 + length (events u) + length (spec_out ops) + length (events (dnorm p u)) + 5)%nat. split.
  - intros F m L LB. destruct (run_jobs_spec [ToMemory ops] (heap_init m) (heap_ok_init m)) as (h & J & _); [constructor; [|constructor]; now split|].
    exists h. unfold store_object. rewrite TOT by lia. cbn [rbind]. rewrite (write_all_same _ _ _ _ (stored_same d)), WR. cbn [rbind]. cbn [run_jobs run_job map job_result] in J.
    destruct (save_buffer (heap_init m) ops) as [[bs h1]| | |]; cbn [rbind] in *; try discriminate J. injection J as -> ->. reflexivity.
  - assert (DE : deep_enough (dnorm p u)).
    { split; [|split].
      - apply wf_shaped. apply (wf_norm (w_fp w)); [exact W|now apply carries_vals].
      - unfold dnorm. rewrite norm_is_sc. destruct u; [destruct Sc|reflexivity].
      - unfold dnorm. now rewrite norm_depth. }
    exists c, s, r. split; [exact SO|]. split; [exact SM|]. split; [|split].
    3: { exists (dnorm p u). split; [exact DE|]. split; [refine (says_more F0 _ w true true t old _ _ _ (fun e => e) _ SY); lia|]. intros q F before rest SF L.
         destruct (RD q SF F before rest ltac:(lia) _ _ _ _ (take_run (events (dnorm p u)) [])) as (q' & b' & H). exact (take_holds _ _ _ _ _ _ _ H). }
    2: { destruct (written _ p d u C U) as (p2 & ops2 & WR2 & _ & R2). rewrite WR in WR2. injection WR2 as <- <-.
         exists F0, (doc_name (dnorm p u)), (doc_node (dnorm p u)). split.
         - exists (length (spec_out ops) + length (events u) + 5)%nat. intros q F before rest SF L. destruct (R2 q SF F before rest L) as (q' & Q).
           exists q'. rewrite Q. now replace (Nat.leb (depth u) 129) with true by (symmetry; now apply Nat.leb_le).
         - intros F L. assert (Sd : is_sc (dnorm p u) = true) by (unfold dnorm; rewrite norm_is_sc; destruct u; [destruct Sc|reflexivity]).
           destruct (dnorm p u) as [|k ty its] eqn:DN; [discriminate Sd|]. rewrite doc_node_eq. apply (unwrap_says F w t old k). exact (says_more F0 F w true false t old _ _ _ (fun _ => eq_refl) L SY). }
    intros q F before rest SF L.
    destruct (restore_says F0 w t old _ c s RG DE SY F ltac:(lia)) as [tail ER]. unfold restore_object. eapply RD; [exact SF|lia|exact ER].
Qed.
