(** Saving and loading trees with any of the modelled formats. *)
From Coq Require Import ZArith List Bool Lia ZifyBool ZifyNat.
From Verif Require Import Base Lemmas M_Types M_Conv M_Charset M_In S_Conv S_Charset S_Doc M_OutOps S_Out M_Env M_Event S_PSrl M_PSrl S_MsgPack M_MsgPack S_Json M_Json
  M_Heap M_Out S_OutJobs M_Tree S_Tree M_TreeIO S_TreeIO P_In P_Reads P_Safe P_Float P_Paste P_Doc P_Text P_Charset P_PSrlDoc P_PSrlMain P_MsgPack P_MsgPackDoc P_MsgPackMain
  P_Scan P_JsonLit P_JsonDoc P_JsonMain P_Out P_Tree P_TreeOps.
Import ListNotations.
Open Scope Z_scope.

(** * Text in other encodings *)
Lemma write_rel {S} (w1 w2 : S -> event -> res (S * list oop)) (R : event -> event -> Prop) :
  (forall a b, R a b -> forall st, w1 st a = w2 st b) -> forall es es', Forall2 R es es' -> forall st, write_events w1 st es = write_events w2 st es'.
Proof.
  intros H es es' F. induction F as [|a b es es' Rab F IH]; intros st; [reflexivity|]. cbn [write_events].
  rewrite (H a b Rab st). destruct (w2 st b) as [[st1 o1]| | |]; [|reflexivity..]. cbn [rbind]. now rewrite IH.
Qed.
Definition conv_event (a b : event) : Prop := fst a = fst b /\ (same_text (snd a) (snd b)).
Lemma same_text_type t : is_scope t = true \/ t = TScopeEnd -> same_text (val_type t) (val_type t).
Proof. intros H. constructor. cbn. destruct H as [H| ->]; [|discriminate]. destruct t; discriminate. Qed.
Lemma utf8_events : forall d u, utf8_doc d u -> shaped u -> Forall2 conv_event (events d) (events u).
Proof.
  induction d as [k v|k t its IH] using doc_ind2; intros u H; inversion H as [? ? v' Sv|? ? ? its' F]; subst.
  - intros _. constructor; [split; [reflexivity|exact Sv]|constructor].
  - rewrite shaped_scope. intros [T A]. cbn [events]. constructor; [split; [reflexivity|]; apply same_text_type; now left|].
    apply Forall2_app; [|constructor; [split; [reflexivity|]; apply same_text_type; now right|constructor]].
    clear T H. revert IH A. induction F as [|d u l l' Hd F IHF]; intros IH A; [constructor|]. inversion IH as [|? ? I1 I2]; inversion A as [|? ? A1 A2]; subst.
    cbn [flat_map]. apply Forall2_app; auto.
Qed.
Lemma conv_not_string v v' : same_text v v' -> v_type v <> TString -> v' = v.
Proof. intros H N. destruct H; [reflexivity|contradiction]. Qed.

Lemma env_bin x v v' : same_text v v' ->
  env_value false x v = Ok v' \/ exists d, env_value false x v = Ok (val_block d TString) /\ v' = val_string d EUTF8.
Proof.
  intros H. destruct H as [v H|v cs T K N F E L].
  - left. unfold env_value. destruct (v_type v) eqn:T; cbn [is_scope ty_eqb ty_num Z.eqb Pos.eqb orb andb negb]; try reflexivity. rewrite H by reflexivity. reflexivity.
  - right. exists (text EUTF8 cs). split; [|reflexivity]. unfold env_value. rewrite T. cbn [is_scope ty_eqb ty_num Z.eqb Pos.eqb orb andb negb].
    replace (enc_eqb (v_enc v) EUTF8) with false by (destruct (v_enc v); congruence || reflexivity).
    unfold conv_type. rewrite T, E, to_utf8_text by auto. reflexivity.
Qed.
Definition enc_blind {S} (w : S -> event -> res (S * list oop)) : Prop :=
  forall st k d, w st (k, val_block d TString) = w st (k, val_string d EUTF8).
Lemma bin_conv {S} x (w : S -> event -> res (S * list oop)) : enc_blind w -> forall a b, conv_event a b -> forall st, bin_save x w st a = w st b.
Proof.
  intros B [k v] [k' v'] [E H] st. cbn [fst snd] in *. subst k'. unfold bin_save, env_event. cbn [fst snd].
  destruct (env_bin x v v' H) as [-> |(d & -> & ->)]; [reflexivity|]. cbn [rbind]. apply B.
Qed.
Lemma psrl_blind : enc_blind psrl_write.
Proof. intros st k d. reflexivity. Qed.
Lemma msgp_blind : enc_blind msgp_write.
Proof. intros st k d. reflexivity. Qed.
Lemma json_conv x a b : conv_event a b -> forall st, json_save x st a = json_save x st b.
Proof.
  destruct a as [k v], b as [k' v']. intros [E H] st. cbn [fst snd] in *. subst k'. destruct H as [v H|v cs T K N F E L]; [reflexivity|].
  unfold json_save, env_event. cbn [fst snd]. unfold env_value. rewrite T.
  change (v_type (val_string (text EUTF8 cs) EUTF8)) with TString. cbn [is_scope ty_eqb ty_num Z.eqb Pos.eqb orb andb negb].
  unfold conv_type. rewrite T, E, to_utf8_text by auto. cbn [v_type v_data v_enc val_string]. rewrite trunc_block_id by (unfold_words; lia).
  rewrite to_utf8_id. reflexivity.
Qed.
(** the name given with the end of a scope is not written *)
Lemma psrl_end st k k' : psrl_write st (k, val_type TScopeEnd) = psrl_write st (k', val_type TScopeEnd).
Proof. reflexivity. Qed.
Lemma msgp_end st k k' : msgp_write st (k, val_type TScopeEnd) = msgp_write st (k', val_type TScopeEnd).
Proof. reflexivity. Qed.
Lemma json_end x st k k' : json_save x st (k, val_type TScopeEnd) = json_save x st (k', val_type TScopeEnd).
Proof. unfold json_save, env_event, env_value. cbn [fst snd v_type val_type is_scope ty_eqb ty_num Z.eqb Pos.eqb orb rbind]. unfold json_write. cbn [v_type val_type is_scope].
  unfold write_name. cbn [ty_eqb ty_num Z.eqb Pos.eqb negb]. rewrite !andb_false_r. reflexivity. Qed.
Lemma write_all_same x p es es' : Forall2 same_event es es' -> write_all x p es = write_all x p es'.
Proof.
  intros F. unfold write_all. destruct p as [st|st|st]; cbn [parser_clear].
  - rewrite (write_same (bin_save x psrl_write)) with (es' := es'); auto. intros s [k v] [k' v'] [E|[E1 E2]]; [now rewrite E|]. cbn [snd] in *. subst. reflexivity.
  - rewrite (write_same (bin_save x msgp_write)) with (es' := es'); auto. intros s [k v] [k' v'] [E|[E1 E2]]; [now rewrite E|]. cbn [snd] in *. subst. reflexivity.
  - rewrite (write_same (json_save x)) with (es' := es'); auto. intros s [k v] [k' v'] [E|[E1 E2]]; [now rewrite E|]. cbn [snd] in *. subst. apply json_end.
Qed.

(** * What the formats deliver *)
Definition norm_of (p : parser) : value -> value := match p with PsrlP _ => psrl_norm_v | MsgpP _ => mp_norm_v | JsonP _ => json_norm_v end.
Definition dnorm (p : parser) (d : doc) : doc := doc_norm (norm_of p) false d.
Definition fdenote (p : parser) : bool -> doc -> mdoc := match p with JsonP _ => json_denote | _ => denote end.
Lemma delivered_eq p d : delivered p d = fdenote p false d.
Proof. destruct p; reflexivity. Qed.
Definition hmean (p : parser) (m : meaning) : meaning := match p with JsonP _ => json_meaning m | _ => m end.
Lemma fdenote_keeps p : keeps (fdenote p) (fun v => hmean p (meaning_of v)).
Proof. destruct p; [apply keeps_denote|apply keeps_denote|apply keeps_json]. Qed.
Lemma dnorm_delivered x p d : carries x p d -> mdoc_of (dnorm p d) = delivered p d.
Proof.
  unfold dnorm. destruct p as [st|st|st]; intros (W & Sc & C); cbn [norm_of delivered].
  - apply doc_norm_denote; auto using psrl_norm_meaning.
  - apply doc_norm_denote; auto using mp_norm_meaning.
  - apply (json_norm_denote x); tauto.
Qed.
(** one theorem for the three formats: what is written, and that it is read back *)
Lemma written x p d u : carries x p u -> utf8_doc d u ->
  exists p' ops, write_all x p (events d) = Ok (p', ops) /\ valid_ops [] ops /\
  forall q, same_format p q -> forall F before rest, (length (spec_out ops) + length (events u) + 5 <= F)%nat ->
  exists q', run_block (load_tree x F q) (mkBlk before (spec_out ops ++ rest)) =
    if Nat.leb (depth u) 129 then Ok ((q', (doc_name (dnorm p u), doc_node (dnorm p u))), mkBlk (rev (spec_out ops) ++ before) rest) else Err.
Proof.
  intros C U. pose proof (dnorm_delivered x p u C) as D. rewrite delivered_eq in D. pose proof C as (W & Sc & C').
  pose proof (utf8_events d u U (wf_shaped u W)) as UE.
  assert (Len : length (events (dnorm p u)) = length (events u)) by apply events_norm_length.
  assert (LD : forall F, (length (events u) <= F)%nat -> erun (load_prog F) (events (dnorm p u)) =
     Some (if Nat.leb (depth u) 129 then Ok ((doc_name (dnorm p u), doc_node (dnorm p u)), []) else Err)).
  { intros F L. pose proof (load_delivered (fdenote p) _ u (dnorm p u) false F [] (fdenote_keeps p) (wf_shaped u W) D Sc ltac:(lia)) as E. rewrite app_nil_r in E. exact E. }
  assert (G : forall {St} (rd : St -> prog (St * event)) (mk : St -> parser) st F b st' b', (length (events u) <= F)%nat ->
     run_block (read_events rd (length (events u)) st) b = Ok ((st', events (dnorm p u)), b') ->
     run_block (let! (st', r) := ecomp rd (load_prog F) st in Ret (mk st', r)) b =
     if Nat.leb (depth u) 129 then Ok ((mk st', (doc_name (dnorm p u), doc_node (dnorm p u))), b') else Err).
  { intros St rd mk st F b st' b' L E. specialize (LD F L). rewrite run_block_bind. destruct (Nat.leb (depth u) 129).
    - rewrite (ecomp_block rd _ _ _ _ _ _ _ _ E LD). reflexivity.
    - rewrite (ecomp_block_err rd _ _ _ _ _ _ _ E LD). reflexivity. }
  unfold write_all. destruct p as [st|st|st]; cbn [parser_clear].
  - destruct C' as [A L]. destruct (psrl_doc u W A ltac:(lia) [] psrl_init psrl_init psrl_rel_init eq_refl) as (w' & ops & r' & X1 & X2 & X3 & _).
    exists (PsrlP w'), ops. rewrite (write_rel (bin_save x psrl_write) psrl_write conv_event) with (es' := events u) by (auto using bin_conv, psrl_blind).
    change (psrl_clear st) with psrl_init. rewrite X1. split; [reflexivity|]. split; [now apply writes_only_valid|].
    rewrite writes_only_out by auto. intros [q|q|q] SF; try destruct SF. intros F before rest LF. exists (PsrlP r').
    unfold load_tree. cbn [parser_clear]. change (psrl_clear q) with psrl_init. apply G; [lia|]. apply X3.
  - destruct (msgp_doc u W C') as (w' & ops & E & V & _ & R). exists (MsgpP w'), ops.
    rewrite (write_rel (bin_save x msgp_write) msgp_write conv_event) with (es' := events u) by (auto using bin_conv, msgp_blind).
    change (msgp_clear st) with msgp_init. rewrite E. split; [reflexivity|]. split; [exact V|].
    intros [q|q|q] SF; try destruct SF. intros F before rest LF. exists (MsgpP msgp_init).
    unfold load_tree. cbn [parser_clear]. change (msgp_clear q) with msgp_init. apply G; [lia|]. apply R.
  - destruct C' as [A N]. assert (J : json_doc x u) by (repeat split; auto).
    destruct (json_written x u st J) as (w' & ops & E & Wo & O). exists (JsonP w'), ops.
    rewrite (write_rel (json_save x) (json_save x) conv_event) with (es' := events u) by (auto using json_conv).
    rewrite E. split; [reflexivity|]. split; [now apply writes_only_valid|].
    intros [q|q|q] SF; try destruct SF. intros F before rest LF. rewrite O in *.
    destruct (json_read_back false x u (j_compact st) q F rest J ltac:(discriminate) ltac:(lia)) as (r' & R & _). exists (JsonP r').
    unfold load_tree. cbn [parser_clear]. apply (G _ (json_read x F) JsonP); [lia|]. exact (rd_block _ _ _ _ _ R before).
Qed.

(** * The delivered document can be saved again *)
Definition vcarries (x : fp_text) (p : parser) (v : value) : Prop :=
  match p with PsrlP _ => meaning_of v <> MeInt (- 2 ^ 63) | MsgpP _ => True | JsonP _ => json_value x v end.
Lemma wf_val_f64 d : 0 <= d < two64 -> wf_value (val_f64 d).
Proof.
  intros H. unfold val_f64. destruct (narrow64 d) as [f|] eqn:E; unfold wf_value; cbn [v_type v_raw]; [|exact H].
  destruct (narrow64_sound d f H E) as (_ & R & _). exact R.
Qed.
Lemma wf_val_int t n : is_int_ty t = true -> in_range t n -> wf_value (val_int t n).
Proof. intros It R. unfold wf_value. cbn [v_type val_int v_raw]. destruct t; try discriminate It; exists n; auto. Qed.
Lemma wf_val_sint n : - two63 <= n < two64 -> wf_value (val_int (if n <? 0 then TI64 else TUI64) n).
Proof. intros H. apply wf_val_int; [now destruct (n <? 0)|]. unfold in_range. destruct (n <? 0) eqn:E; cbn [int_min int_max]; unfold_words; lia. Qed.
Lemma int_wf v : wf_value v -> is_int_ty (v_type v) = true -> exists n, in_range (v_type v) n /\ v_raw v = u64 n.
Proof. unfold wf_value. destruct (v_type v); intros W It; try discriminate It; exact W. Qed.
Lemma double_range v : wf_value v -> v_type v = TFP32 \/ v_type v = TFP64 -> 0 <= v_double v < two64.
Proof.
  intros W T. apply v_double_range. unfold wf_value in W. unfold fp_value. destruct T as [T|T]; rewrite T in *; [left|right]; split; auto; unfold_words; lia.
Qed.
Lemma meaning_int_ty v : is_int_ty (v_type v) = true -> meaning_of v = MeInt (int_value v).
Proof. unfold meaning_of. destruct (v_type v); intros It; try discriminate It; reflexivity. Qed.
Lemma int_val v : wf_value v -> is_int_ty (v_type v) = true -> in_range (v_type v) (int_value v) /\ - two63 <= int_value v < two64.
Proof. intros W It. destruct (int_wf v W It) as (n & R & E). destruct (int_value_of v n It R E) as [-> B]. auto. Qed.
Lemma whole_range d n : whole d = Some n -> Z.abs n <= two63.
Proof. unfold whole. destruct (_ && _ && _) eqn:E; [|discriminate]. intros H. injection H as <-. apply andb_prop in E. destruct E as [_ E]. lia. Qed.
Lemma wf_block d : wf_bytes d -> zlen d < 2 ^ 32 -> wf_bytes (trunc_block d) /\ zlen (trunc_block d) < 2 ^ 32.
Proof. intros B L. rewrite trunc_block_id by (unfold_words; lia). auto. Qed.
Lemma norm_ok x p v : wf_value v -> vcarries x p v ->
  wf_value (norm_of p v) /\ (v_type (norm_of p v) = TString -> v_enc (norm_of p v) = EUTF8).
Proof.
  intros W C. pose proof (wf_plain v W) as [P1 P2]. destruct p as [st|st|st]; cbn [norm_of vcarries] in *.
  - unfold psrl_norm_v. destruct (is_int_ty (v_type v)) eqn:It.
    + destruct (int_val v W It) as [_ B]. pose proof (wf_val_sint (int_value v) B) as Q.
      destruct (v_type v); try discriminate It; cbv zeta; destruct (int_value v <? 0); (split; [exact Q|discriminate]).
    + unfold wf_value in W. destruct (v_type v) eqn:T; try discriminate It; try discriminate P1; try contradiction.
      * split; [|discriminate]. destruct W as [-> | ->]; [now left|now right].
      * split; [|discriminate]. exact W.
      * split; [apply wf_val_f64; unfold_words; lia|]. unfold val_f64. destruct (narrow64 _); discriminate.
      * split; [exact I|discriminate].
      * split; [|reflexivity]. apply wf_block; tauto.
      * split; [|discriminate]. apply wf_block; tauto.
  - unfold mp_norm_v. destruct (is_int_ty (v_type v)) eqn:It.
    + destruct (int_val v W It) as [R B].
      assert (Q : forall b : bool, (b = true -> -31 <= int_value v <= 127) -> wf_value (if b then val_int TI32 (int_value v) else val_int (v_type v) (int_value v))).
      { intros [|] H; apply wf_val_int; auto. specialize (H eq_refl). unfold in_range. cbn [int_min int_max]. unfold_words. lia. }
      destruct (v_type v) eqn:T; try discriminate It; cbv zeta; (split; [apply Q; cbn [is_signed]; lia|]);
      match goal with |- context [if ?b then _ else _] => destruct b; discriminate end.
    + unfold wf_value in W. destruct (v_type v) eqn:T; try discriminate It; try discriminate P1; try contradiction.
      * split; [|discriminate]. destruct W as [-> | ->]; [now left|now right].
      * split; [|discriminate]. exact W.
      * split; [apply wf_val_f64; unfold_words; lia|]. unfold val_f64. destruct (narrow64 _); discriminate.
      * split; [exact I|discriminate].
      * split; [|reflexivity]. apply wf_block; tauto.
      * split; [|discriminate]. apply wf_block; tauto.
  - unfold json_norm_v, json_value in *. destruct (is_int_ty (v_type v)) eqn:It.
    + rewrite (meaning_int_ty v It). destruct (int_val v W It) as [_ B]. split; [now apply wf_val_sint|]. cbn [v_type val_int]. destruct (_ <? _); discriminate.
    + assert (FP : v_type v = TFP32 \/ v_type v = TFP64 -> meaning_of v = MeFloat (v_double v)) by (intros [T|T]; unfold meaning_of; now rewrite T).
      pose proof (double_range v W) as DR.
      assert (FC : v_type v = TFP32 \/ v_type v = TFP64 -> wf_value (json_norm_v v) /\ (v_type (json_norm_v v) = TString -> v_enc (json_norm_v v) = EUTF8)).
      { intros T. unfold json_norm_v. rewrite (FP T) in *. destruct (whole (v_double v)) as [n|] eqn:Wh.
        - apply whole_range in Wh. split; [apply wf_val_sint; unfold_words; lia|]. cbn [v_type val_int]. destruct (_ <? _); discriminate.
        - split; [now apply wf_val_f64, DR|]. unfold val_f64. destruct (narrow64 _); discriminate. }
      unfold json_norm_v in FC. unfold wf_value in W. destruct (v_type v) eqn:T; try discriminate It; try discriminate P1; try contradiction; auto;
        unfold meaning_of in C |- *; rewrite T in *.
      * split; [|discriminate]. destruct W as [-> | ->]; [now left|now right].
      * split; [exact I|discriminate].
      * split; [|reflexivity]. apply wf_block; tauto.
      * split; [|reflexivity]. apply wf_block; [apply b64_text_plain; tauto|]. rewrite b64_text_len. Z.to_euclidean_division_equations. lia.
Qed.
Lemma norm_meaning x p v : wf_value v -> vcarries x p v -> meaning_of (norm_of p v) = hmean p (meaning_of v).
Proof.
  intros W C. destruct p; cbn [norm_of hmean vcarries] in *; [now apply psrl_norm_meaning|now apply mp_norm_meaning|now apply (json_norm_meaning x)].
Qed.
Lemma json_enc v s : meaning_of v = MeStr s -> v_type v = TString.
Proof. unfold meaning_of. destruct (v_type v); congruence. Qed.
Lemma vcarries_again x p q v : wf_value v -> vcarries x p v -> vcarries x q v -> vcarries x q (norm_of p v).
Proof.
  intros W P Q. pose proof (norm_meaning x p v W P) as M. pose proof (norm_ok x p v W P) as [_ E].
  assert (JJ : json_value x v -> json_meaning (meaning_of v) <> MeInt (- two63)).
  { unfold json_value. destruct (meaning_of v) as [| | |d| | | | |] eqn:Me; cbn [json_meaning]; try discriminate; [congruence|].
    destruct (whole d) as [n|]; [|discriminate]. intros H X. injection X as ->. now apply H. }
  destruct q as [|st|st]; cbn [vcarries] in *; [|exact I|].
  - rewrite M. destruct p; cbn [hmean vcarries] in *; [exact Q|exact Q|]. apply JJ. exact P.
  - unfold json_value in Q |- *. rewrite M. destruct p as [s|s|s]; cbn [hmean vcarries] in *.
    + destruct (meaning_of v) as [| | | |b| | | |] eqn:Me; try exact Q. apply E. eapply json_enc; eauto.
    + destruct (meaning_of v) as [| | | |b| | | |] eqn:Me; try exact Q. apply E. eapply json_enc; eauto.
    + specialize (JJ P). destruct (meaning_of v) as [| |n|d|b|b| | |] eqn:Me; cbn [json_meaning] in *; try exact Q.
      * destruct (whole d) as [n|] eqn:Wh; [congruence|]. now rewrite Wh.
      * apply E. eapply json_enc; eauto.
      * apply E. eapply json_enc; eauto.
Qed.
Definition vcarry (x : fp_text) (p : parser) (d : doc) : Prop := all_vals (fun _ v => vcarries x p v) d.
Lemma carries_vals x p d : carries x p d -> vcarry x p d.
Proof.
  intros (W & _ & C). unfold vcarry. destruct p; cbn [vcarries]; try tauto. clear. induction d as [|n t its IH] using doc_ind2; [exact I|].
  cbn [all_vals]. induction IH as [|y l E F IHl]; [exact I|]. split; [exact E|exact IHl].
Qed.
Lemma wf_norm x p : forall d nm, wf_doc d -> vcarry x p d -> wf_doc (doc_norm (norm_of p) nm d).
Proof.
  assert (NM : forall (nm : bool) k, wf_name k -> wf_name (if nm then k else [])).
  { intros [|] k H; [exact H|]. split; [constructor|cbn; lia]. }
  unfold vcarry. induction d as [k v|k t its IH] using doc_ind2; intros nm W C.
  - cbn [doc_norm wf_doc all_vals] in *. destruct W as [W1 W2]. split; [auto|]. now apply (norm_ok x p v).
  - cbn [doc_norm]. apply wf_doc_scope in W. destruct W as (W1 & W2 & W3). apply wf_doc_scope. split; [auto|]. split; [exact W2|].
    cbn [all_vals] in C. generalize (ty_eqb t TObject). intros b. clear W1 W2 nm. induction IH as [|y l E F IHl]; cbn [map]; [constructor|].
    inversion W3; subst. destruct C as [C1 C2]. constructor; [now apply E|]. apply IHl; auto.
Qed.
Lemma all_vals_norm (P : value -> Prop) (Q : value -> Prop) nv : forall d nm, wf_doc d -> all_vals (fun _ v => P v) d -> (forall v, wf_value v -> P v -> Q (nv v)) ->
  all_vals (fun _ v => Q v) (doc_norm nv nm d).
Proof.
  induction d as [k v|k t its IH] using doc_ind2; intros nm W A H.
  - cbn [doc_norm all_vals wf_doc] in *. apply H; tauto.
  - cbn [doc_norm all_vals] in *. apply wf_doc_scope in W. destruct W as (_ & _ & W). generalize (ty_eqb t TObject). intros b.
    induction IH as [|y l E F IHl]; cbn [map]; [exact I|]. inversion W; subst. destruct A as [A1 A2]. split; [apply E; auto|]. apply IHl; auto.
Qed.
Lemma small_norm nv : forall d nm, small_scopes d -> small_scopes (doc_norm nv nm d).
Proof.
  induction d as [k v|k t its IH] using doc_ind2; intros nm H; [exact I|]. cbn [doc_norm]. apply small_scopes_scope in H. destruct H as [H1 H2].
  apply small_scopes_scope. split; [unfold zlen in *; now rewrite map_length|]. apply Forall_map. generalize (ty_eqb t TObject). intros b.
  induction IH as [|y l E F IHl]; [constructor|]. inversion H2; subst. constructor; [now apply E|]. apply IHl; auto. rewrite zlen_cons in H1. lia.
Qed.
Lemma names_norm nv : forall d nm, json_names nm d -> json_names nm (doc_norm nv nm d).
Proof.
  induction d as [k v|k t its IH] using doc_ind2; intros nm H; cbn [doc_norm json_names] in *.
  - intros ->. now apply H.
  - destruct H as [H1 H2]. split; [intros ->; now apply H1|]. induction IH as [|y l E F IHl]; cbn [map]; [exact I|]. destruct H2 as [H2 H3]. split; [now apply E|exact (IHl H3)].
Qed.
Lemma all_vals_and (P Q : value -> Prop) : forall d, all_vals (fun _ v => P v) d -> all_vals (fun _ v => Q v) d -> all_vals (fun _ v => P v /\ Q v) d.
Proof.
  induction d as [k v|k t its IH] using doc_ind2; cbn [all_vals]; [tauto|]. intros A B. induction IH as [|y l E F IHl]; [exact I|].
  destruct A as [A1 A2], B as [B1 B2]. split; [now apply E|exact (IHl A2 B2)].
Qed.
Lemma carries_again x p q u : carries x p u -> carries x q u -> carries x q (dnorm p u).
Proof.
  intros CP CQ. pose proof (carries_vals x p u CP) as VP. pose proof (carries_vals x q u CQ) as VQ. destruct CP as (W & Sc & _).
  pose proof (wf_norm x p u false W VP) as WN. split; [exact WN|]. split; [destruct u; [destruct Sc|exact I]|].
  assert (VA : vcarry x q (dnorm p u)).
  { apply (all_vals_norm (fun v => vcarries x p v /\ vcarries x q v)); [exact W|now apply all_vals_and|]. intros v Wv [A B]. now apply vcarries_again. }
  destruct CQ as (_ & _ & CQ). destruct q; cbn [vcarries] in *.
  - split; [exact VA|]. unfold dnorm. rewrite events_norm_length. tauto.
  - now apply small_norm.
  - split; [exact VA|]. apply names_norm. tauto.
Qed.
(** meanings *)
Fixpoint mdel (h : meaning -> meaning) (nm : bool) (m : mdoc) : mdoc :=
  match m with
  | MVal k v => MVal (if nm then k else []) (h v)
  | MScope k t its => MScope (if nm then k else []) t (map (mdel h (ty_eqb t TObject)) its)
  end.
Lemma map_map_ext {A B C} (f : B -> C) (g : A -> B) (h : A -> C) l : Forall (fun x => f (g x) = h x) l -> map f (map g l) = map h l.
Proof. induction 1 as [|x l E F IH]; cbn; [reflexivity|]. now rewrite E, IH. Qed.
Lemma fdenote_mdel p : forall d nm, fdenote p nm d = mdel (hmean p) nm (mdoc_of d).
Proof.
  induction d as [k v|k t its IH] using doc_ind2; intros nm.
  - destruct p; reflexivity.
  - cbn [mdoc_of mdel]. rewrite (map_map_ext _ _ (fdenote p (ty_eqb t TObject))); [destruct p; reflexivity|].
    eapply Forall_impl; [|exact IH]. cbv beta. auto.
Qed.
Lemma mdel_mdel h1 h2 : (forall m, h2 (h1 m) = h1 m) -> forall d nm, mdel h2 nm (mdel h1 nm (mdoc_of d)) = mdel h1 nm (mdoc_of d).
Proof.
  intros H. induction d as [k v|k t its IH] using doc_ind2; intros nm; cbn [mdoc_of mdel].
  - rewrite H. now destruct nm.
  - f_equal; [now destruct nm|]. rewrite !map_map. apply map_ext_in. intros a A. rewrite Forall_forall in IH. now apply IH.
Qed.
Definition is_json (p : parser) : bool := match p with JsonP _ => true | _ => false end.
Lemma json_meaning_idem m : json_meaning (json_meaning m) = json_meaning m.
Proof. destruct m as [| | |d| | | | |]; try reflexivity. cbn. destruct (whole d) eqn:E; cbn; [reflexivity|]. now rewrite E. Qed.
Lemma delivered_stable x p q u : carries x p u -> is_json q = false \/ is_json p = true -> delivered q (dnorm p u) = mdoc_of (dnorm p u).
Proof.
  intros C H. rewrite delivered_eq, fdenote_mdel, (dnorm_delivered x p u C), delivered_eq, fdenote_mdel. apply mdel_mdel. intros m.
  destruct q; cbn [is_json hmean] in *; try reflexivity. destruct H as [H|H]; [discriminate|]. destruct p; try discriminate H. apply json_meaning_idem.
Qed.
Lemma values_first_norm nv : forall d nm, values_first (doc_norm nv nm d) = doc_norm nv nm (values_first d).
Proof.
  induction d as [k v|k t its IH] using doc_ind2; intros nm; [reflexivity|]. cbn [doc_norm]. rewrite !vf_eq. cbn [doc_norm]. f_equal. rewrite map_app.
  generalize (ty_eqb t TObject). intros b. f_equal.
  - clear IH. induction its as [|[? ?|? ? ?] l IHl]; cbn [map filter doc_norm d_val]; [reflexivity|now rewrite IHl|exact IHl].
  - induction IH as [|y l E F IHl]; [reflexivity|]. destruct y as [? ?|k' t' its']; cbn [map filter doc_norm d_val negb]; [exact IHl|].
    rewrite IHl. f_equal. apply (E b).
Qed.
Lemma utf8_values_first : forall d u, utf8_doc d u -> utf8_doc (values_first d) (values_first u).
Proof.
  induction d as [k v|k t its IH] using doc_ind2; intros u H; inversion H as [? ? v' Sv|? ? ? its' F]; subst; [exact H|]. rewrite !vf_eq. constructor. clear H.
  apply Forall2_app.
  - clear IH. induction F as [|d u l l' Hd F IHF]; [constructor|]. destruct Hd; cbn [filter d_val]; [constructor; [now constructor|exact IHF]|exact IHF].
  - revert IH. induction F as [|d u l l' Hd F IHF]; intros IH; [constructor|]. inversion IH as [|? ? I1 I2]; subst.
    pose proof (I1 u Hd) as Q. destruct Hd; cbn [filter d_val negb map]; [auto|]. constructor; auto.
Qed.
Lemma utf8_depth : forall d u, utf8_doc d u -> depth d = depth u.
Proof.
  induction d as [k v|k t its IH] using doc_ind2; intros u H; inversion H as [? ? v' Sv|? ? ? its' F]; subst; [reflexivity|]. cbn [depth]. f_equal. clear H.
  revert IH. induction F as [|d u l l' Hd F IHF]; intros IH; [reflexivity|]. inversion IH; subst. cbn [fold_right]. f_equal; auto.
Qed.
Lemma utf8_refl_norm x p : forall d nm, wf_doc d -> vcarry x p d -> utf8_doc (doc_norm (norm_of p) nm d) (doc_norm (norm_of p) nm d).
Proof.
  unfold vcarry. induction d as [k v|k t its IH] using doc_ind2; intros nm W C; cbn [doc_norm]; constructor.
  - constructor. cbn [wf_doc all_vals] in *. apply (norm_ok x p v); tauto.
  - apply wf_doc_scope in W. destruct W as (_ & _ & W). cbn [all_vals] in C. generalize (ty_eqb t TObject). intros b.
    induction IH as [|y l E F IHl]; cbn [map]; [constructor|]. inversion W; subst. destruct C as [C1 C2]. constructor; [now apply E|]. apply IHl; auto.
Qed.

(** * Trees *)
Lemma values_first_utf8 : forall n k u, utf8_doc (tree_doc k n) u -> values_first u = u.
Proof.
  induction n as [t vs ns IH] using node_ind'. intros k u H. rewrite tree_doc_eq in H. inversion H as [|? ? ? its' F]; subst. rewrite vf_eq. f_equal. clear H.
  apply Forall2_app_inv_l in F. destruct F as (A & B & FA & FB & ->). rewrite !filter_app.
  assert (X1 : filter d_val A = A /\ filter (fun m => negb (d_val m)) A = []).
  { unfold val_docs in FA. clear - FA. revert FA. revert A. induction vs as [|[k v] l IHl]; intros A F; inversion F as [|? a ? A' Ha FA']; subst; [auto|].
    inversion Ha; subst. cbn [filter d_val negb]. destruct (IHl A' FA') as [-> ->]. auto. }
  assert (X2 : filter d_val B = [] /\ map values_first (filter (fun m => negb (d_val m)) B) = B).
  { unfold docs_of in FB. clear X1 FA. revert FB. revert B. induction IH as [|[k0 c] l E F IHl]; intros B FB; inversion FB as [|? b ? B' Hb FB']; subst; [auto|].
    cbn [fst snd] in *. pose proof (E k0 b Hb) as Q. destruct (tree_doc_scope k0 c) as (t' & i' & T). rewrite T in Hb. inversion Hb; subst.
    cbn [filter d_val negb map]. destruct (IHl B' FB') as [-> ->]. now rewrite Q. }
  rewrite map_app. destruct X1 as [-> ->], X2 as [-> ->]. cbn [map app]. now rewrite app_nil_r.
Qed.
Lemma write_all_tree x p k n : write_all x p (node_events k n) = write_all x p (events (tree_doc k n)).
Proof. apply write_all_same, node_events_doc. Qed.
Lemma save_memory x p k n p' ops : write_all x p (node_events k n) = Ok (p', ops) -> valid_ops [] ops ->
  forall m, zlen (spec_out ops) < 2 ^ 32 -> exists h, save_tree x p (heap_init m) k n = Ok (p', spec_out ops, h).
Proof.
  intros E V m L. destruct (run_jobs_spec [ToMemory ops] (heap_init m) (heap_ok_init m)) as (h & J & _).
  - constructor; [|constructor]. split; auto.
  - exists h. unfold save_tree. rewrite E. cbn [rbind]. cbn [run_jobs run_job map job_result] in J.
    destruct (save_buffer (heap_init m) ops) as [[bs h1]| | |]; cbn [rbind] in *; try discriminate J. injection J as -> ->. reflexivity.
Qed.
Lemma saved_loaded x p k n u : utf8_doc (tree_doc k n) u -> carries x p u ->
  exists bs, saves_as x p k n bs /\
    if Nat.leb (depth u) 129 then loads_as x p bs (doc_name (dnorm p u)) (doc_node (dnorm p u)) else rejected x p bs.
Proof.
  intros U C. destruct (written x p (tree_doc k n) u C U) as (p' & ops & E & V & R). exists (spec_out ops). split.
  - exists p', ops. rewrite write_all_tree. split; [exact E|]. split; [exact V|]. split; [reflexivity|]. intros m L. apply save_memory; auto. now rewrite write_all_tree.
  - destruct (Nat.leb (depth u) 129) eqn:D.
    + exists (length (spec_out ops) + length (events u) + 5)%nat. intros q F before rest SF L. destruct (R q SF F before rest L) as (q' & Q). eauto.
    + exists (length (spec_out ops) + length (events u) + 5)%nat. intros q F before rest SF L. destruct (R q SF F before rest L) as (q' & Q). exact Q.
Qed.
Lemma loaded_tree_doc p k n u : utf8_doc (tree_doc k n) u -> tree_doc (doc_name (dnorm p u)) (doc_node (dnorm p u)) = dnorm p u.
Proof.
  intros U. rewrite tree_of_doc.
  - unfold dnorm. rewrite values_first_norm. now rewrite (values_first_utf8 n k u U).
  - destruct (tree_doc_scope k n) as (t & its & E). rewrite E in U. inversion U; subst. exact I.
Qed.
Lemma resaved x p q k n u : utf8_doc (tree_doc k n) u -> carries x p u -> carries x q u -> (depth u <= 129)%nat ->
  exists bs1 k1 n1 bs2 k2 n2,
    saves_as x p k n bs1 /\ loads_as x p bs1 k1 n1 /\ mdoc_of (tree_doc k1 n1) = delivered p u /\
    saves_as x q k1 n1 bs2 /\ loads_as x q bs2 k2 n2 /\ mdoc_of (tree_doc k2 n2) = delivered q (tree_doc k1 n1) /\
    (is_json q = false \/ is_json p = true -> mdoc_of (tree_doc k2 n2) = mdoc_of (tree_doc k1 n1)).
Proof.
  intros U CP CQ D. assert (D' : Nat.leb (depth u) 129 = true) by (apply Nat.leb_le; exact D).
  destruct (saved_loaded x p k n u U CP) as (bs1 & S1 & L1). rewrite D' in L1.
  pose proof (loaded_tree_doc p k n u U) as T1. set (k1 := doc_name (dnorm p u)) in *. set (n1 := doc_node (dnorm p u)) in *.
  pose proof (carries_again x p q u CP CQ) as C1. pose proof (dnorm_delivered x p u CP) as M1.
  assert (U1 : utf8_doc (tree_doc k1 n1) (dnorm p u)). { rewrite T1. apply (utf8_refl_norm x p); [apply CP|now apply carries_vals]. }
  destruct (saved_loaded x q k1 n1 (dnorm p u) U1 C1) as (bs2 & S2 & L2).
  replace (Nat.leb (depth (dnorm p u)) 129) with true in L2.
  2:{ symmetry. apply Nat.leb_le. rewrite <- mdepth_mdoc, M1, delivered_eq, (keeps_depth _ _ (fdenote_keeps p)). exact D. }
  pose proof (loaded_tree_doc q k1 n1 (dnorm p u) U1) as T2. pose proof (dnorm_delivered x q (dnorm p u) C1) as M2.
  exists bs1, k1, n1, bs2, (doc_name (dnorm q (dnorm p u))), (doc_node (dnorm q (dnorm p u))). rewrite T1, T2.
  split; [exact S1|]. split; [exact L1|]. split; [exact M1|]. split; [exact S2|]. split; [exact L2|]. split; [exact M2|].
  intros H. rewrite M2. now apply (delivered_stable x).
Qed.
(** a document written by someone else: what loading keeps *)
Lemma loaded_doc x p u : carries x p u -> utf8_doc u u -> (depth u <= 129)%nat ->
  exists p' ops k' n', write_all x p (events u) = Ok (p', ops) /\ loads_as x p (spec_out ops) k' n' /\
    mdoc_of (tree_doc k' n') = delivered p (values_first u).
Proof.
  intros C U D. destruct (written x p u u C U) as (p' & ops & E & V & R). exists p', ops, (doc_name (dnorm p u)), (doc_node (dnorm p u)). split; [exact E|]. split.
  - exists (length (spec_out ops) + length (events u) + 5)%nat. intros q F before rest SF L. destruct (R q SF F before rest L) as (q' & Q).
    exists q'. rewrite Q. now replace (Nat.leb (depth u) 129) with true by (symmetry; now apply Nat.leb_le).
  - rewrite delivered_eq. destruct C as (W & Sc & C). eapply loaded_meaning; [apply fdenote_keeps|exact Sc|]. rewrite <- delivered_eq. apply (dnorm_delivered x). split; auto.
Qed.
Lemma depth_limit x p u : carries x p u -> utf8_doc u u ->
  exists p' ops, write_all x p (events u) = Ok (p', ops) /\
    if Nat.leb (depth u) 129 then exists k' n', loads_as x p (spec_out ops) k' n' else rejected x p (spec_out ops).
Proof.
  intros C U. destruct (written x p u u C U) as (p' & ops & E & V & R). exists p', ops. split; [exact E|]. destruct (Nat.leb (depth u) 129) eqn:D.
  - exists (doc_name (dnorm p u)), (doc_node (dnorm p u)). exists (length (spec_out ops) + length (events u) + 5)%nat. intros q F before rest SF L.
    destruct (R q SF F before rest L) as (q' & Q). eauto.
  - exists (length (spec_out ops) + length (events u) + 5)%nat. intros q F before rest SF L. destruct (R q SF F before rest L) as (q' & Q). exact Q.
Qed.
