(** Writing a document as JSON and reading it back. *)
From Coq Require Import ZArith List Bool Lia ZifyBool ZifyNat.
From Verif Require Import Base Lemmas M_Types M_Conv M_Charset M_In S_Conv S_Doc S_Json M_OutOps S_Out M_Event M_Env M_Json
  P_Conv P_Text P_Float P_Paste P_Doc P_Charset P_In P_Scan P_JsonStr P_JsonLit.
Import ListNotations.
Open Scope Z_scope.

(** * What is written *)
Section Text.
  Variables (compact : bool) (x : fp_text).
  Definition sep (closed : bool) (stack : list ty) (t : ty) : bytes :=
    (if negb closed && negb (ty_eqb t TScopeEnd) then [44] else []) ++
    (if compact then [] else
      (if Nat.ltb 0 (length stack) then [10] else []) ++
      repeat 9 (if ty_eqb t TScopeEnd && Nat.ltb 0 (length stack) then length stack - 1 else length stack)%nat).
  Definition has_name (scope t : ty) : bool := ty_eqb scope TObject && negb (ty_eqb t TScopeEnd).
  Definition nametext (scope : ty) (e : event) : bytes :=
    if has_name scope (v_type (snd e)) then (34 :: fst e ++ [34]) ++ 58 :: (if compact then [] else [32]) else [].
  Definition vtext (scope : ty) (v : value) : bytes :=
    match v_type v with
    | TObject => [123] | TArray => [91]
    | TScopeEnd => [if ty_eqb scope TArray then 93 else 125]
    | TString => 34 :: escaped (v_data v) ++ [34]
    | TBinary => 34 :: b64_text (v_data v) ++ [34]
    | _ => match type_to_str x v with Ok t => t | _ => [] end
    end.
  Definition core (stack : list ty) (e : event) : bytes := nametext (top stack) e ++ vtext (top stack) (snd e).
  Fixpoint jout (stack : list ty) (closed : bool) (es : list event) : bytes :=
    match es with
    | [] => []
    | e :: es' => sep closed stack (v_type (snd e)) ++ core stack e ++ jout (next_stack stack e) (is_scope (v_type (snd e))) es'
    end.
End Text.

Ltac wo1 := repeat (apply Forall_cons; [eexists; reflexivity|]); apply Forall_nil.
Definition scopes (stack : list ty) : Prop := Forall (fun t => t = TObject \/ t = TArray) stack.
Lemma next_scopes stack e : scopes stack -> scopes (next_stack stack e).
Proof.
  intros H. unfold next_stack. destruct (v_type (snd e)); try exact H; try (constructor; auto; fail).
  destruct H; [constructor|assumption].
Qed.
Lemma top_scopes stack : scopes stack -> top stack = TNull /\ stack = [] \/ top stack = TObject \/ top stack = TArray.
Proof. intros [|t s [->| ->] _]; cbn; auto. Qed.
Lemma stack_top_eq s : stack_top s = top s.
Proof. reflexivity. Qed.

Definition jok (x : fp_text) := ev_ok_gen (json_value x).

Lemma to_utf8_id d : to_utf8 d EUTF8 = Ok d.
Proof.
  unfold to_utf8. destruct d as [|c d]; [reflexivity|]. set (l := c :: d).
  unfold conv_charset. unfold l at 1. cbn [enc_eqb]. fold l. change (enc_eqb EUTF8 EUTF8) with true. cbv iota zeta.
  assert (H : zlen l <= zlen (if zlen (@nil Z) <? zlen l + 0 then resize [] (zlen l + 0) else [])).
  { destruct (Z.ltb_spec (zlen (@nil Z)) (zlen l + 0)); [|lia]. rewrite resize_len by (pose proof (zlen_nonneg l); lia). lia. }
  set (b := if zlen (@nil Z) <? zlen l + 0 then _ else _) in *.
  unfold store. unfold l at 1. fold l. replace (0 + zlen l <=? zlen b) with true by lia. cbn [rbind]. f_equal.
  cbn [Z.to_nat firstn app]. replace (Z.to_nat (zlen l)) with (length l) by (unfold zlen; lia). now rewrite firstn_app_exact.
Qed.

Lemma flat_cons b ops : flat (OWrite b :: ops) = b ++ flat ops.
Proof. reflexivity. Qed.

Lemma json_save_spec x stack st e : j_stack st = stack -> j_type st = top stack -> scopes stack -> jok x stack e ->
  exists st' ops, json_save x st e = Ok (st', ops) /\ writes_only ops /\
    flat ops = sep (j_compact st) (j_closed st) stack (v_type (snd e)) ++ core (j_compact st) x stack e /\
    j_stack st' = next_stack stack e /\ j_type st' = top (next_stack stack e) /\
    j_closed st' = is_scope (v_type (snd e)) /\ j_compact st' = j_compact st /\ j_nbuf st' = j_nbuf st /\ j_vbuf st' = j_vbuf st.
Proof.
  intros Hs Ht Hsc [Wn Hv]. destruct e as [name v]. cbn [fst snd] in *.
  assert (HEAD : forall t, writes_only (insert_spacing st t ++ write_name st t name) /\
     flat (insert_spacing st t ++ write_name st t name) = sep (j_compact st) (j_closed st) stack t ++
       (if has_name (top stack) t then (34 :: name ++ [34]) ++ 58 :: (if j_compact st then [] else [32]) else [])).
  { intros t. unfold insert_spacing, write_name, sep, has_name. rewrite Hs, Ht.
    replace (negb (ty_eqb (top stack) TNull) && negb (ty_eqb (top stack) TArray) && negb (ty_eqb t TScopeEnd)) with
      (ty_eqb (top stack) TObject && negb (ty_eqb t TScopeEnd)) by (destruct (top_scopes _ Hsc) as [[-> _]|[-> | ->]]; reflexivity).
    split.
    - destruct (negb (j_closed st) && _), (j_compact st), (ty_eqb (top stack) TObject && _), (0 <? length stack)%nat; cbn [app]; 
        repeat (apply Forall_cons; [eexists; reflexivity|]); try apply Forall_nil.
    - destruct (negb (j_closed st) && _), (j_compact st), (ty_eqb (top stack) TObject && _), (0 <? length stack)%nat; 
        cbn [app insert_in_quotes]; rewrite ?flat_cons; cbn [flat flat_map app]; rewrite ?app_nil_r; repeat (rewrite <- ?app_assoc; cbn [app]); try reflexivity. }
  assert (GO : forall t body, v_type v = t -> writes_only body -> flat body = vtext x (top stack) v ->
     writes_only ((insert_spacing st t ++ write_name st t name) ++ body) /\
     flat ((insert_spacing st t ++ write_name st t name) ++ body) = sep (j_compact st) (j_closed st) stack (v_type v) ++ core (j_compact st) x stack (name, v)).
  { intros t body E Wb Fb. destruct (HEAD t) as [H1 H2]. split; [now apply writes_only_app|]. rewrite flat_app, H2, Fb, E.
    unfold core, nametext. cbn [fst snd]. rewrite E. now rewrite app_assoc. }
  unfold json_save, env_event. cbn [fst snd].
  destruct Hv as [[Wv Jv]|[[Hv|Hv]|[Hv Ns]]].
  - (* a value *)
    assert (NSc : is_scope (v_type v) = false /\ ty_eqb (v_type v) TScopeEnd = false /\ next_stack stack (name, v) = stack).
    { unfold next_stack. cbn [snd]. unfold wf_value in Wv. destruct (v_type v); try contradiction; auto. }
    destruct NSc as (N1 & N2 & N3). unfold env_value. rewrite N1, N2. cbn [orb negb andb].
    replace (ty_eqb (v_type v) TString && false && enc_eqb (v_enc v) EUTF8 || negb (ty_eqb (v_type v) TString) && false) with false by (rewrite !andb_false_r; reflexivity).
    assert (V : exists d body, conv_type x v = Ok (val_block d (v_type v)) /\ zlen d < two32 /\ writes_only body /\ flat body = vtext x (top stack) v /\
       body = if is_scalar (v_type v) then [OWrite d] else insert_in_quotes d (negb (ty_eqb (v_type v) TBinary))).
    { destruct (is_scalar (v_type v)) eqn:S.
      - destruct (lit_spec x v Wv Jv S) as (t & L). exists t, [OWrite t].
        split; [|split; [pose proof (lo_len _ _ _ L); unfold_words; lia|split; [wo1|split; [|reflexivity]]]].
        + unfold conv_type. destruct (v_type v) eqn:T; try discriminate S; cbn [is_scalar] in *; rewrite (lo_print _ _ _ L); reflexivity.
        + cbn [flat flat_map]. rewrite app_nil_r. unfold vtext. rewrite (lo_print _ _ _ L).
          destruct (v_type v) eqn:T; try discriminate S; reflexivity.
      - unfold json_value, meaning_of in Jv. unfold wf_value in Wv. destruct (v_type v) eqn:T; try discriminate S; try contradiction.
        + exists (v_data v), (insert_in_quotes (v_data v) true). split; [|split; [|split; [|split]]].
          * unfold conv_type. rewrite T, Jv, to_utf8_id. reflexivity.
          * unfold_words. tauto.
          * unfold insert_in_quotes. apply Forall_cons; [eexists; reflexivity|]. apply writes_only_app; [apply writes_only_escape|wo1].
          * unfold insert_in_quotes. rewrite flat_cons, flat_app, flat_write_escape. unfold vtext. rewrite T. reflexivity.
          * reflexivity.
        + exists (b64_text (v_data v)), (insert_in_quotes (b64_text (v_data v)) false). split; [|split; [|split; [|split]]].
          * unfold conv_type. rewrite T. cbn [is_scalar]. rewrite b64_text_eq by tauto. reflexivity.
          * rewrite b64_text_len. unfold_words. Z.to_euclidean_division_equations. lia.
          * unfold insert_in_quotes. wo1.
          * unfold vtext. rewrite T. reflexivity.
          * reflexivity. }
    destruct V as (d & body & C & Ld & Wb & Fb & Eb). rewrite C. cbn [rbind]. unfold json_write. cbn [fst snd].
    change (v_type (val_block d (v_type v))) with (v_type v). replace (v_data (val_block d (v_type v))) with d by (symmetry; now apply trunc_block_id). rewrite N1, N2.
    destruct (GO (v_type v) body eq_refl Wb Fb) as [G1 G2]. rewrite <- Eb.
    eexists _, _. split; [reflexivity|]. split; [exact G1|]. split; [exact G2|]. cbn [j_stack j_type j_closed j_compact j_nbuf j_vbuf].
    rewrite N3. repeat split; auto.
  - subst v. destruct (GO TObject [OWrite [123]] eq_refl ltac:(wo1) eq_refl) as [G1 G2].
    eexists _, _. split; [reflexivity|]. split; [exact G1|]. split; [exact G2|]. rewrite Hs. repeat split; auto.
  - subst v. destruct (GO TArray [OWrite [91]] eq_refl ltac:(wo1) eq_refl) as [G1 G2].
    eexists _, _. split; [reflexivity|]. split; [exact G1|]. split; [exact G2|]. rewrite Hs. repeat split; auto.
  - subst v. destruct stack as [|t s]; [congruence|].
    destruct (GO TScopeEnd [OWrite [if ty_eqb (j_type st) TArray then 93 else 125]] eq_refl ltac:(wo1)) as [G1 G2].
    { unfold vtext. cbn [v_type val_type]. rewrite Ht. reflexivity. }
    cbn [env_value v_type val_type]. unfold json_write. change (is_scope TScopeEnd) with false. change (ty_eqb TScopeEnd TScopeEnd) with true.
    cbv iota. rewrite Hs.
    eexists _, _. split; [reflexivity|]. split; [exact G1|]. split; [exact G2|]. repeat split; auto.
Qed.

Lemma escaped_len s : (length s <= length (escaped s))%nat.
Proof.
  unfold escaped. induction s as [|c s IH]; cbn [flat_map length]; [lia|]. rewrite app_length.
  assert (1 <= length (escape_char c))%nat by (unfold escape_char; repeat match goal with |- context [if ?b then _ else _] => destruct b end; cbn; lia). lia.
Qed.

(** * Reading, one round at a time *)
Definition skipc (c : Z) : Prop := In c [32; 44; 10; 9; 13].
Definition marks : list Z := [34; 58; 123; 91; 125; 93; 47].
(** the seek stops at [c] *)
Definition stops (st : pjson) (s : jstate) (c : Z) : Prop :=
  if negb (s_reading s) && negb (ty_eqb (j_type st) TArray) then In c marks else ~ skipc c.

Lemma tok_chars l c : forall n, tok_at (map TkChar l) c n = (existsb (Z.eqb c) l, n).
Proof. induction l as [|a l IH]; intros n; cbn [map tok_at existsb]; [reflexivity|]. destruct (c =? a); [reflexivity|]. apply IH. Qed.
Lemma existsb_In c l : existsb (Z.eqb c) l = true <-> In c l.
Proof. rewrite existsb_exists. split; [intros (y & H & E); apply Z.eqb_eq in E; now subst|intros H; exists c; split; [exact H|apply Z.eqb_refl]]. Qed.
Lemma existsb_nIn c l : existsb (Z.eqb c) l = false <-> ~ In c l.
Proof. rewrite <- existsb_In. destruct (existsb _ _); split; congruence. Qed.
Lemma no_pairs l : forallb (fun t => negb (is_pair t)) (map TkChar l) = true.
Proof. induction l; auto. Qed.

Lemma rd_seek lim F st s w c rest : Forall skipc w -> stops st s c -> (length w < F)%nat ->
  exists r, rd lim (seek_item F st s) w (c :: rest) r.
Proof.
  intros W S L. unfold seek_item, stops in *. destruct (_ && _).
  - apply (rd_move_until lim (map TkChar marks)); auto using no_pairs.
    + eapply Forall_impl; [|exact W]. intros b Hb n. rewrite tok_chars. cbn [fst]. apply existsb_nIn. unfold skipc in Hb. cbn in *. lia.
    + intros n. rewrite tok_chars. cbn [fst]. now apply existsb_In.
  - apply (rd_move_while lim (map TkChar [32; 44; 10; 9; 13])); auto using no_pairs.
    + eapply Forall_impl; [|exact W]. intros b Hb n. rewrite tok_chars. cbn [fst]. now apply existsb_In.
    + intros n. rewrite tok_chars. cbn [fst]. now apply existsb_nIn.
Qed.

(** one round: seek over [w], process an item, move on *)
Lemma rd_loop lim x F n st s w c r b1 b2 rest st' s' (move : bool) out :
  Forall skipc w -> stops st s c -> (length w < F)%nat -> b1 ++ b2 ++ rest = c :: r ->
  rd lim (process_item x F st s) b1 (b2 ++ rest) (st', s', move) ->
  rd lim (let next := if s_complete s' then Ret (st', (s_name s', s_value s')) else json_loop x F n st' s' in
          if move then Move 1 next else next) b2 rest out ->
  rd lim (json_loop x F (S n) st s) (w ++ b1 ++ b2) rest out.
Proof.
  intros W S L E P N. cbn [json_loop]. destruct (rd_seek lim F st s w c r W S L) as [q Q]. rewrite <- E in Q.
  rewrite app_assoc in Q. eapply rd_bind; [exact Q|]. cbv beta. eapply rd_bind; [exact P|]. exact N.
Qed.

Lemma bracket_item lim x F st s c rest : In c [123; 125; 91; 93] ->
  forall st' s', rd lim (process_bracket st c s) [] (c :: rest) (st', s') -> rd lim (process_item x F st s) [] (c :: rest) (st', s', true).
Proof.
  intros I st' s' H. unfold process_item. apply (rd_deref _ _ c rest); [reflexivity|].
  replace (c =? 34) with false by (cbn in I; lia). replace (c =? 58) with false by (cbn in I; lia).
  replace (existsb (Z.eqb c) [123; 125; 91; 93]) with true by (symmetry; now apply existsb_In).
  eapply rd_bind1; [exact H|]. apply rd_ret.
Qed.

Definition jrel (stack : list ty) (st : pjson) : Prop := j_stack st = stack /\ j_type st = top stack.

(** a bracket completes the event *)
Lemma rd_open lim x F n st s w rest stack t : jrel stack st -> (t = TObject \/ t = TArray) -> Forall skipc w -> (length w < F)%nat ->
  exists st', rd lim (json_loop x F (S n) st s) (w ++ [if ty_eqb t TArray then 91 else 123]) rest (st', (s_name s, val_type t)) /\ jrel (t :: stack) st'.
Proof.
  intros [R1 R2] T W L. set (c := if ty_eqb t TArray then 91 else 123).
  assert (Ic : In c [123; 91]) by (unfold c; destruct T; subst; cbn; auto).
  exists (mkPjson (j_compact st) (t :: j_stack st) t (j_closed st) (j_nbuf st) (j_vbuf st)). split; [|split; cbn; [now rewrite R1|reflexivity]].
  change [c] with ([] ++ [c]). eapply (rd_loop lim x F n st s w c rest [] [c]); auto.
  - unfold stops. destruct (_ && _); unfold marks, skipc; cbn in *; lia.
  - apply (bracket_item lim x F st s c); [cbn in *; tauto|]. unfold process_bracket, c. destruct T; subst; cbn [ty_eqb ty_num Z.eqb Pos.eqb]; apply rd_ret.
  - cbn [s_complete s_name s_value]. apply rd_move1. apply rd_ret.
Qed.

Lemma rd_close lim x F n st s w rest stack c : jrel stack st -> stack <> [] -> (c = 125 \/ c = 93) -> Forall skipc w -> (length w < F)%nat ->
  exists st', rd lim (json_loop x F (S n) st s) (w ++ [c]) rest (st', (s_name s, val_type TScopeEnd)) /\ jrel (tl stack) st'.
Proof.
  intros [R1 R2] N Hc W L. destruct stack as [|t stack]; [congruence|]. cbn [tl].
  exists (mkPjson (j_compact st) stack (stack_top stack) (j_closed st) (j_nbuf st) (j_vbuf st)). split; [|split; reflexivity].
  change [c] with ([] ++ [c]). eapply (rd_loop lim x F n st s w c rest [] [c]); auto.
  - unfold stops. destruct (_ && _); unfold marks, skipc; cbn; lia.
  - apply (bracket_item lim x F st s c); [cbn; lia|]. unfold process_bracket.
    replace (c =? 123) with false by lia. replace (c =? 91) with false by lia. cbn [ty_eqb ty_num Z.eqb Pos.eqb]. rewrite R1. apply rd_ret.
  - cbn [s_complete s_name s_value]. apply rd_move1. apply rd_ret.
Qed.

Lemma top_notnull stack : scopes stack -> stack <> [] -> ty_eqb (top stack) TNull = false.
Proof. intros [|t s [->| ->] _] N; [congruence| |]; reflexivity. Qed.

Lemma quote_item lim x F st s content enc0 rest buf : ty_eqb (j_type st) TNull = false ->
  buf = (if s_named s then j_vbuf st else j_nbuf st) ->
  (exists buf', rd lim (read_unescape F buf) enc0 (34 :: rest) (content, buf')) ->
  forall s', (forall st', j_type st' = j_type st -> process_string st' content s = Ret s') ->
  exists st', rd lim (process_item x F st s) (34 :: enc0) (34 :: rest) (st', s', true) /\ j_stack st' = j_stack st /\ j_type st' = j_type st.
Proof.
  intros T Hb (buf' & H) s' Hs.
  eexists. split.
  - unfold process_item. apply (rd_deref _ _ 34 (enc0 ++ 34 :: rest)); [reflexivity|]. cbn [Z.eqb Pos.eqb].
    eapply rd_bind0.
    + unfold process_quote. rewrite T. apply rd_move1. rewrite <- Hb. eapply rd_bind0; [exact H|]. cbv beta iota zeta.
      rewrite Hs by (destruct (s_named s); reflexivity). apply rd_ret.
    + apply rd_ret.
  - destruct (s_named s); auto.
Qed.

(** a string value completes the event *)
Lemma rd_str lim x F n st s w rest stack content enc0 : jrel stack st -> scopes stack -> stack <> [] ->
  s_reading s = true \/ top stack = TArray -> Forall skipc w -> (length w < F)%nat ->
  (forall buf, exists buf', rd lim (read_unescape F buf) enc0 (34 :: rest) (content, buf')) ->
  exists st', rd lim (json_loop x F (S n) st s) (w ++ 34 :: enc0 ++ [34]) rest (st', (s_name s, val_string content EUTF8)) /\ jrel stack st'.
Proof.
  intros [R1 R2] Sc N M W L U.
  assert (T : ty_eqb (j_type st) TNull = false) by (rewrite R2; now apply top_notnull).
  assert (A : s_reading s || ty_eqb (j_type st) TArray = true).
  { rewrite R2. destruct M as [-> | ->]; [reflexivity|apply orb_true_r]. }
  destruct (quote_item lim x F st s content enc0 rest _ T eq_refl (U _) (mkJs (s_name s) (val_string content EUTF8) true (s_named s) (s_reading s))) as (st' & P & E1 & E2).
  { intros st1 E1. unfold process_string. rewrite E1, A. reflexivity. }
  exists st'. split; [|split; congruence].
  change (34 :: enc0 ++ [34]) with ((34 :: enc0) ++ [34]). eapply (rd_loop lim x F n st s w 34 (enc0 ++ 34 :: rest)); auto.
  - unfold stops. destruct (_ && _); unfold marks, skipc; cbn; lia.
  - exact P.
  - cbn [s_complete s_name s_value]. apply rd_move1. apply rd_ret.
Qed.

(** a field name and its colon *)
Lemma rd_name lim x F n st w rest stack name sp : jrel stack st -> top stack = TObject -> Forall plain_char name ->
  Forall skipc w -> (length w < F)%nat -> (length name < F)%nat ->
  exists st', jrel stack st' /\ forall out, rd lim (json_loop x F n st' (mkJs name (val_type TNull) false true true)) sp rest out ->
  rd lim (json_loop x F (S (S n)) st js_init) (w ++ (34 :: name ++ [34]) ++ 58 :: sp) rest out.
Proof.
  intros [R1 R2] T P W L Ln.
  destruct (quote_item lim x F st js_init name name (58 :: sp ++ rest) (j_nbuf st)) with (s' := mkJs name (val_type TNull) false true false) as (st' & Q & E1 & E2).
  - rewrite R2, T. reflexivity.
  - reflexivity.
  - now apply rd_plain.
  - intros st1 E. unfold process_string. rewrite E, R2, T. reflexivity.
  - exists st'. split; [split; congruence|]. intros out K.
    change ((34 :: name ++ [34]) ++ 58 :: sp) with (34 :: (name ++ [34]) ++ 58 :: sp). rewrite <- app_assoc. cbn [app].
    change (34 :: name ++ 34 :: 58 :: sp) with ((34 :: name) ++ 34 :: 58 :: sp).
    eapply (rd_loop lim x F (S n) st js_init w 34 (name ++ 34 :: 58 :: sp ++ rest)); auto.
    + unfold stops. rewrite R2, T. cbn. auto.
    + exact Q.
    + cbn [s_complete s_name s_value]. apply rd_move1.
      change (58 :: sp) with ([] ++ [] ++ (58 :: sp)).
      eapply (rd_loop lim x F n st' _ [] 58 (sp ++ rest) [] (58 :: sp)); auto.
      * unfold stops. rewrite E2, R2, T. cbn. auto.
      * cbn. lia.
      * unfold process_item. apply (rd_deref _ _ 58 (sp ++ rest)); [reflexivity|]. cbn [Z.eqb Pos.eqb s_reading]. apply rd_ret.
      * cbn [s_complete s_name s_value s_named s_reading]. apply rd_move1. exact K.
Qed.

(** a literal, the white space behind it and the comma *)
Definition lit_toks := [TkChar 44; TkChar 32; TkChar 125; TkChar 93; TkNotify 46].
Lemma lit_tok c : forall n, tok_at lit_toks c n = if existsb (Z.eqb c) [44; 32; 125; 93] then (true, n) else (false, n || (c =? 46)).
Proof. intros n. unfold lit_toks. cbn [tok_at existsb]. destruct (c =? 44), (c =? 32), (c =? 125), (c =? 93); reflexivity. Qed.
Lemma lit_notes t : Forall (fun c => ~ lit_stop c) t -> forall n, notes lit_toks t n = n || existsb (Z.eqb 46) t.
Proof.
  unfold notes. induction 1 as [|c t H F IH]; intros n; cbn [fold_left existsb]; [now rewrite orb_false_r|].
  rewrite lit_tok. replace (existsb (Z.eqb c) [44; 32; 125; 93]) with false by (symmetry; apply existsb_nIn; unfold lit_stop in H; cbn; lia).
  cbn [snd]. rewrite IH, (Z.eqb_sym c 46), orb_assoc. reflexivity.
Qed.

Lemma rd_lit lim x F n st s w rest stack v t ws c : jrel stack st -> s_reading s = true \/ top stack = TArray ->
  Forall skipc w -> (length w < F)%nat -> lit_ok x v t -> Forall ws_nt ws -> c = 44 \/ c = 125 \/ c = 93 ->
  (length (t ++ ws) < F)%nat -> (lim = true -> (length (t ++ ws) < 1000)%nat) ->
  rd lim (json_loop x F (S n) st s) (w ++ (t ++ ws) ++ (if c =? 44 then [44] else []))
     (if c =? 44 then rest else c :: rest) (st, (s_name s, json_norm_v v)).
Proof.
  intros [R1 R2] M W L [LP (c0 & r0 & E0 & Lc & N1 & N2 & N3 & N4 & N5 & N6) LC LL LR] Hw Hc LF LM.
  assert (NS : Forall (fun c => ~ lit_stop c) (t ++ ws)).
  { apply Forall_app. split; [exact LC|]. eapply Forall_impl; [|exact Hw]. unfold ws_nt, lit_stop. lia. }
  assert (ED : existsb (Z.eqb 46) (t ++ ws) = existsb (Z.eqb 46) t).
  { rewrite existsb_app. replace (existsb (Z.eqb 46) ws) with false; [apply orb_false_r|]. symmetry. apply existsb_nIn. intros I.
    rewrite Forall_forall in Hw. apply Hw in I. unfold ws_nt in I. lia. }
  set (mv := c =? 44).
  assert (REST : (if mv then [44] else []) ++ (if mv then rest else c :: rest) = c :: rest).
  { unfold mv. destruct (Z.eqb_spec c 44); [subst|]; reflexivity. }
  eapply (rd_loop lim x F n st s w c0 (r0 ++ ws ++ c :: rest)) with (st' := st) (s' := mkJs (s_name s) (json_norm_v v) true (s_named s) (s_reading s)) (move := mv); auto.
  - unfold stops. replace (negb (s_reading s) && negb (ty_eqb (j_type st) TArray)) with false; [exact N6|].
    rewrite R2. destruct M as [-> | ->]; [reflexivity|rewrite andb_false_r; reflexivity].
  - transitivity ((t ++ ws) ++ c :: rest); [f_equal; exact REST|]. rewrite E0, <- app_assoc. reflexivity.
  - match goal with |- rd _ _ _ ?l _ => replace l with (c :: rest) by (symmetry; exact REST) end.
    unfold process_item. apply (rd_deref _ _ c0 (r0 ++ ws ++ c :: rest)); [rewrite E0, <- app_assoc; reflexivity|].
    replace (c0 =? 34) with false by lia. replace (c0 =? 58) with false by lia. replace (c0 =? 47) with false by lia.
    assert (NB : c0 <> 125 /\ c0 <> 93). { rewrite E0 in LC. inversion LC; subst. unfold lit_stop in *. lia. }
    replace (existsb (Z.eqb c0) [123; 125; 91; 93]) with false by (symmetry; apply existsb_nIn; cbn; lia).
    eapply rd_bind0 with (a := (_, mv)); [|apply rd_ret].
    unfold process_char. apply (rd_deref _ _ c0 (r0 ++ ws ++ c :: rest)); [rewrite E0, <- app_assoc; reflexivity|]. rewrite Lc.
    eapply rd_bind0.
    { apply (rd_block_until lim lit_toks); auto.
      - eapply Forall_impl; [|exact NS]. intros b Hb k. rewrite lit_tok.
        replace (existsb (Z.eqb b) [44; 32; 125; 93]) with false by (symmetry; apply existsb_nIn; unfold lit_stop in Hb; cbn; lia). reflexivity.
      - intros k. rewrite lit_tok. replace (existsb (Z.eqb c) [44; 32; 125; 93]) with true by (symmetry; apply existsb_In; cbn; lia). reflexivity. }
    cbv beta iota. rewrite lit_tok. replace (existsb (Z.eqb c) [44; 32; 125; 93]) with true by (symmetry; apply existsb_In; cbn; lia).
    cbn [snd]. rewrite lit_notes by exact NS. cbn [orb]. rewrite ED. fold (lit_hint t). rewrite LR by exact Hw.
    apply (rd_deref _ _ c rest); [reflexivity|]. replace (negb ((c =? 125) || (c =? 93))) with mv by (unfold mv; lia). apply rd_ret.
  - cbn [s_complete s_name s_value]. unfold mv. destruct (Z.eqb_spec c 44); [subst; apply rd_move1|]; apply rd_ret.
Qed.

(** * Whole sequences of events *)
Fixpoint evs_json (stack : list ty) (es : list event) : Prop :=
  match es with
  | [] => True
  | e :: es' => (has_name (top stack) (v_type (snd e)) = true -> Forall plain_char (fst e)) /\
                (stack = [] -> is_scope (v_type (snd e)) = true) /\ evs_json (next_stack stack e) es'
  end.
Fixpoint evs_shallow (stack : list ty) (es : list event) : Prop :=
  match es with [] => True | e :: es' => (length stack <= 150)%nat /\ evs_shallow (next_stack stack e) es' end.
Fixpoint ends (es : list event) : Prop :=
  match es with [] => True | [e] => v_type (snd e) = TScopeEnd | _ :: es' => ends es' end.
Definition jbody compact x stack (es : list event) : bytes :=
  match es with [] => [] | e :: es' => core compact x stack e ++ jout compact x (next_stack stack e) (is_scope (v_type (snd e))) es' end.
Definition jsep compact stack closed (es : list event) : bytes :=
  match es with [] => [] | e :: _ => sep compact closed stack (v_type (snd e)) end.
Lemma jout_split compact x stack closed es : jout compact x stack closed es = jsep compact stack closed es ++ jbody compact x stack es.
Proof. destruct es; reflexivity. Qed.

Lemma repeat_skip n : Forall skipc (repeat 9 n).
Proof. induction n; cbn; constructor; [unfold skipc; cbn; auto|assumption]. Qed.
Lemma repeat_ws n : Forall ws_nt (repeat 9 n).
Proof. induction n; cbn; constructor; [unfold ws_nt; auto|assumption]. Qed.
Lemma jsep_skip compact stack closed es : Forall skipc (jsep compact stack closed es).
Proof.
  destruct es as [|e es]; [constructor|]. unfold jsep, sep. apply Forall_app. split.
  - destruct (_ && _); constructor; [unfold skipc; cbn; auto|constructor].
  - destruct compact; [constructor|]. apply Forall_app. split; [|apply repeat_skip]. destruct (_ <? _)%nat; constructor; [unfold skipc; cbn; auto|constructor].
Qed.

Lemma rd_event lim compact x F stack st e w vb v' stack' rest :
  jrel stack st -> (has_name (top stack) (v_type (snd e)) = true -> Forall plain_char (fst e)) ->
  Forall skipc w -> (length (w ++ nametext compact (top stack) e) + 3 <= F)%nat ->
  (forall n st1 s w1, jrel stack st1 -> s_reading s = true \/ has_name (top stack) (v_type (snd e)) = false -> Forall skipc w1 -> (length w1 < F)%nat ->
     exists st', rd lim (json_loop x F (S n) st1 s) (w1 ++ vb) rest (st', (s_name s, v')) /\ jrel stack' st') ->
  exists st', rd lim (json_read x F st) (w ++ nametext compact (top stack) e ++ vb) rest
    (st', (if has_name (top stack) (v_type (snd e)) then fst e else [], v')) /\ jrel stack' st'.
Proof.
  intros R P W L V. destruct e as [name v]. unfold json_read, nametext in *. cbn [fst snd] in *. rewrite app_length in L.
  destruct (has_name (top stack) (v_type v)) eqn:H.
  - set (sp := if compact then [] else [32]) in *. specialize (P eq_refl).
    assert (T : top stack = TObject). { unfold has_name in H. destruct (top stack); try discriminate H; reflexivity. }
    rewrite ?H in L. do 3 (rewrite ?app_length in L; cbn [length] in L).
    destruct F as [|[|F0]]; [lia|lia|].
    destruct (rd_name lim x (S (S F0)) F0 st w rest stack name (sp ++ vb) R T P W) as (st1 & R1 & K); [lia|lia|].
    destruct F0 as [|F1]; [lia|].
    destruct (V F1 st1 (mkJs name (val_type TNull) false true true) sp R1) as (st' & Q & R').
    + left. reflexivity.
    + unfold sp. destruct compact; constructor; [unfold skipc; cbn; auto|constructor].
    + unfold sp. destruct compact; cbn; lia.
    + exists st'. split; [|exact R']. apply K in Q. cbn [s_name] in Q.
      replace (w ++ ((34 :: name ++ [34]) ++ 58 :: sp) ++ vb) with (w ++ (34 :: name ++ [34]) ++ 58 :: sp ++ vb); [exact Q|].
      rewrite <- !app_assoc. reflexivity.
  - destruct F as [|F0]; [lia|]. destruct (V F0 st js_init w R) as (st' & Q & R'); auto; [lia|]. exists st'. split; [exact Q|exact R'].
Qed.

Lemma rd_events_cons {S} lim (r : S -> prog (S * event)) n st b1 st1 e b2 st2 es rest :
  rd lim (r st) b1 (b2 ++ rest) (st1, e) -> rd lim (read_events r n st1) b2 rest (st2, es) ->
  rd lim (read_events r (Datatypes.S n) st) (b1 ++ b2) rest (st2, e :: es).
Proof.
  intros H1 H2. cbn [read_events]. eapply rd_bind; [exact H1|]. cbv beta iota. eapply rd_bind0; [exact H2|]. apply rd_ret.
Qed.

Lemma rd_events lim compact x F : forall es stack st w tail,
  jrel stack st -> scopes stack -> evs_ok (json_value x) stack es -> evs_json stack es -> ends es ->
  (lim = true -> compact = true \/ evs_shallow stack es) ->
  Forall skipc w -> (es = [] -> w = []) ->
  (length (w ++ jbody compact x stack es) + 5 <= F)%nat ->
  exists st', rd lim (read_events (json_read x F) (length es) st) (w ++ jbody compact x stack es) tail (st', evs_norm json_norm_v stack es)
    /\ jrel (evs_stack stack es) st'.
Proof.
  induction es as [|e es IH]; intros stack st w tail R Sc Ok J En Sh W W0 L.
  - rewrite W0 by reflexivity. exists st. split; [apply rd_ret|exact R].
  - destruct Ok as [Ok1 Ok2]. destruct J as (Jn & Jr & J2).
    assert (En2 : ends es) by (destruct es; [exact I|exact En]).
    assert (Sh2 : lim = true -> compact = true \/ evs_shallow (next_stack stack e) es) by (intros H; destruct (Sh H) as [?|[? ?]]; auto).
    pose proof (next_scopes stack e Sc) as Sc2.
    cbn [length evs_norm jbody] in *. unfold evs_stack. cbn [fold_left]. fold (evs_stack (next_stack stack e) es).
    unfold core in *. rewrite jout_split in *. rewrite !app_length in L.
    (* events that end with their own text *)
    assert (NL : forall v', v' = json_norm_v (snd e) ->
      (forall n st1 s w1 rest, jrel stack st1 -> s_reading s = true \/ has_name (top stack) (v_type (snd e)) = false -> Forall skipc w1 -> (length w1 < F)%nat ->
       exists st', rd lim (json_loop x F (S n) st1 s) (w1 ++ vtext x (top stack) (snd e)) rest (st', (s_name s, v')) /\ jrel (next_stack stack e) st') ->
      exists st', rd lim (read_events (json_read x F) (S (length es)) st)
        (w ++ (nametext compact (top stack) e ++ vtext x (top stack) (snd e)) ++
         jsep compact (next_stack stack e) (is_scope (v_type (snd e))) es ++ jbody compact x (next_stack stack e) es) tail
        (st', ev_norm json_norm_v (top stack) e :: evs_norm json_norm_v (next_stack stack e) es)
      /\ jrel (evs_stack (next_stack stack e) es) st').
    { intros v' Ev V.
      set (w2 := jsep compact (next_stack stack e) (is_scope (v_type (snd e))) es) in *.
      destruct (rd_event lim compact x F stack st e w (vtext x (top stack) (snd e)) v' (next_stack stack e) ((w2 ++ jbody compact x (next_stack stack e) es) ++ tail) R Jn W) as (st1 & Q1 & R1).
      - rewrite app_length. lia.
      - intros. apply V; auto.
      - destruct (IH (next_stack stack e) st1 w2 tail R1 Sc2 Ok2 J2 En2 Sh2) as (st2 & Q2 & R2).
        + apply jsep_skip.
        + intros ->. reflexivity.
        + rewrite app_length. lia.
        + exists st2. split; [|exact R2]. rewrite (app_assoc w). eapply rd_events_cons; [|exact Q2].
          unfold ev_norm. rewrite Ev in Q1. unfold has_name in Q1. exact Q1. }
    destruct e as [name v]. cbn [fst snd] in *. destruct Ok1 as [Wn Hv]. cbn [fst snd] in *.
    destruct Hv as [[Wv Jv]|[Hv|[Hv Ns]]].
    + assert (NS : next_stack stack (name, v) = stack /\ is_scope (v_type v) = false /\ ty_eqb (v_type v) TScopeEnd = false).
      { unfold next_stack. cbn [snd]. unfold wf_value in Wv. destruct (v_type v); try contradiction; auto. }
      destruct NS as (NS & N1 & N2).
      assert (Ne : stack <> []) by (intros H; rewrite (Jr H) in N1; discriminate).
      assert (TT : top stack = TObject \/ top stack = TArray) by (destruct (top_scopes _ Sc) as [[_ H]|H]; [congruence|exact H]).
      assert (MODE : forall s, s_reading s = true \/ has_name (top stack) (v_type v) = false -> s_reading s = true \/ top stack = TArray).
      { intros s [H|H]; [auto|]. unfold has_name in H. rewrite N2 in H. destruct TT as [T|T]; rewrite T in *; [discriminate H|auto]. }
      destruct (is_scalar (v_type v)) eqn:S.
      * (* a literal *)
        destruct (lit_spec x v Wv Jv S) as (t & LO).
        assert (VT : vtext x (top stack) v = t).
        { unfold vtext. rewrite (lo_print _ _ _ LO). destruct (v_type v); try discriminate S; reflexivity. }
        clear NL. rewrite VT, NS, N1 in *.
        destruct es as [|e2 es].
        { exfalso. cbn in En. rewrite En in S. discriminate S. }
        assert (CLEN : compact = true \/ lim = false \/ (length stack <= 150)%nat).
        { destruct lim; [|auto]. destruct (Sh eq_refl) as [?|[? _]]; auto. }
        set (es1 := e2 :: es) in *.
        assert (SPLIT : exists ws c sp bd, jsep compact stack false es1 ++ jbody compact x stack es1 = ws ++ c :: sp ++ bd /\ Forall ws_nt ws /\
           (c = 44 \/ c = 125 \/ c = 93) /\ (lim = true -> (length ws <= 151)%nat) /\
           (if c =? 44 then Forall skipc sp /\ bd = jbody compact x stack es1 else c :: sp ++ bd = jbody compact x stack es1)).
        { unfold es1, jsep. destruct e2 as [n2 v2]. cbn [snd]. destruct (ty_eqb (v_type v2) TScopeEnd) eqn:T2.
          - assert (V2 : v_type v2 = TScopeEnd) by (destruct (v_type v2); try discriminate T2; reflexivity).
            unfold sep. rewrite T2. cbn [negb andb app]. unfold jbody. cbn [snd]. 
            unfold core, nametext, has_name. cbn [fst snd]. rewrite T2, V2. cbn [negb]. rewrite andb_false_r. cbn [app].
            unfold vtext. rewrite V2. set (c := if ty_eqb (top stack) TArray then 93 else 125).
            match goal with |- exists ws c sp bd, ?A ++ ([?c0] ++ ?r) = _ /\ _ => exists A, c, [], r end.
            split; [reflexivity|]. split; [|split; [|split]].
            + destruct compact; [constructor|]. apply Forall_app. split; [|apply repeat_ws]. destruct (_ <? _)%nat; constructor; [unfold ws_nt; auto|constructor].
            + unfold c. destruct (ty_eqb (top stack) TArray); auto.
            + intros Hl. destruct CLEN as [->|[H|H]]; [cbn; lia|congruence|]. destruct compact; [cbn; lia|]. rewrite app_length, repeat_length.
              destruct (0 <? length stack)%nat; cbn [andb length]; lia.
            + replace (c =? 44) with false by (unfold c; destruct (ty_eqb (top stack) TArray); reflexivity). reflexivity.
          - unfold sep. rewrite T2. cbn [negb andb]. 
            match goal with |- exists ws c sp bd, ([44] ++ ?A) ++ ?B = _ /\ _ => exists [], 44, A, B end.
            split; [reflexivity|]. split; [constructor|]. split; [auto|]. split; [cbn; lia|]. cbn [Z.eqb Pos.eqb]. split; [|reflexivity].
            destruct compact; [constructor|]. apply Forall_app. split; [|apply repeat_skip]. destruct (_ <? _)%nat; constructor; [unfold skipc; cbn; auto|constructor]. }
        destruct SPLIT as (ws & c & sp & bd & Esp & Hws & Hc & Lws & Hcase).
        assert (LEN : (length (jsep compact stack false es1) + length (jbody compact x stack es1) = length ws + (1 + (length sp + length bd)))%nat).
        { pose proof (f_equal (@length Z) Esp) as EL. do 3 (rewrite ?app_length in EL; cbn [length] in EL). lia. }
        pose proof (lo_len _ _ _ LO) as LL. unfold zlen in LL.
        set (rest0 := if c =? 44 then (sp ++ bd) ++ tail else c :: (sp ++ bd) ++ tail).
        destruct (rd_event lim compact x F stack st (name, v) w ((t ++ ws) ++ (if c =? 44 then [44] else [])) (json_norm_v v) stack rest0 R Jn W) as (st1 & Q1 & R1).
        { rewrite app_length. lia. }
        { intros n st1 s w1 R1 M W1 L1. exists st1. split; [|exact R1]. unfold rest0. apply (rd_lit lim x F n st1 s w1 ((sp ++ bd) ++ tail) stack); auto.
          - rewrite app_length. lia.
          - intros Hl. rewrite app_length. specialize (Lws Hl). lia. }
        set (w2 := if c =? 44 then sp else []).
        destruct (IH stack st1 w2 tail R1 Sc) as (st2 & Q2 & R2); auto.
        { unfold w2. destruct (c =? 44); [tauto|constructor]. }
        { intros H. discriminate H. }
        { rewrite app_length. unfold w2. destruct (c =? 44); cbn [length]; [destruct Hcase as [_ Hb]; rewrite <- Hb in *|]; lia. }
        exists st2. split; [|exact R2]. unfold ev_norm. cbn [fst snd]. unfold has_name in Q1. cbn [fst snd] in Q1.
        assert (EQ : w ++ (nametext compact (top stack) (name, v) ++ t) ++ jsep compact stack false es1 ++ jbody compact x stack es1 =
          (w ++ nametext compact (top stack) (name, v) ++ (t ++ ws) ++ (if c =? 44 then [44] else [])) ++ (w2 ++ jbody compact x stack es1)).
        { rewrite Esp. unfold w2. rewrite <- !app_assoc. do 4 f_equal. destruct (Z.eqb_spec c 44) as [->|]; [destruct Hcase as [_ <-]; reflexivity|]. cbn [app]. exact Hcase. }
        match goal with |- rd _ _ ?l _ _ => replace l with ((w ++ nametext compact (top stack) (name, v) ++ (t ++ ws) ++ (if c =? 44 then [44] else [])) ++ (w2 ++ jbody compact x stack es1)) by (symmetry; exact EQ) end.
        eapply rd_events_cons; [|exact Q2].
        assert (RE : rest0 = (w2 ++ jbody compact x stack es1) ++ tail).
        { unfold rest0, w2. destruct (c =? 44); [destruct Hcase as [_ <-]; reflexivity|]. cbn [app]. rewrite <- Hcase. reflexivity. }
        rewrite <- RE. exact Q1.
      * (* a string *)
        assert (V : v_type v = TString \/ v_type v = TBinary) by (unfold wf_value in Wv; destruct (v_type v); try discriminate S; try contradiction; auto).
        apply (NL _ eq_refl). intros n st1 s w1 rest R1 M W1 L1. rewrite NS.
        destruct V as [V|V].
        -- assert (E1 : vtext x (top stack) v = 34 :: escaped (v_data v) ++ [34]) by (unfold vtext; now rewrite V).
           assert (E2 : json_norm_v v = val_string (v_data v) EUTF8) by (unfold json_norm_v, meaning_of; now rewrite V).
           rewrite E1, E2. apply (rd_str lim x F n st1 s w1 rest stack); auto. intros buf. apply rd_escaped.
           rewrite E1 in L. cbn [length] in L. rewrite app_length in L. pose proof (escaped_len (v_data v)). lia.
        -- assert (E1 : vtext x (top stack) v = 34 :: b64_text (v_data v) ++ [34]) by (unfold vtext; now rewrite V).
           assert (E2 : json_norm_v v = val_string (b64_text (v_data v)) EUTF8) by (unfold json_norm_v, meaning_of; now rewrite V).
           rewrite E1, E2. unfold wf_value in Wv. rewrite V in Wv. destruct Wv as [Wv _]. 
           apply (rd_str lim x F n st1 s w1 rest stack); auto. intros buf. apply rd_plain; [now apply b64_text_plain|].
           rewrite E1 in L. cbn [length] in L. rewrite app_length in L. lia.
    + apply (NL (json_norm_v v) eq_refl). intros n st1 s w1 rest R1 _ W1 L1.
      destruct Hv as [-> | ->].
      * apply (rd_open lim x F n st1 s w1 rest stack TObject R1); auto.
      * apply (rd_open lim x F n st1 s w1 rest stack TArray R1); auto.
    + subst v. apply (NL (val_type TScopeEnd) eq_refl). intros n st1 s w1 rest R1 _ W1 L1.
      unfold vtext. cbn [v_type val_type]. apply (rd_close lim x F n st1 s w1 rest stack); auto. destruct (ty_eqb (top stack) TArray); auto.
Qed.

(** * Documents *)
Lemma json_write_events x : forall es stack st, j_stack st = stack -> j_type st = top stack -> scopes stack -> evs_ok (json_value x) stack es ->
  exists st' ops, write_events (json_save x) st es = Ok (st', ops) /\ writes_only ops /\
    flat ops = jout (j_compact st) x stack (j_closed st) es /\ j_stack st' = evs_stack stack es /\ j_type st' = top (evs_stack stack es) /\
    j_compact st' = j_compact st /\ j_nbuf st' = j_nbuf st /\ j_vbuf st' = j_vbuf st.
Proof.
  induction es as [|e es IH]; intros stack st Hs Ht Sc Ok.
  - exists st, []. repeat split; auto. constructor.
  - destruct Ok as [O1 O2]. destruct (json_save_spec x stack st e Hs Ht Sc O1) as (st1 & o1 & E1 & W1 & F1 & S1 & T1 & C1 & K1 & B1 & V1).
    destruct (IH (next_stack stack e) st1 S1 T1 (next_scopes _ _ Sc) O2) as (st2 & o2 & E2 & W2 & F2 & S2 & T2 & K2 & B2 & V2).
    exists st2, (o1 ++ o2). cbn [write_events]. rewrite E1. cbn [rbind]. rewrite E2. cbn [rbind].
    split; [reflexivity|]. split; [now apply writes_only_app|]. split.
    + rewrite flat_app, F1, F2, K1, C1. cbn [jout]. now rewrite <- app_assoc.
    + unfold evs_stack in *. cbn [fold_left]. repeat split; congruence.
Qed.

Lemma evs_json_app a b : forall st, evs_json st (a ++ b) <-> evs_json st a /\ evs_json (evs_stack st a) b.
Proof. induction a as [|e a IH]; intros st; cbn [app evs_json evs_stack fold_left]; [tauto|]. rewrite IH. unfold evs_stack. tauto. Qed.
Lemma evs_shallow_app a b : forall st, evs_shallow st (a ++ b) <-> evs_shallow st a /\ evs_shallow (evs_stack st a) b.
Proof. induction a as [|e a IH]; intros st; cbn [app evs_shallow evs_stack fold_left]; [tauto|]. rewrite IH. unfold evs_stack. tauto. Qed.

Lemma json_name_plain n : json_name n <-> Forall plain_char n.
Proof.
  unfold json_name, plain_char. rewrite Forall_forall. split.
  - intros [A B] c I. split; intros ->; auto.
  - intros H. split; intros I; destruct (H _ I); congruence.
Qed.
Lemma json_names_scope nm n t its : json_names nm (DScope n t its) <-> (nm = true -> json_name n) /\ Forall (json_names (ty_eqb t TObject)) its.
Proof.
  cbn [json_names]. split; intros [A B]; (split; [exact A|]); clear A.
  - induction its; constructor; [tauto|apply IHits; tauto].
  - induction B; [exact I|split; auto].
Qed.

Lemma evs_json_doc d : wf_doc d -> forall st, json_names (ty_eqb (top st) TObject) d -> (st = [] -> is_scope_doc d) -> evs_json st (events d).
Proof.
  induction d as [n v|n t its IH] using doc_ind2; intros W st Nm R.
  - cbn in W, Nm. cbn [events evs_json fst snd]. split; [|split; [|exact I]].
    + unfold has_name. intros H. apply andb_prop in H. apply json_name_plain. tauto.
    + intros H. destruct (R H).
  - assert (EO : forall l st, Forall wf_doc l -> evs_stack st (flat_map events l) = st).
    { induction l as [|y l IHl]; intros st0 F; [reflexivity|]. inversion F; subst. cbn [flat_map]. unfold evs_stack in *. rewrite fold_left_app.
      destruct (evs_ok_doc (fun _ => True) y ltac:(assumption)) with (st := st0) as [_ E].
      - clear. induction y as [a b|a b c IH] using doc_ind2; [exact I|]. apply all_vals_scope. exact IH.
      - unfold evs_stack in E. rewrite E. auto. }
    apply wf_doc_scope in W. destruct W as (Wn & Wt & Wi). apply json_names_scope in Nm. destruct Nm as [Nn Ni].
    cbn [events evs_json fst snd]. assert (NS : next_stack st (n, val_type t) = t :: st) by (destruct Wt; subst; reflexivity).
    split; [|split].
    + unfold has_name. intros H. apply andb_prop in H. apply json_name_plain. tauto.
    + intros _. destruct Wt; subst; reflexivity.
    + rewrite NS. apply evs_json_app. split.
      * clear EO. induction its as [|y l IHl]; [exact I|]. inversion IH; inversion Wi; inversion Ni; subst. cbn [flat_map]. apply evs_json_app.
        split; [match goal with H : wf_doc y -> _ |- _ => apply H end; auto; discriminate|].
        destruct (evs_ok_doc (fun _ => True) y ltac:(assumption)) with (st := t :: st) as [_ E].
        { clear. induction y as [a b|a b c IH] using doc_ind2; [exact I|]. apply all_vals_scope. exact IH. }
        rewrite E. auto.
      * rewrite EO by auto. cbn. split; [unfold has_name; cbn; rewrite andb_false_r; discriminate|]. split; [discriminate|exact I].
Qed.

Lemma all_true d : all_vals (fun _ _ => True) d.
Proof. induction d as [a b|a b c IH] using doc_ind2; [exact I|]. apply all_vals_scope. exact IH. Qed.

Lemma evs_shallow_doc d : wf_doc d -> forall st, (length st + depth d <= 150)%nat -> evs_shallow st (events d).
Proof.
  induction d as [n v|n t its IH] using doc_ind2; intros W st L.
  - cbn in *. split; [lia|exact I].
  - apply wf_doc_scope in W. destruct W as (Wn & Wt & Wi). cbn [depth] in L.
    cbn [events evs_shallow]. assert (NS : next_stack st (n, val_type t) = t :: st) by (destruct Wt; subst; reflexivity). rewrite NS.
    split; [lia|]. apply evs_shallow_app. split.
    + clear Wn. induction its as [|y l IHl]; [exact I|]. inversion IH; inversion Wi; subst. cbn [flat_map]. cbn [fold_right] in L. apply evs_shallow_app. split.
      * match goal with H : wf_doc y -> _ |- _ => apply H end; auto. cbn [length]. lia.
      * destruct (evs_ok_doc (fun _ => True) y ltac:(assumption) (all_true y) (t :: st)) as [_ E]. rewrite E. apply IHl; auto. lia.
    + cbn. split; [|exact I].
      assert (E : evs_stack (t :: st) (flat_map events its) = t :: st).
      { clear - Wi. induction its as [|y l IHl]; [reflexivity|]. inversion Wi; subst. cbn [flat_map]. unfold evs_stack in *. rewrite fold_left_app.
        destruct (evs_ok_doc (fun _ => True) y ltac:(assumption) (all_true y) (t :: st)) as [_ E]. unfold evs_stack in E. rewrite E. auto. }
      rewrite E. cbn [length]. lia.
Qed.

Lemma ends_doc d : is_scope_doc d -> ends (events d).
Proof.
  destruct d as [n v|n t its]; [intros []|]. intros _. cbn [events]. generalize (flat_map events its) as l.
  intros l. change ((n, val_type t) :: l ++ [ev_end]) with (((n, val_type t) :: l) ++ [ev_end]). generalize ((n, val_type t) :: l) as l1. clear.
  induction l1 as [|e l1 IH]; [reflexivity|]. cbn [app ends]. destruct (l1 ++ [ev_end]) eqn:E; [destruct l1; discriminate|exact IH].
Qed.

Lemma int_value_of v n : is_int_ty (v_type v) = true -> in_range (v_type v) n -> v_raw v = u64 n -> int_value v = n /\ - two63 <= n < two64.
Proof.
  intros It R E. destruct (ty_bounds _ n It R) as (B & _ & R2 & SG). split; [|lia]. unfold int_value. rewrite E. clear E B R2 SG.
  unfold is_int_ty in It. unfold in_range in R. destruct (v_type v); try discriminate It; cbn in R |- *; first [apply s64_u64; unfold_words; lia|apply Z.mod_small; unfold_words; lia].
Qed.
Lemma v_type_f64 d : v_type (val_f64 d) = TFP32 \/ v_type (val_f64 d) = TFP64.
Proof. unfold val_f64. destruct (narrow64 d); cbn; auto. Qed.
Lemma json_norm_meaning x v : wf_value v -> json_value x v -> meaning_of (json_norm_v v) = json_meaning (meaning_of v).
Proof.
  intros W J.
  assert (MI : forall n, - two63 <= n < two64 -> meaning_of (val_int (if n <? 0 then TI64 else TUI64) n) = MeInt n).
  { intros n B. apply meaning_int; [destruct (n <? 0); cbn; tauto|]. unfold in_range. destruct (Z.ltb_spec n 0); cbn [int_min int_max]; lia. }
  assert (IC : (exists n, in_range (v_type v) n /\ v_raw v = u64 n) -> is_int_ty (v_type v) = true -> meaning_of v = MeInt (int_value v) ->
    meaning_of (json_norm_v v) = json_meaning (meaning_of v)).
  { intros (n & R & E) It M. destruct (int_value_of v n It R E) as [I B]. unfold json_norm_v. rewrite M, I. apply MI. exact B. }
  assert (FC : fp_value v -> meaning_of v = MeFloat (v_double v) -> meaning_of (json_norm_v v) = json_meaning (meaning_of v)).
  { intros Fv M. unfold json_norm_v. rewrite M. unfold json_meaning. destruct (whole (v_double v)) as [n|] eqn:Wd.
    - apply MI. destruct (whole_spec _ _ Wd) as (_ & _ & B). unfold_words. lia.
    - transitivity (MeFloat (v_double (val_f64 (v_double v)))); [unfold meaning_of; destruct (v_type_f64 (v_double v)) as [-> | ->]; reflexivity|]. f_equal. apply val_f64_roundtrip. now apply v_double_range. }
  unfold wf_value in W. unfold json_value in J. 
  destruct (v_type v) eqn:T; try contradiction;
    try (apply IC; [exact W|reflexivity|unfold meaning_of; rewrite T; reflexivity]).
  - unfold json_norm_v, meaning_of. rewrite T. destruct (v_raw v =? 0); reflexivity.
  - apply FC; [left; auto|unfold meaning_of; now rewrite T].
  - apply FC; [right; auto|unfold meaning_of; now rewrite T].
  - unfold json_norm_v, meaning_of. rewrite T. reflexivity.
  - assert (M : meaning_of v = MeStr (v_data v)) by (unfold meaning_of; now rewrite T). unfold json_norm_v. rewrite M.
    unfold meaning_of. cbn [v_type val_string v_data val_block_enc json_meaning]. rewrite trunc_block_id by (unfold_words; tauto). reflexivity.
  - assert (M : meaning_of v = MeBin (v_data v)) by (unfold meaning_of; now rewrite T). unfold json_norm_v. rewrite M in *.
    unfold meaning_of. cbn [v_type val_string v_data val_block_enc json_meaning]. rewrite trunc_block_id; [reflexivity|]. rewrite b64_text_len. unfold_words. Z.to_euclidean_division_equations. lia.
Qed.

Lemma json_norm_denote x d : wf_doc d -> all_vals (fun _ v => json_value x v) d ->
  forall nm, mdoc_of (doc_norm json_norm_v nm d) = json_denote nm d.
Proof.
  induction d as [n v|n t its IH] using doc_ind2; intros W A nm.
  - cbn in W, A. cbn [doc_norm mdoc_of json_denote]. now rewrite (json_norm_meaning x) by tauto.
  - apply wf_doc_scope in W. destruct W as (_ & _ & Wi). apply all_vals_scope in A. cbn [doc_norm mdoc_of json_denote]. f_equal.
    rewrite map_map. induction IH as [|y l Hx Hl IHl]; cbn [map]; [reflexivity|].
    inversion Wi; inversion A; subst. f_equal; auto.
Qed.

Definition json_doc (x : fp_text) (d : doc) : Prop :=
  wf_doc d /\ is_scope_doc d /\ all_vals (fun _ v => json_value x v) d /\ json_names false d.

Lemma json_written x d w0 : json_doc x d ->
  exists w' ops, write_events (json_save x) (json_clear w0) (events d) = Ok (w', ops) /\ writes_only ops /\
    spec_out ops = jout (j_compact w0) x [] true (events d).
Proof.
  intros (W & S & A & N). destruct (evs_ok_doc _ d W A []) as [O _].
  destruct (json_write_events x (events d) [] (json_clear w0) eq_refl eq_refl ltac:(constructor) O) as (st' & ops & E & Wo & F & _).
  exists st', ops. split; [exact E|]. split; [exact Wo|]. rewrite writes_only_out by exact Wo. exact F.
Qed.

Lemma json_read_back lim x d compact r0 F tail : json_doc x d -> (lim = true -> compact = true \/ (depth d <= 150)%nat) ->
  (length (jout compact x [] true (events d)) + 5 <= F)%nat ->
  exists r', rd lim (read_events (json_read x F) (length (events d)) (json_clear r0)) (jout compact x [] true (events d)) tail
    (r', events (doc_norm json_norm_v false d)) /\ j_stack r' = [] /\ j_type r' = TNull.
Proof.
  intros (W & S & A & N) Sh L. destruct (evs_ok_doc _ d W A []) as [O ES].
  destruct (rd_events lim compact x F (events d) [] (json_clear r0) (jsep compact [] true (events d)) tail) as (r' & Q & R); auto.
  - split; reflexivity.
  - constructor.
  - apply evs_json_doc; auto.
  - now apply ends_doc.
  - intros Hl. destruct (Sh Hl) as [?|H]; [auto|right]. apply evs_shallow_doc; auto.
  - apply jsep_skip.
  - intros E. rewrite E. reflexivity.
  - rewrite <- jout_split. exact L.
  - rewrite <- jout_split in Q. rewrite (evs_norm_doc (json_value x)) in Q; auto.
    + exists r'. split; [exact Q|]. rewrite ES in R. exact R.
    + intros t Ht. cbn in Ht. destruct Ht as [<-|[<-|[<-|[]]]]; reflexivity.
Qed.
