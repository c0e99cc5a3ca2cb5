(** Loaded documents can be saved. *)
From Coq Require Import ZArith List Bool Lia ZifyBool ZifyNat.
From Verif Require Import Base Lemmas M_Types M_Conv M_Charset M_In S_Conv S_Charset S_Doc M_OutOps S_Out M_Event S_PSrl M_PSrl S_MsgPack M_MsgPack S_Json M_Json M_Tree S_Tree M_TreeIO S_TreeIO S_ObjSafe S_MsgPackLang S_PSrlLang S_Relay
  P_In P_Safe P_Exact P_MsgPackSafe P_JsonSafe P_Doc P_Tree P_TreeIO P_TreeSafe P_Build P_Deliver P_MsgPackLang P_PSrlLang.
Import ListNotations.
Open Scope Z_scope.

(** * The tree made of what a parser delivers *)
Section Made.
Context {St : Type} (rd : St -> prog (St * event)) (Inv : St -> blk -> Prop) (mu : St -> blk -> nat) (Ev : event -> Prop).
Context (Hrd : forall st b r b', Inv st b -> run_block (rd st) b = Ok (r, b') -> Inv (fst r) b' /\ (mu (fst r) b' < mu st b)%nat /\ Ev (snd r)).
Inductive made : doc -> Prop :=
| made_val k v : Ev (k, v) -> plain_value v -> made (DVal k v)
| made_scope k t its v : Ev (k, v) -> v_type v = t -> is_scope t = true -> Forall made its -> made (DScope k t its).
Lemma made_source : forall F dp n st b r b', 0 <= dp <= max_depth -> Inv st b -> run_block (ecomp rd (read_source F dp n) st) b = Ok (r, b') ->
  Inv (fst r) b' /\ exists its, snd r = add_items n its /\ Forall made its /\ dp + Z.of_nat (deepest its) <= max_depth /\ (length (flat_map events its) + 1 + mu (fst r) b' <= mu st b)%nat.
Proof.
  induction F as [|F IH]; intros dp n st b r b' D B E; [discriminate E|]. cbn [read_source ecomp] in E. rewrite run_block_bind in E.
  destruct (run_block (rd st) b) as [[[st1 [name v]] b1]| | |] eqn:R; try discriminate E. cbn [rbind] in E.
  destruct (Hrd _ _ _ _ B R) as (B1 & M1 & G). cbn [fst snd] in *.
  destruct (ty_eqb (v_type v) TScopeEnd) eqn:TE.
  { cbn [ecomp run_block] in E. injection E as <- <-. split; [exact B1|]. exists []. split; [|split; [constructor|split; cbn; lia]].
    unfold add_items, vals_of, subs_of. cbn [flat_map snd]. rewrite !app_nil_r. now destruct n. }
  destruct (is_scope (v_type v)) eqn:SC; cbn [negb] in E.
  - destruct (Z.ltb_spec max_depth (dp + 1)) as [M|M]; [discriminate E|]. rewrite ecomp_bind, run_block_bind in E.
    destruct (run_block (ecomp rd (read_source F (dp + 1) _) st1) b1) as [[[st2 c] b2]| | |] eqn:E1; try discriminate E. cbn [rbind] in E.
    destruct (IH (dp + 1) _ st1 b1 _ _ ltac:(lia) B1 E1) as (B2 & sub & Q & S2 & D2 & L2). cbn [fst snd] in *. subst c.
    rewrite store_node_utf8 in E. cbn [elift ebind] in E. destruct (IH dp _ st2 b2 _ _ D B2 E) as (B3 & its & Q & S3 & D3 & L3).
    split; [exact B3|]. exists (DScope name (v_type v) sub :: its). split; [|split; [|split]].
    + rewrite Q. unfold add_items, subs_of, vals_of. cbn [n_type n_values n_nodes flat_map app]. rewrite doc_node_eq. now rewrite <- app_assoc.
    + constructor; [now apply made_scope with v|exact S3].
    + cbn [deepest fold_right]. rewrite depth_scope. change (fold_right _ 0%nat its) with (deepest its). lia.
    + cbn [flat_map events]. rewrite !app_length. cbn [length]. rewrite app_length. cbn [length]. lia.
  - rewrite store_value_utf8 in E. cbn [elift ebind] in E. destruct (IH dp _ st1 b1 _ _ D B1 E) as (B3 & its & Q & S3 & D3 & L3).
    split; [exact B3|]. exists (DVal name v :: its). split; [|split; [|split]].
    + rewrite Q. unfold add_items. cbn [n_type n_values n_nodes vals_of subs_of flat_map app]. now rewrite <- app_assoc.
    + constructor; [|exact S3]. constructor; [exact G|]. split; [exact SC|]. intros X. rewrite X in TE. discriminate TE.
    + cbn [deepest fold_right depth]. change (fold_right _ 0%nat its) with (deepest its). lia.
    + cbn [flat_map events app length]. lia.
Qed.
Lemma made_load F st b r b' : Inv st b -> run_block (ecomp rd (load_prog F) st) b = Ok (r, b') ->
  exists k t its, snd r = (k, doc_node (DScope k t its)) /\ made (DScope k t its) /\ (depth (DScope k t its) <= 129)%nat /\ (length (events (DScope k t its)) <= mu st b)%nat.
Proof.
  intros B E. unfold load_prog in E. cbn [ecomp] in E. rewrite run_block_bind in E.
  destruct (run_block (rd st) b) as [[[st1 [name v]] b1]| | |] eqn:R; try discriminate E. cbn [rbind] in E.
  destruct (Hrd _ _ _ _ B R) as (B1 & M1 & G). cbn [fst snd] in *.
  destruct (is_scope (v_type v)) eqn:SC; [|discriminate E]. cbn [negb] in E. rewrite ecomp_bind, run_block_bind in E.
  destruct (run_block (ecomp rd (read_source F 0 _) st1) b1) as [[[st2 c] b2]| | |] eqn:E1; try discriminate E. cbn [rbind ecomp run_block] in E.
  destruct (made_source F 0 _ st1 b1 _ _ ltac:(unfold max_depth; lia) B1 E1) as (B2 & its & Q & S2 & D2 & L2). cbn [fst snd] in *. injection E as <- <-.
  exists name, (v_type v), its. split; [cbn [snd]; rewrite Q, doc_node_eq; reflexivity|]. split; [now apply made_scope with v|]. split.
  - rewrite depth_scope. unfold max_depth in D2. lia.
  - cbn [events length]. rewrite app_length. cbn [length]. lia.
Qed.
End Made.

(** * What the parsers deliver *)
Definition utf8_text (v : value) : Prop := v_type v = TString -> v_enc v = EUTF8.
Definition neat (e : event) : Prop := wf_name (fst e) /\ sound_event e /\ utf8_text (snd e).
Lemma made_neat (Ev : event -> Prop) : (forall e, Ev e -> neat e) -> forall d, made Ev d -> wf_doc d /\ utf8_doc d d.
Proof.
  intros H. fix IH 2. intros d M. destruct M as [k v E [P1 P2]|k t its v E T Sc A].
  - destruct (H _ E) as (N & V & X). cbn [fst snd] in *. split.
    + cbn [wf_doc]. split; [exact N|]. unfold sound_event in V. cbn [snd] in V. destruct (v_type v); try exact V; first [discriminate P1|congruence].
    + constructor. now constructor.
  - destruct (H _ E) as (N & _). cbn [fst] in N.
    assert (I : Forall (fun d => wf_doc d /\ utf8_doc d d) its) by (revert its A; fix IHl 2; intros its A; destruct A as [|d l A1 A2]; constructor; [exact (IH d A1)|exact (IHl l A2)]).
    split.
    + cbn [wf_doc]. split; [exact N|]. split; [destruct t; try discriminate Sc; auto|]. clear A. induction I as [|d l [D1 D2] I IHI]; [exact Logic.I|]. split; [exact D1|exact IHI].
    + constructor. clear A. induction I as [|d l [D1 D2] I IHI]; constructor; auto.
Qed.
Lemma made_vals (Ev : event -> Prop) (P : bytes -> value -> Prop) : (forall k v, Ev (k, v) -> plain_value v -> P k v) -> forall d, made Ev d -> all_vals P d.
Proof.
  intros H. fix IH 2. intros d M. destruct M as [k v E Pl|k t its v E T Sc A]; [exact (H _ _ E Pl)|].
  cbn [all_vals]. revert its A. fix IHl 2. intros its A. destruct A as [|d l A1 A2]; [exact Logic.I|]. split; [exact (IH d A1)|exact (IHl l A2)].
Qed.
Lemma few_small : forall d, Z.of_nat (length (events d)) < 2 ^ 32 -> small_scopes d.
Proof.
  induction d as [k v|k t its IH] using doc_ind2; intros L; [exact Logic.I|]. cbn [events length] in L. rewrite app_length in L. cbn [length] in L. cbn [small_scopes].
  assert (X : (length its <= length (flat_map events its))%nat).
  { clear. induction its as [|d l IH]; [cbn; lia|]. cbn [flat_map]. rewrite app_length. cbn [length]. assert (1 <= length (events d))%nat by (destruct d; cbn [events length]; lia). lia. }
  split; [unfold zlen; lia|]. clear X. induction IH as [|d l D _ IHl]; [exact Logic.I|]. cbn [flat_map] in L. rewrite app_length in L. split; [apply D; lia|apply IHl; lia].
Qed.

(** PSrl *)
Ltac texts := let X := fresh in intros X; cbn in X |- *; first [discriminate X|reflexivity].
Lemma h_num flag : gok (psrl_read_num flag) utf8_text.
Proof.
  assert (D : forall d, utf8_text (val_f64 d)) by (intros d; unfold val_f64; destruct (narrow64 d); texts).
  unfold psrl_read_num. destruct (has flag _); [texts|]. destruct (has flag FFP32). { gbnd (g_move 4 ltac:(lia)). intros x B. texts. }
  destruct (has flag FFP64). { gbnd (g_move 8 ltac:(lia)). intros x B. apply D. }
  gbnd g_decode. intros n _. destruct (has flag FSigned); [|texts]. destruct (_ =? _); [exact I|texts].
Qed.
Lemma h_psrl st : gok (psrl_read st) (fun r => utf8_text (snd (snd r))).
Proof.
  unfold psrl_read. apply gok_bind. eapply gok_weaken with (Q := fun _ => True).
  { unfold psrl_read_head. gbnd (g_move 1 ltac:(lia)). intros flag _. destruct (_ || _); [exact I|]. destruct (has flag FIndexed).
    - gbnd g_decode. intros i _. destruct (_ <=? _); [exact I|]. destruct (nth_error _ _); exact I.
    - gbnd g_decode. intros n _. gbnd (g_block n). intros bs _. exact I. }
  intros [st1 [flag name]] _. destruct (flag =? 0).
  { destruct (ps_stack st1); [exact I|]. apply gok_bind, gok_lift. intros; texts. }
  destruct (flag_is_scope flag). { cbn. destruct (has flag FObject); texts. }
  destruct (has flag FNum). { gbnd h_num. intros v H. exact H. }
  destruct (has flag (Z.lor FBinary FString)).
  { gbnd g_decode. intros n _. gbnd (g_block n). intros bs [W _]. intros _. reflexivity. }
  destruct (has flag FNull); [texts|exact I].
Qed.

(** MessagePack *)
Lemma h_scalar p : gok (mp_read_scalar p) utf8_text.
Proof.
  assert (D : forall d, utf8_text (val_f64 d)) by (intros d; unfold val_f64; destruct (narrow64 d); texts).
  assert (N : forall t, t <> TString -> gok (mp_read_int t) utf8_text) by (intros t Nt; unfold mp_read_int; gbnd (g_swapped (Z.of_nat (int_bytes t)) ltac:(lia)); intros x B; intros X; destruct (Nt X)).
  unfold mp_read_scalar. destruct (_ || _); [texts|]. destruct (_ && _).
  - unfold mp_read_num. repeat (destruct (p =? _)); try (apply N; discriminate); try exact I.
    + gbnd (g_swapped 4 ltac:(lia)). intros x B. texts.
    + gbnd (g_swapped 8 ltac:(lia)). intros x B. apply D.
  - destruct (p =? 192); [texts|]. unfold mp_read_fixnum. texts.
Qed.
Lemma h_str p : gok (mp_read_str p) (fun v => wf_name (v_data v) /\ utf8_text v).
Proof.
  unfold mp_read_str. apply gok_bind. eapply gok_weaken with (Q := fun _ => True).
  { unfold mp_str_size. destruct (_ && _); [exact I|]. repeat (destruct (p =? _)); (eapply gok_weaken; [apply g_move; lia|]; intros; exact I). }
  intros n _. gbnd (g_block n). intros bs [W _]. split; [|intros _; reflexivity]. exact (sane_data TString bs EUTF8 (or_introl eq_refl) W).
Qed.
Lemma h_value st name p : wf_name name -> gok (mp_read_value st name p) (fun r => wf_name (fst (snd r)) /\ utf8_text (snd (snd r))).
Proof.
  intros N. unfold mp_read_value. destruct (prefix_is_scope p).
  { apply gok_bind. eapply gok_weaken with (Q := fun r => fst r = TObject \/ fst r = TArray).
    - unfold mp_scope_info. destruct (negb _); [|cbn; destruct (negb _); auto]. destruct (negb (Z.land p 1 =? 0)).
      + gbnd (g_swapped 4 ltac:(lia)). intros n _. cbn. destruct (negb _); auto.
      + gbnd (g_swapped 2 ltac:(lia)). intros n _. cbn. destruct (negb _); auto.
    - intros [t n] H. cbn in H. split; [exact N|]. destruct H as [-> | ->]; texts. }
  destruct (prefix_is_str p); [gbnd (h_str p); intros v H; split; [exact N|apply H]|]. destruct (prefix_is_scalar p); [gbnd (h_scalar p); intros v H; split; [exact N|exact H]|].
  destruct (prefix_is_bin p); [|exact I]. unfold mp_read_bin. apply gok_bind, gok_bind. eapply gok_weaken with (Q := fun _ => True).
  { unfold mp_bin_size. repeat (destruct (p =? _)); (eapply gok_weaken; [apply g_move; lia|]; intros; exact I). }
  intros n _. gbnd (g_block n). intros bs _. split; [exact N|texts].
Qed.
Lemma no_name : wf_name [].
Proof. split; [apply Forall_nil|cbn; lia]. Qed.
Lemma h_msgp st : gok (msgp_read st) (fun r => wf_name (fst (snd r)) /\ utf8_text (snd (snd r))).
Proof.
  unfold msgp_read. destruct (mp_stack st) as [|s stack].
  - gbnd (g_move 1 ltac:(lia)). intros p _. apply h_value, no_name.
  - destruct (_ <? _); [split; [apply no_name|texts]|]. gbnd (g_move 1 ltac:(lia)). intros p _. destruct (ty_eqb _ _); [|apply h_value, no_name].
    apply gok_bind. eapply gok_weaken with (Q := wf_name).
    + destruct (prefix_is_str p); [|apply no_name]. unfold mp_read_name. gbnd (h_str p). intros v H. apply H.
    + intros name N. gbnd (g_move 1 ltac:(lia)). intros q _. now apply h_value.
Qed.

(** JSON *)
Section Json.
Variable x : fp_text.
Lemma h_text s hint v : str_to_type x s hint = Some v -> utf8_text v.
Proof.
  assert (D : forall d, utf8_text (val_f64 d)) by (intros d; unfold val_f64; destruct (narrow64 d); texts).
  unfold str_to_type. destruct (trim_space s) as [|c0 r] eqn:T; [discriminate|]. rewrite <- T.
  destruct (_ && _ && _); [intros X; inversion X; texts|]. destruct (_ && _ && _); [intros X; inversion X; texts|]. destruct (_ && _ && _); [intros X; inversion X; texts|].
  assert (FP : match x_strtod x (trim_space s) with Some bits => Some (val_f64 bits) | None => None end = Some v -> utf8_text v).
  { destruct (x_strtod x (trim_space s)) as [d|] eqn:E; [|discriminate]. intros X. inversion X. apply D. }
  destruct (is_fp hint); [exact FP|]. destruct (str_to_int _) as [[i sg] ok]. destruct ok; [|exact FP]. intros X. inversion X. destruct sg; texts.
Qed.
Definition jneat (s : jstate) : Prop := wf_bytes (s_name s) /\ (s_complete s = true -> utf8_text (s_value s)).
Lemma h_item f st s : wf_bufs st -> jneat s -> gok (process_item x f st s) (fun r => wf_bufs (fst (fst r)) /\ jneat (snd (fst r))).
Proof.
  intros W [GN G]. unfold process_item. cbn [gok]. intros c _. destruct (c =? 34).
  { apply gok_bind. eapply gok_weaken with (Q := fun r => wf_bufs (fst r) /\ jneat (snd r)); [|intros [a b] H; exact H]. unfold process_quote.
    destruct (ty_eqb _ _); [exact I|]. cbn [gok]. gbnd (g_unescape f (if s_named s then j_vbuf st else j_nbuf st) ltac:(destruct (s_named s); apply W)). intros [content buf] [A B]. cbn [fst snd] in *.
    set (st' := if s_named s then _ else _). assert (W' : wf_bufs st') by (unfold st', wf_bufs; destruct (s_named s); cbn; split; auto; apply W).
    apply gok_bind. eapply gok_weaken with (Q := jneat); [|intros s' H; split; [exact W'|exact H]]. unfold process_string. destruct (_ || _); [|destruct (s_named s); [exact I|split; [exact A|exact G]]].
    split; [exact GN|]. intros _. cbn [s_value]. texts. }
  destruct (c =? 58); [destruct (s_reading s); [exact I|split; [exact W|split; auto]]|].
  destruct (existsb _ _).
  { apply gok_bind. eapply gok_weaken with (Q := fun r => wf_bufs (fst r) /\ jneat (snd r)); [|intros [a b] H; exact H]. unfold process_bracket.
    assert (X : forall t stack ty, In t [TObject; TArray; TScopeEnd] -> gok (Ret (mkPjson (j_compact st) stack ty (j_closed st) (j_nbuf st) (j_vbuf st), mkJs (s_name s) (val_type t) true (s_named s) (s_reading s))) (fun r => wf_bufs (fst r) /\ jneat (snd r))).
    { intros t stack ty T. split; [exact W|]. split; [exact GN|]. intros _. cbn in *. destruct T as [<-|[<-|[<-|[]]]]; texts. }
    destruct (c =? 123); [apply X; cbn; auto|]. destruct (c =? 91); [apply X; cbn; auto|]. cbn [ty_eqb ty_num Z.eqb]. change (ty_eqb TScopeEnd TScopeEnd) with true. cbn iota.
    destruct (j_stack st); [exact I|apply X; cbn; auto]. }
  destruct (c =? 47).
  { apply gok_bind. eapply gok_weaken with (Q := fun _ => True); [|intros; split; [exact W|split; auto]]. unfold skip_comment. cbn [gok]. intros [|]; [|exact I]. cbn [gok]. intros d _.
    destruct (d =? 42); [gbnd (g_until f [TkPair 42 47]); intros; exact I|]. destruct (d =? 47); [gbnd (g_until f [TkChar 10; TkChar 13]); intros; exact I|exact I]. }
  apply gok_bind. eapply gok_weaken with (Q := fun r => jneat (fst r)); [|intros [s' mv] H; split; [exact W|exact H]]. unfold process_char. cbn [gok]. intros e _.
  destruct (is_literal e); [|split; auto]. unfold read_block_until. cbn [pbind gok]. apply gok_bind. gbnd (g_until f [TkChar 44; TkChar 32; TkChar 125; TkChar 93; TkNotify 46]). intros [steps fp] _. cbn [gok]. intros bs _ _.
  destruct (str_to_type x bs _) as [v|] eqn:E; [|exact I]. cbn [gok]. intros d _. split; [exact GN|]. intros _. cbn. eapply h_text, E.
Qed.
Lemma h_json f : forall n st s, wf_bufs st -> jneat s -> gok (json_loop x f n st s) (fun r => wf_bytes (fst (snd r)) /\ utf8_text (snd (snd r))).
Proof.
  induction n as [|n IH]; intros st s W G; cbn [json_loop]; [exact I|]. apply gok_bind. eapply gok_weaken with (Q := fun _ => True).
  { unfold seek_item. destruct (_ && _); [apply g_until|apply g_loop]. }
  intros _ _. gbnd (h_item f st s W G). intros [[st' s'] mv] [A B]. cbn [fst snd] in *.
  assert (N : gok (if s_complete s' then Ret (st', (s_name s', s_value s')) else json_loop x f n st' s') (fun r => wf_bytes (fst (snd r)) /\ utf8_text (snd (snd r)))).
  { destruct (s_complete s') eqn:C; [|now apply IH]. destruct B as [B1 B2]. split; [exact B1|]. apply B2, C. }
  destruct mv; exact N.
Qed.
Lemma h_json_read f st : wf_bufs st -> gok (json_read x f st) (fun r => wf_bytes (fst (snd r)) /\ utf8_text (snd (snd r))).
Proof. intros W. apply h_json; [exact W|]. split; [apply Forall_nil|intros X; discriminate X]. Qed.
End Json.

(** * Loading *)
Definition short (b : blk) : Prop := wf_blk b /\ zlen (b_rest b) < 2 ^ 31.
Lemma short_left b : short b -> bytes_left b.
Proof. intros [[_ W] _]. exact W. Qed.
Lemma consumed_short bs b b' : short b -> wf_blk b' -> consumed bs b b' -> short b'.
Proof. intros [_ L] W [E _]. split; [exact W|]. rewrite E, zlen_app in L. pose proof (zlen_nonneg bs). lia. Qed.
Definition in_psrl (v : value) : Prop := meaning_of v <> MeInt (- 2 ^ 63).
Lemma ps_not_least f m bs : ps_value f m bs -> m <> MeInt (- 2 ^ 63).
Proof.
  intros P. change (- 2 ^ 63) with (-9223372036854775808). intros E. apply (f_equal (fun m => match m with MeInt z => z | _ => 0 end)) in E.
  destruct P as [| | |n0 bs0 _ _ _ _ (m & _ & _ & Hm)|n0 bs0 _ _ _ _ (m & _ & _ & Hm) Ne| | |]; cbv beta iota in E; try discriminate E.
  - pose proof (Z.mod_pos_bound m (2 ^ 64) ltac:(lia)). lia.
  - pose proof (Z.mod_pos_bound m (2 ^ 64) ltac:(lia)). change (2 ^ 63) with 9223372036854775808 in *. change (2 ^ 64) with 18446744073709551616 in *. destruct (Z.ltb_spec n0 9223372036854775808); lia.
Qed.
Lemma read_psrl st b r b' : (short b /\ exists stk tab h, st = at_scope stk tab h /\ ok_scopes stk /\ Forall wf_name tab) -> run_block (psrl_read st) b = Ok (r, b') ->
  (short b' /\ exists stk tab h, fst r = at_scope stk tab h /\ ok_scopes stk /\ Forall wf_name tab) /\ (length (b_rest b') < length (b_rest b))%nat /\ neat (snd r) /\ (plain_value (snd (snd r)) -> in_psrl (snd (snd r))).
Proof.
  intros [Sb (stk & tab & h & -> & K & T)] E. pose proof (i_read stk tab h b (short_left _ Sb) K) as R. unfold triple in R. rewrite E in R. destruct R as (_ & bs & C & R).
  destruct (gok_run _ _ (g_psrl _) b r b' (proj1 Sb) E) as [G W]. destruct (gok_run _ _ (h_psrl _) b r b' (proj1 Sb) E) as [X _].
  assert (Sb' : short b') by exact (consumed_short _ _ _ Sb W C).
  assert (Hw : wf_bytes bs /\ zlen bs < 2 ^ 31). { destruct Sb as [[_ W0] L0]. destruct C as [C _]. rewrite C in W0, L0. apply Forall_app in W0. rewrite zlen_app in L0. pose proof (zlen_nonneg (b_rest b')). split; [tauto|lia]. }
  assert (NM : forall t f n tab' ns rest, ps_name t tab f n tab' ns -> bs = f :: ns ++ rest -> wf_name n /\ Forall wf_name tab').
  { intros t f n tab' ns rest P Eb. destruct P as [_|i n0 bs0 _ _ _ _ P|n0 bs0 _ _ _ (ls & _ & _ & P)].
    - split; [apply no_name|exact T].
    - split; [|exact T]. apply nth_error_In in P. rewrite Forall_forall in T. now apply T.
    - assert (N : wf_name n0). { destruct Hw as [W1 L1]. rewrite Eb, P in W1, L1. rewrite zlen_cons, !zlen_app in L1. inversion W1 as [|? ? _ W2]; subst. apply Forall_app in W2. destruct W2 as [W2 _]. apply Forall_app in W2. destruct W2 as [_ W2].
        split; [exact W2|]. pose proof (zlen_nonneg ls). pose proof (zlen_nonneg rest). lia. }
      split; [exact N|]. apply Forall_app. split; [exact T|]. constructor; [exact N|constructor]. }
  assert (LN : bs <> [] -> (length (b_rest b') < length (b_rest b))%nat). { intros N. destruct C as [C _]. rewrite C, app_length. destruct bs; [congruence|cbn; lia]. }
  destruct R as [t stk' ->|f n v tab' ns vs Hf P [Pv Gv]|f n tab' ns t Hf F0 F67 P Ht]; cbn [fst snd] in *.
  - split; [split; [exact Sb'|]; exists stk', tab, h; split; [reflexivity|]; split; [now inversion K|exact T]|]. split; [apply LN; discriminate|].
    split; [split; [apply no_name|split; [exact G|exact X]]|]. intros [_ []]; reflexivity.
  - destruct (NM _ _ _ _ _ vs P eq_refl) as [N1 N2]. split; [split; [exact Sb'|]; exists stk, tab', h; auto|]. split; [apply LN; discriminate|]. split; [split; [exact N1|split; [exact G|exact X]]|].
    intros _. exact (ps_not_least _ _ _ Gv).
  - destruct (NM _ _ _ _ _ [] P ltac:(now rewrite app_nil_r)) as [N1 N2].
    split; [split; [exact Sb'|]; exists (t :: stk), tab', h; split; [reflexivity|]; split; [constructor; [subst t; apply scope_ty|exact K]|exact N2]|]. split; [apply LN; discriminate|].
    split; [split; [exact N1|split; [exact G|exact X]]|]. intros [Q _]. subst t. destruct (f # 6); discriminate Q.
Qed.
Lemma read_msgp st b r b' : wf_blk b -> run_block (msgp_read st) b = Ok (r, b') -> wf_blk b' /\ (fuel_left (fst r) b' < fuel_left st b)%nat /\ neat (snd r).
Proof.
  intros Sb E. destruct (gok_run _ _ (g_msgp _) b r b' Sb E) as [G W]. destruct (gok_run _ _ (h_msgp _) b r b' Sb E) as [[N X] _].
  pose proof (t_read st b (proj2 Sb)) as R. unfold triple in R. rewrite E in R. destruct R as [_ R].
  split; [exact W|]. split; [exact R|]. split; [exact N|split; [exact G|exact X]].
Qed.
Lemma read_json x F st b r b' : (forall s d, x_strtod x s = Some d -> 0 <= d < 2 ^ 64) -> short b /\ (length (b_rest b) < F)%nat /\ wf_bufs st -> run_block (json_read x F st) b = Ok (r, b') ->
  (short b' /\ (length (b_rest b') < F)%nat /\ wf_bufs (fst r)) /\ (length (b_rest b') < length (b_rest b))%nat /\ neat (snd r).
Proof.
  intros SD (Sb & L & B) E. destruct (gok_run _ _ (g_json_read x SD F st B) b r b' (proj1 Sb) E) as [[B' G] W]. destruct (gok_run _ _ (h_json_read x F st B) b r b' (proj1 Sb) E) as [[N X] _].
  pose proof (json_read_safe x F st b L) as R. unfold triple in R. rewrite E in R. destruct R as (NL & bs & Ne & C).
  pose proof (consumed_short _ _ _ Sb W C) as Sb'. assert (Lt : (length (b_rest b') < length (b_rest b))%nat) by (apply consumed_len in C; destruct bs; [congruence|cbn [length] in C; lia]).
  split; [split; [exact Sb'|]; split; [lia|exact B']|]. split; [exact Lt|]. split; [|split; [exact G|exact X]]. split; [exact N|]. destruct Sb as [_ L0]. lia.
Qed.
(** what loads is a document that can be saved *)
Lemma loaded_made x p F src p' k n b : sound_parser x p -> wf_bytes src -> zlen src < 2 ^ 31 -> (length src < F)%nat ->
  run_block (load_tree x F p) (set_block src) = Ok ((p', (k, n)), b) ->
  exists t its, n = doc_node (DScope k t its) /\ (depth (DScope k t its) <= 129)%nat /\ Z.of_nat (length (events (DScope k t its))) < 2 ^ 32 /\ wf_doc (DScope k t its) /\ utf8_doc (DScope k t its) (DScope k t its) /\
    match p with PsrlP _ => all_vals (fun _ v => in_psrl v) (DScope k t its) | _ => True end.
Proof.
  intros SP W L LF E. assert (Sb : short (set_block src)) by (split; [split; [apply Forall_nil|exact W]|exact L]).
  unfold load_tree in E. destruct p as [st|st|st]; cbn [parser_clear] in E; rewrite run_block_bind in E.
  - destruct (run_block (ecomp psrl_read (load_prog F) _) _) as [[[st1 r1] b1]| | |] eqn:E1; try discriminate E. cbn [rbind run_block] in E. injection E as _ -> _.
    destruct (made_load psrl_read (fun st b => short b /\ exists stk tab h, st = at_scope stk tab h /\ ok_scopes stk /\ Forall wf_name tab) (fun _ b => length (b_rest b)) (fun e => neat e /\ (plain_value (snd e) -> in_psrl (snd e))) (fun st b r b' H R => read_psrl st b r b' H R) F _ _ _ _ (conj Sb (ex_intro _ [] (ex_intro _ [] (ex_intro _ [] (conj eq_refl (conj (Forall_nil _) (Forall_nil _))))))) E1) as (k0 & t & its & Q & M & D & Len).
    cbn [snd] in Q. injection Q as -> ->. exists t, its. destruct (made_neat _ (fun e H => proj1 H) _ M) as [Wf Ut]. split; [reflexivity|]. split; [exact D|]. split; [change (length (b_rest (set_block src))) with (length src) in Len; unfold zlen in L; lia|].
    split; [exact Wf|]. split; [exact Ut|]. exact (made_vals _ _ (fun k v H P => proj2 H P) _ M).
  - destruct (run_block (ecomp msgp_read (load_prog F) _) _) as [[[st1 r1] b1]| | |] eqn:E1; try discriminate E. cbn [rbind run_block] in E. injection E as _ -> _.
    destruct (made_load msgp_read (fun _ b => wf_blk b) fuel_left neat (fun st b r b' H R => read_msgp st b r b' H R) F _ _ _ _ (proj1 Sb) E1) as (k0 & t & its & Q & M & D & Len).
    cbn [snd] in Q. injection Q as -> ->. exists t, its. destruct (made_neat _ (fun e H => H) _ M) as [Wf Ut]. split; [reflexivity|]. split; [exact D|]. split; [unfold fuel_left in Len; cbn [msgp_clear mp_stack length] in Len; change (length (b_rest (set_block src))) with (length src) in Len; unfold zlen in L; lia|].
    auto.
  - destruct SP as (B1 & B2 & SD). destruct (run_block (ecomp (json_read x F) (load_prog F) _) _) as [[[st1 r1] b1]| | |] eqn:E1; try discriminate E. cbn [rbind run_block] in E. injection E as _ -> _.
    destruct (made_load (json_read x F) (fun st b => short b /\ (length (b_rest b) < F)%nat /\ wf_bufs st) (fun _ b => length (b_rest b)) neat (fun st b r b' H R => read_json x F st b r b' SD H R) F (json_clear st) _ _ _ (conj Sb (conj LF (conj B1 B2))) E1) as (k0 & t & its & Q & M & D & Len).
    cbn [snd] in Q. injection Q as -> ->. exists t, its. destruct (made_neat _ (fun e H => H) _ M) as [Wf Ut]. split; [reflexivity|]. split; [exact D|]. split; [change (length (b_rest (set_block src))) with (length src) in Len; unfold zlen in L; lia|].
    auto.
Qed.
Lemma fits_carries x p q d : fits_in x p q d -> match p with PsrlP _ => all_vals (fun _ v => in_psrl v) d | _ => True end -> wf_doc d -> is_scope_doc d -> Z.of_nat (length (events d)) < 2 ^ 32 -> carries x q d.
Proof.
  intros Ft In W Sc L. split; [exact W|]. split; [exact Sc|]. destruct q as [st|st|st].
  - split; [|lia]. destruct p as [st'|st'|st']; [exact In|exact Ft|exact Ft].
  - now apply few_small.
  - exact Ft.
Qed.
Theorem relayed x p q F src p' k n b : sound_parser x p -> wf_bytes src -> zlen src < 2 ^ 31 -> (length src < F)%nat ->
  run_block (load_tree x F p) (set_block src) = Ok ((p', (k, n)), b) -> fits_in x p q (tree_doc k n) ->
  exists bs k2 n2, saves_as x q k n bs /\ loads_as x q bs k2 n2 /\ mdoc_of (tree_doc k2 n2) = delivered q (tree_doc k n).
Proof.
  intros SP W L LF E Ft. destruct (loaded_made x p F src p' k n b SP W L LF E) as (t & its & -> & D & Ev & Wf & Ut & Pv). set (d := DScope k t its) in *.
  assert (TD : tree_doc k (doc_node d) = values_first d) by exact (tree_of_doc d Logic.I). rewrite TD in *.
  assert (C : carries x q (values_first d)).
  { apply (fits_carries x p q); [exact Ft| |now apply vf_wf|exact Logic.I|now rewrite vf_events]. destruct p; auto. now apply vf_vals. }
  pose proof (utf8_values_first _ _ Ut) as U1. destruct (saved_loaded x q k (doc_node d) (values_first d) ltac:(rewrite TD; exact U1) C) as (bs & S1 & L1).
  rewrite vf_depth in L1. replace (Nat.leb (depth d) 129) with true in L1 by (symmetry; apply Nat.leb_le; exact D).
  exists bs. do 2 eexists. split; [exact S1|]. split; [exact L1|]. rewrite (loaded_tree_doc q k (doc_node d) (values_first d)) by (rewrite TD; exact U1). apply (dnorm_delivered x). exact C.
Qed.

(** * From one binary format to the other *)
Lemma ps_unnamed t tab f n tab' ns : ps_name t tab f n tab' ns -> (if ty_eqb t TObject then n else []) = n.
Proof. intros [N|i n0 bs0 -> _ _ _ _|n0 bs0 -> _ _ _]; [now destruct (ty_eqb t TObject)|reflexivity|reflexivity]. Qed.
Lemma ps_denote : forall d t tab tab' bs, ps_doc t tab (mdoc_of d) tab' bs -> denote (ty_eqb t TObject) d = mdoc_of d.
Proof.
  induction d as [k v|k ty its IH] using doc_ind2; intros t tab tab' bs P; cbn [mdoc_of denote] in *.
  - inversion P; subst. now rewrite (ps_unnamed _ _ _ _ _ _ ltac:(eassumption)).
  - inversion P as [|t0 tab0 f n its' tab1 tab2 ns bs' Hf F0 F67 N I]; subst. rewrite (ps_unnamed _ _ _ _ _ _ N). f_equal.
    clear P N. revert tab1 bs' I. induction IH as [|d l D _ IHl]; intros tab1 bs' I; [reflexivity|]. cbn [map] in *.
    inversion I as [|? ? ? ? tabm ? b1 bs1 P1 P2]; subst. f_equal; [eapply D; exact P1|eapply IHl; exact P2].
Qed.
Lemma pk_denote : forall d bs (nm : bool), pk_doc (mdoc_of d) bs -> (nm = false -> doc_name d = []) -> denote nm d = mdoc_of d.
Proof.
  induction d as [k v|k ty its IH] using doc_ind2; intros bs nm P N; cbn [mdoc_of denote doc_name] in *.
  - f_equal. destruct nm; [reflexivity|]. now rewrite N.
  - inversion P as [|n t its' h bs' Hh I]; subst. f_equal; [destruct nm; [reflexivity|now rewrite N]|]. clear P Hh N.
    revert bs' I. induction IH as [|d l D _ IHl]; intros bs' I; [reflexivity|]. cbn [map] in *.
    inversion I as [|? ? ? b1 bs1 K P1 P2|? ? b1 bs1 K P1 P2]; subst; (f_equal; [eapply D; [exact P1|]|eapply IHl; exact P2]).
    + discriminate.
    + intros _. destruct d; exact K.
Qed.
Lemma binary_denote x p F src p' k n b : match p with JsonP _ => False | _ => True end -> wf_bytes src -> run_block (load_tree x F p) (set_block src) = Ok ((p', (k, n)), b) -> denote false (tree_doc k n) = mdoc_of (tree_doc k n).
Proof.
  intros P W E.
  assert (G : exists d, match d with DScope _ _ _ => True | _ => False end /\ k = doc_name d /\ n = doc_node d /\ denote false d = mdoc_of d).
  { destruct p as [st|st|st]; [| |destruct P].
    - destruct (ps_sound x F st src _ _ W E) as (t & its & tab & bs & R & _ & D & _). injection R as _ -> ->. exists (DScope [] t its). repeat split; auto. exact (ps_denote _ TNull _ _ _ D).
    - destruct (lang_sound x F st src _ _ W E) as (t & its & bs & R & _ & D & _). injection R as _ -> ->. exists (DScope [] t its). repeat split; auto. apply (pk_denote _ _ _ D). reflexivity. }
  destruct G as (d & Sc & -> & -> & H). rewrite (tree_of_doc d Sc). rewrite mvf_mdoc, <- H. exact (mvf_keeps _ _ (fdenote_keeps (PsrlP psrl_init)) d false).
Qed.
Theorem binary_relayed x p q F src p' k n b : match p, q with JsonP _, _ | _, JsonP _ => False | _, _ => True end -> wf_bytes src -> zlen src < 2 ^ 31 -> (length src < F)%nat ->
  run_block (load_tree x F p) (set_block src) = Ok ((p', (k, n)), b) -> fits_in x p q (tree_doc k n) ->
  exists bs k2 n2, saves_as x q k n bs /\ loads_as x q bs k2 n2 /\ mdoc_of (tree_doc k2 n2) = mdoc_of (tree_doc k n).
Proof.
  intros P W L LF E Ft. destruct (relayed x p q F src p' k n b ltac:(destruct p; [exact I|exact I|destruct P]) W L LF E Ft) as (bs & k2 & n2 & S1 & L1 & M).
  exists bs, k2, n2. split; [exact S1|]. split; [exact L1|]. rewrite M. rewrite <- (binary_denote x p F src p' k n b ltac:(destruct p; [exact I|exact I|destruct P]) W E). destruct q; [reflexivity|reflexivity|destruct p; destruct P].
Qed.
