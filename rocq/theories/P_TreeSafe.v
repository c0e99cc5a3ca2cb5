(** Loading a tree from arbitrary input: it ends, what can go wrong, memory and stream; reuse of parsers. *)
From Coq Require Import ZArith List Bool Lia ZifyBool ZifyNat.
From Verif Require Import Base Lemmas M_Types M_Conv M_Charset M_In S_Conv S_Charset S_Doc M_OutOps S_Out M_Env M_Event M_PSrl M_MsgPack S_Json M_Json
  M_Heap M_Out M_Tree S_Tree M_TreeIO S_TreeIO P_In P_Reads P_Safe P_Exact P_Doc P_Text P_Charset P_Scan P_PSrlDoc P_PSrlSafe P_PSrlMain P_MsgPackDoc P_MsgPackSafe P_MsgPackMain
  P_JsonLit P_JsonDoc P_JsonSafe P_JsonMain P_Tree P_TreeOps P_TreeIO.
Import ListNotations.
Open Scope Z_scope.

Lemma ecomp_bind {St A B} (rd : St -> prog (St * event)) (p : eprog A) (f : A -> eprog B) : forall st b,
  run_block (ecomp rd (ebind p f) st) b = run_block (let! (st', a) := ecomp rd p st in ecomp rd (f a) st') b.
Proof.
  induction p as [r| |u| |k IH]; intros st b; cbn [ebind ecomp pbind]; try reflexivity.
  rewrite !run_block_bind. destruct (run_block (rd st) b) as [[[st' e] b']| | |] eqn:E; cbn [rbind]; try reflexivity.
  rewrite IH, !run_block_bind. reflexivity.
Qed.

Section LoadSafe.
  Context {St : Type} (rd : St -> prog (St * event)) (U : ub -> Prop) (Inv : blk -> Prop) (mu : St -> blk -> nat).
  Context (Hrd : forall st b, Inv b -> triple U (rd st) b (fun a b' => Inv b' /\ (mu (fst a) b' < mu st b)%nat)).
  Lemma read_source_safe : forall f dp n st b, Inv b -> (mu st b < f)%nat ->
    triple U (ecomp rd (read_source f dp n) st) b (fun a b' => Inv b' /\ (mu (fst a) b' <= mu st b)%nat).
  Proof.
    induction f as [|f IH]; intros dp n st b HI L; [lia|]. cbn [read_source ecomp]. apply triple_bind.
    eapply triple_conseq; [apply Hrd; exact HI|]. cbv beta. intros [st1 [nm v]] b1 [I1 L1]. cbn [fst] in L1. cbv beta iota.
    destruct (ty_eqb (v_type v) TScopeEnd); [apply triple_ret; cbn [fst]; split; [exact I1|lia]|].
    destruct (negb (is_scope (v_type v))).
    - rewrite store_value_utf8. cbn [elift ebind]. eapply triple_conseq; [apply IH; [exact I1|lia]|]. cbv beta. intros a b2 [I2 L2]. split; [exact I2|lia].
    - destruct (_ <? _); [exact I|]. unfold triple. rewrite ecomp_bind. change (triple U (let! (st', a) := ecomp rd (read_source f (dp + 1) (empty_node (v_type v))) st1 in
          ecomp rd (ebind (elift (store_node n a (nm, EUTF8))) (read_source f dp)) st') b1 (fun a b' => Inv b' /\ (mu (fst a) b' <= mu st b)%nat)).
      apply triple_bind. eapply triple_conseq; [apply IH; [exact I1|lia]|]. cbv beta. intros [st2 c] b2 [I2 L2]. cbn [fst] in L2. cbv beta iota.
      rewrite store_node_utf8. cbn [elift ebind]. eapply triple_conseq; [apply IH; [exact I2|lia]|]. cbv beta. intros a b3 [I3 L3]. split; [exact I3|lia].
  Qed.
  Lemma load_safe f st b (mk : St -> parser) : Inv b -> (mu st b <= f)%nat ->
    triple U (let! (st', r) := ecomp rd (load_prog f) st in Ret (mk st', r)) b (fun _ _ => True).
  Proof.
    intros HI L. apply triple_bind. unfold load_prog. cbn [ecomp]. apply triple_bind. eapply triple_conseq; [apply Hrd; exact HI|].
    cbv beta. intros [st1 [nm v]] b1 [I1 L1]. cbn [fst] in L1. cbv beta iota. destruct (negb (is_scope (v_type v))); [exact I|].
    unfold triple at 1. rewrite ecomp_bind.
    change (triple U (let! (st', a) := ecomp rd (read_source f 0 (empty_node (v_type v))) st1 in ecomp rd (ERet (nm, a)) st') b1
      (fun a b' => triple U (let (st', r) := a in Ret (mk st', r)) b' (fun _ _ => True))).
    apply triple_bind. eapply triple_conseq; [apply read_source_safe; [exact I1|lia]|]. cbv beta. intros [st2 c] b2 _. cbn. exact I.
  Qed.
End LoadSafe.

(** the kinds of undefined behaviour that loading can run into *)
Definition load_ub (p : parser) (src : bytes) (u : ub) : Prop :=
  match p with
  | PsrlP _ => In u [UbEnd; UbShift; UbPtr; UbSigned]
  | MsgpP _ => False
  | JsonP _ => u = UbEnd \/ (u = UbHeap /\ exists p q, src = p ++ 92 :: 117 :: q)
  end.
Lemma load_any x p F src : wf_bytes src -> (2 * length src < F)%nat -> triple (load_ub p src) (load_tree x F p) (set_block src) (fun _ _ => True).
Proof.
  intros W L. unfold load_tree. destruct p as [st|st|st]; cbn [parser_clear load_ub].
  - apply load_safe with (Inv := fun _ => True) (mu := fun _ b => length (b_rest b)); auto; [|cbn; lia].
    intros s b _. eapply triple_conseq; [apply psrl_read_triple|]. cbv beta. intros [s1 e] b1 (bs & N & C). split; [exact I|].
    apply consumed_len in C. destruct bs; [congruence|]. cbn [length] in C. lia.
  - apply load_safe with (Inv := bytes_left) (mu := fuel_left); [|exact W|unfold fuel_left; cbn; lia].
    intros s b B. eapply triple_weaken; [|intros a b' H; exact H|apply t_read; exact B]. intros u [].
  - apply load_safe with (Inv := fun b => (exists pre, src = pre ++ b_rest b) /\ (length (b_rest b) < F)%nat) (mu := fun _ b => length (b_rest b)).
    + intros s b [[pre E] Lb]. eapply triple_weaken; [| |apply json_read_safe; exact Lb].
      * intros u [-> |[-> (p & q & H)]]; [now left|]. right. split; [reflexivity|]. exists (pre ++ p), q. rewrite E, H. now rewrite app_assoc.
      * cbv beta. intros a b1 (_ & bs & N & C). pose proof C as [C1 _]. apply consumed_len in C. assert (length bs <> 0)%nat by (destruct bs; [congruence|discriminate]).
        split; [|lia]. split; [|lia]. exists (pre ++ bs). rewrite E, C1. now rewrite app_assoc.
    + split; [exists []; reflexivity|cbn; lia].
    + cbn. lia.
Qed.
(** the tree walk adds no difference between memory and stream *)
Lemma ecomp_exact {St R} (rd : St -> prog (St * event)) : (forall st, exact bytes_left (rd st) (fun _ => True)) ->
  forall (p : eprog R) st, exact bytes_left (ecomp rd p st) (fun _ => True).
Proof.
  intros H. induction p as [r| |u| |k IH]; intros st; cbn [ecomp]; [now apply exact_ret|apply exact_throw|intros b g s R0 L0 I0; reflexivity|intros b g s R0 L0 I0; reflexivity|].
  eapply exact_bind; [apply H|]. intros [st' e] _. apply IH.
Qed.
Lemma msgp_load_stream x F st src : wf_bytes src -> (2 * length src < F)%nat ->
  match run_block (load_tree x F (MsgpP st)) (set_block src) with
  | Ok (r, _) => exists s, run_stream (load_tree x F (MsgpP st)) (set_stream src) = Ok (r, s)
  | Err => run_stream (load_tree x F (MsgpP st)) (set_stream src) = Err
  | UB _ | Fuel => False
  end.
Proof.
  intros W L. pose proof (load_any x (MsgpP st) F src W L) as T. unfold triple in T.
  assert (X : exact bytes_left (load_tree x F (MsgpP st)) (fun _ => True)).
  { unfold load_tree. cbn [parser_clear]. eapply exact_bind; [apply ecomp_exact; exact e_read|]. intros [st' r] _. now apply exact_ret. }
  pose proof (exact_final _ _ src X W) as E. destruct (run_block _ _) as [[r b]| | |]; auto.
Qed.
Lemma load_stream_final {St} (rd : St -> prog (St * event)) (mk : St -> parser) n F st src es st' s r :
  run_stream (read_events rd n st) (set_stream src) = Ok ((st', es), s) -> erun (load_prog F) es = Some (Ok (r, [])) ->
  run_stream (let! (st', r) := ecomp rd (load_prog F) st in Ret (mk st', r)) (set_stream src) = Ok ((mk st', r), s).
Proof. intros E H. rewrite run_stream_bind, (ecomp_stream rd _ _ _ _ _ _ _ _ E H). reflexivity. Qed.
(** what was saved loads from a stream as it does from memory *)
Definition short_names (d : doc) : Prop := Forall (fun e => zlen (fst e) < 1024) (events d).
Lemma short_names_norm nv : forall d nm, short_names d -> short_names (doc_norm nv nm d).
Proof.
  unfold short_names. assert (N0 : forall (nm : bool) (k : bytes), zlen k < 1024 -> zlen (if nm then k else []) < 1024) by (intros [|] k H; [exact H|cbn; lia]).
  induction d as [k v|k t its IH] using doc_ind2; intros nm H; cbn [doc_norm events] in *.
  - inversion H; subst. constructor; [|constructor]. cbn [fst] in *. now apply N0.
  - inversion H as [|? ? H1 H2]; subst. constructor; [cbn [fst] in *; now apply N0|]. apply Forall_app in H2. destruct H2 as [H2 H3]. apply Forall_app. split; [|exact H3].
    generalize (ty_eqb t TObject). intros b. clear H H1 H3. induction IH as [|y l E F IHl]; cbn [map flat_map]; [constructor|]. cbn [flat_map] in H2.
    apply Forall_app in H2. destruct H2 as [H2 H3]. apply Forall_app. split; [now apply E|now apply IHl].
Qed.
Lemma saved_stream x p k n u : utf8_doc (tree_doc k n) u -> carries x p u -> (depth u <= 129)%nat ->
  (match p with PsrlP _ => short_names u | _ => True end) ->
  exists bs, saves_as x p k n bs /\ loads_as x p bs (doc_name (dnorm p u)) (doc_node (dnorm p u)) /\
  exists size, forall q F rest, same_format p q -> (size <= F)%nat -> wf_bytes rest ->
  exists q' s, run_stream (load_tree x F q) (set_stream (bs ++ rest)) = Ok ((q', (doc_name (dnorm p u), doc_node (dnorm p u))), s).
Proof.
  intros U C D Sn. destruct (saved_loaded x p k n u U C) as (bs & S1 & L1). replace (Nat.leb (depth u) 129) with true in L1 by (symmetry; now apply Nat.leb_le).
  exists bs. split; [exact S1|]. split; [exact L1|]. destruct S1 as (p' & ops & E & V & O & _). rewrite write_all_tree in E.
  pose proof (dnorm_delivered x p u C) as Dl. rewrite delivered_eq in Dl. pose proof C as (W & Sc & C').
  pose proof (utf8_events _ u U (wf_shaped u W)) as UE.
  assert (Len : length (events (dnorm p u)) = length (events u)) by apply events_norm_length.
  assert (LD : forall F, (length (events u) <= F)%nat -> erun (load_prog F) (events (dnorm p u)) =
     Some (Ok ((doc_name (dnorm p u), doc_node (dnorm p u)), []))).
  { intros F L. pose proof (load_delivered (fdenote p) _ u (dnorm p u) false F [] (fdenote_keeps p) (wf_shaped u W) Dl Sc ltac:(lia)) as X. rewrite app_nil_r in X.
    rewrite X. now replace (Nat.leb (depth u) 129) with true by (symmetry; now apply Nat.leb_le). }
  exists (length bs + length (events u) + 5)%nat. unfold write_all in E. destruct p as [st|st|st]; cbn [parser_clear] in E.
  - destruct C' as [A L]. destruct (psrl_doc u W A ltac:(lia) [] psrl_init psrl_init psrl_rel_init eq_refl) as (w' & ops' & r' & X1 & X2 & X3 & _).
    rewrite (write_rel (bin_save x psrl_write) psrl_write conv_event) with (es' := events u) in E by (auto using bin_conv, psrl_blind).
    change (psrl_clear st) with psrl_init in E. rewrite X1 in E. cbn [rbind] in E. injection E as <- <-. rewrite writes_only_out in O by auto. subst bs.
    intros [q|q|q] F rest SF LF _; try destruct SF. specialize (X3 [] rest).
    destruct (psrl_stream_eq_block _ _ _ _ _ X3) as (s & Es). { cbn [snd]. apply short_names_norm. exact Sn. }
    exists (PsrlP r'), s. unfold load_tree. cbn [parser_clear]. change (psrl_clear q) with psrl_init. eapply load_stream_final; [exact Es|]. apply LD. lia.
  - destruct (msgp_doc u W C') as (w' & ops' & E' & V' & O' & R).
    rewrite (write_rel (bin_save x msgp_write) msgp_write conv_event) with (es' := events u) in E by (auto using bin_conv, msgp_blind).
    change (msgp_clear st) with msgp_init in E. rewrite E' in E. cbn [rbind] in E. injection E as <- <-. subst bs.
    intros [q|q|q] F rest SF LF Wr; try destruct SF. specialize (R [] rest).
    assert (B : wf_bytes (spec_out ops' ++ rest)). { apply wf_bytes_app. split; [|exact Wr]. rewrite O'. now apply P_MsgPackConf.enc_wf. }
    pose proof (msgp_stream_same (length (events u)) msgp_init (spec_out ops' ++ rest) B) as Sm. unfold set_block in Sm. rewrite R in Sm. destruct Sm as (s & Es).
    exists (MsgpP msgp_init), s. unfold load_tree. cbn [parser_clear]. change (msgp_clear q) with msgp_init. eapply load_stream_final; [exact Es|]. apply LD. lia.
  - destruct C' as [A N]. assert (J : json_doc x u) by (repeat split; auto).
    destruct (json_written x u st J) as (w' & ops' & E' & Wo & O').
    rewrite (write_rel (json_save x) (json_save x) conv_event) with (es' := events u) in E by (auto using json_conv).
    rewrite E' in E. cbn [rbind] in E. injection E as <- <-. subst bs.
    intros [q|q|q] F rest SF LF Wr; try destruct SF. rewrite O' in *.
    destruct (json_read_back true x u (j_compact st) q F rest J ltac:(intros _; right; lia) ltac:(lia)) as (r' & R & _).
    destruct (rd_stream _ _ _ _ R) as (s & Es).
    exists (JsonP r'), s. unfold load_tree. cbn [parser_clear]. eapply (load_stream_final (json_read x F) JsonP); [exact Es|]. apply LD. lia.
Qed.

(** * Reuse *)
Definition outcome {P A} (r : res (P * A)) : res A := let* (_, a) := r in Ok a.
Definition same_kind (p q : parser) : Prop :=
  match p, q with PsrlP _, PsrlP _ | MsgpP _, MsgpP _ => True | JsonP a, JsonP b => j_compact a = j_compact b | _, _ => False end.
Definition same_writer (a b : pjson) : Prop :=
  j_compact a = j_compact b /\ j_stack a = j_stack b /\ j_type a = j_type b /\ j_closed a = j_closed b.
Lemma json_save_same x e : forall a b, same_writer a b ->
  match json_save x a e, json_save x b e with
  | Ok (a', o), Ok (b', o') => same_writer a' b' /\ o = o'
  | Err, Err => True | UB u, UB u' => u = u' | Fuel, Fuel => True | _, _ => False
  end.
Proof.
  intros [c s t cl nb vb] [c' s' t' cl' nb' vb'] (H1 & H2 & H3 & H4). cbn in H1, H2, H3, H4. subst. unfold json_save.
  destruct (env_event true x e) as [[k v]| | |]; cbn [rbind]; auto. unfold json_write, insert_spacing, write_name. cbn [j_compact j_stack j_type j_closed j_nbuf j_vbuf].
  destruct (is_scope (v_type v)); [repeat split|]. destruct (ty_eqb (v_type v) TScopeEnd); [|repeat split]. destruct s'; [reflexivity|repeat split].
Qed.
Lemma json_saves_same x : forall es a b, same_writer a b ->
  outcome (write_events (json_save x) a es) = outcome (write_events (json_save x) b es).
Proof.
  induction es as [|e es IH]; intros a b H; [reflexivity|]. cbn [write_events]. pose proof (json_save_same x e a b H) as Q.
  destruct (json_save x a e) as [[a' o]| |u|], (json_save x b e) as [[b' o']| |u'|]; try contradiction; try reflexivity; [|now subst].
  destruct Q as [Q ->]. cbn [rbind]. specialize (IH a' b' Q). unfold outcome in *.
  destruct (write_events (json_save x) a' es) as [[a2 o2]| |u|], (write_events (json_save x) b' es) as [[b2 o2']| |u'|]; cbn [rbind] in *; congruence.
Qed.
Lemma write_reuse x p q es : same_kind p q -> outcome (write_all x p es) = outcome (write_all x q es).
Proof.
  destruct p as [a|a|a], q as [b|b|b]; intros H; try contradiction; try reflexivity. cbn [same_kind] in H.
  unfold write_all. cbn [parser_clear]. pose proof (json_saves_same x es (json_clear a) (json_clear b) ltac:(repeat split; auto)) as Q. unfold outcome in *.
  destruct (write_events (json_save x) (json_clear a) es) as [[a2 o2]| |u|], (write_events (json_save x) (json_clear b) es) as [[b2 o2']| |u'|]; cbn [rbind] in *; congruence.
Qed.
Lemma load_reuse x F p q b : same_kind p q -> (match p with JsonP _ => False | _ => True end) -> run_block (load_tree x F p) b = run_block (load_tree x F q) b.
Proof. destruct p, q; intros H N; try contradiction; reflexivity. Qed.
