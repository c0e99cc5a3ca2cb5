(** Proofs about the cast in Registrations::create. *)
From Coq Require Import ZArith List Bool Lia ZifyBool ZifyNat.
From Verif Require Import Base Lemmas M_Types M_Conv M_Charset M_In S_Doc M_Event M_HTable M_Tree S_Tree M_TreeIO S_TreeIO M_Reg S_Reg M_Object S_Object S_ObjStore M_ObjIO S_ObjIO S_ObjSafe M_Cast S_Cast
  P_Doc P_Tree P_TreeOps P_Reg P_ObjEager P_ObjLazy P_ObjSafe P_ObjUntrusted P_ObjFit P_ObjIO P_ObjStore P_In.
Import ListNotations.
Open Scope Z_scope.

(** * The table *)
Lemma begins_spec lay c u : at_start lay c u = true <-> begins lay c u.
Proof.
  unfold at_start, begins. rewrite orb_true_iff, Nat.eqb_eq, existsb_exists. split; (intros [H|H]; [now left|right]).
  - destruct H as ([b o] & I & H). cbn [fst snd] in H. apply andb_prop in H. destruct H as [H1 H2]. apply Nat.eqb_eq in H1. apply Z.eqb_eq in H2. now subst.
  - exists (u, 0). split; [exact H|]. cbn [fst snd]. now rewrite Nat.eqb_refl.
Qed.
Lemma find_registered ops r id : registers ops r -> reg_find r (id, EUTF8) = Ok (registered ops id).
Proof.
  intros [os E]. destruct (reg_run_ok ops [] regs_new [] (@P_HTable.inv_new bytes nat id_hash 16) (fun _ => eq_refl)) as (r' & E' & H). rewrite E in E'. injection E' as _ <-. apply H.
Qed.
Lemma create_found lay ops r u id : registers ops r -> create_as lay r u (id, EUTF8) = match registered ops id with None => Ok None | Some c => if at_start lay c u then Ok (Some c) else UB UbCast end.
Proof. intros R. unfold create_as. now rewrite (find_registered ops r id R). Qed.
Lemma create_ub lay ops r u s e k : registers ops r -> wf_bytes s -> create_as lay r u (s, e) = UB k -> k = UbCast /\ exists id c, registered ops id = Some c /\ ~ begins lay c u.
Proof.
  intros R W H.
  assert (G : exists o, reg_find r (s, e) = Ok o /\ (forall c, o = Some c -> exists id, registered ops id = Some c) \/ reg_find r (s, e) = Err \/ reg_find r (s, e) = Fuel).
  { destruct (enc_eqb e EUTF8) eqn:E.
    - destruct e; try discriminate E. rewrite (find_registered ops r s R). exists (registered ops s). left. split; [reflexivity|]. intros c C. now exists s.
    - assert (NE : e <> EUTF8) by (intros ->; discriminate E). pose proof (conv_vec_ok (fun _ => False) EUTF8 e s false W) as K. destruct (conv_charset_vec EUTF8 e s false) as [c| |k'|] eqn:C; cbn [rok] in K; try contradiction.
      + destruct R as [os R]. rewrite (find_converted ops e s c NE C os r R). eexists. left. split; [reflexivity|]. intros c' D. destruct (id_hash s =? id_hash c); [now exists c|discriminate D].
      + exists None. right. left. unfold reg_find. cbn [fst snd]. rewrite E, C. reflexivity.
      + exists None. right. right. unfold reg_find. cbn [fst snd]. rewrite E, C. reflexivity. }
  unfold create_as in H. destruct G as (o & [[E G]|[E|E]]); rewrite E in H; cbn [rbind] in H; try discriminate H. destruct o as [c|]; [|discriminate H].
  destruct (at_start lay c u) eqn:A; [discriminate H|]. injection H as <-. split; [reflexivity|]. destruct (G c eq_refl) as [id I]. exists id, c. split; [exact I|]. rewrite <- begins_spec, A. discriminate.
Qed.

Lemma create_class lay ops r u s c : registers ops r -> create_as lay r u s = Ok (Some c) -> begins lay c u /\ exists id, registered ops id = Some c.
Proof.
  intros R H. destruct s as [s e]. unfold create_as in H. destruct (reg_find r (s, e)) as [o| | |] eqn:E; cbn [rbind] in H; try discriminate H. destruct o as [c'|]; [|discriminate H].
  destruct (at_start lay c' u) eqn:A; [|discriminate H]. injection H as ->. split; [now apply begins_spec|].
  destruct (enc_eqb e EUTF8) eqn:X.
  - destruct e; try discriminate X. rewrite (find_registered ops r s R) in E. injection E as E. eauto.
  - assert (NE : e <> EUTF8) by (intros ->; discriminate X). destruct (conv_charset_vec EUTF8 e s false) as [k| | |] eqn:C.
    + destruct R as [os R]. rewrite (find_converted ops e s k NE C os r R) in E. destruct (id_hash s =? id_hash k); [|discriminate E]. injection E as E. eauto.
    + unfold reg_find in E. cbn [fst snd] in E. rewrite X, C in E. discriminate E.
    + unfold reg_find in E. cbn [fst snd] in E. rewrite X, C in E. discriminate E.
    + unfold reg_find in E. cbn [fst snd] in E. rewrite X, C in E. discriminate E.
Qed.

(** * Classes that fit *)
Lemma fits_safe lay ops r w t vs u : registers ops r -> all_fit lay ops (with_regs lay r w) t -> mishap (with_regs lay r w) t vs u -> mishap_else (with_regs lay r w) t vs u.
Proof.
  intros R A [H|[H|(b & v & P & _ & W & H)]]; [now left|now right|]. cbn [w_reg with_regs] in H. destruct (create_ub lay ops r b _ _ _ R W H) as (_ & id & c & I & N). destruct N. exact (A b id c P I).
Qed.

Lemma fits_harmless lay ops r w0 t old F st src u : let w := with_regs lay r w0 in registers ops r -> all_fit lay ops w t -> well_made w t old -> harmless_else w t -> wf_bytes src ->
  run_block (restore_object (w_fp w) F w (MsgpP st) t old) (set_block src) <> UB u /\
  run_stream (restore_object (w_fp w) F w (MsgpP st) t old) (set_stream src) <> UB u.
Proof.
  intros w R A WM HM W. apply restore_no_mishap; auto. intros vs M. apply (fits_safe lay ops r w0 t vs u R A) in M.
  destruct M as [(p & v & P & _ & D)|(_ & a & b & _ & [P|P] & _)]; specialize (HM _ P); cbn in HM; try contradiction. destruct D; try contradiction HM.
  - cbn in H, HM. intuition (subst; try discriminate).
  - cbn in H, HM. intuition (subst; try discriminate).
Qed.

(** * Classes that do not *)
Lemma first_select its v : first_id its = Some v -> exists j kk, select false (IdName str_type_id) its = Some (j, DVal kk v).
Proof.
  unfold select. induction its as [|d its IH]; intros H; [discriminate H|]. cbn [first_id nth_match] in *. destruct d as [k x|k ty l]; unfold of_name at 1; cbn [is_sc doc_name Bool.eqb andb].
  - destruct (bytes_eqb k str_type_id); [injection H as ->; eauto|]. destruct (IH H) as (j & kk & ->). eauto.
  - destruct (IH H) as (j & kk & ->). eauto.
Qed.
Lemma read_id F G w u old ty its v k s rest : good G its -> (G <= F)%nat -> is_scope ty = true -> first_id its = Some v -> is_text v -> w_reg w u (v_data v, v_enc v) = UB k ->
  erun (paste_node (S F) w (CPoly u) old (mkL false (empty_node ty)) s) (flat_map events its ++ ev_end :: rest) = Some (UB k).
Proof.
  intros Gd LG Sc FI TX R. destruct (first_select its v FI) as (j & kk & M). cbn [paste_node paste_step].
  change (n_type (l_node (mkL false (empty_node ty)))) with ty. rewrite Sc. cbn [negb]. change (mkL false (empty_node ty)) with (unode ty []).
  unfold select in M. pose proof (nth_match_0 _ _ _ _ M) as (Nj & Mj & Bj). assert (Hj : (j < length its)%nat) by (apply nth_error_Some; congruence).
  pose proof Gd as [Fi Hf].
  unfold field_value. change (l_parsed (unode ty [])) with false. cbv iota. rewrite take_read_value by constructor. rewrite erun_bind, erun_bind, erun_bind.
  destruct (split_nth _ _ _ Nj) as [E1 E2].
  assert (Ev : flat_map events its ++ ev_end :: rest = flat_map events (firstn j its) ++ events (DVal kk v) ++ flat_map events (skipn (S j) its) ++ ev_end :: rest).
  { rewrite E1 at 1. rewrite flat_map_app. cbn [flat_map]. now rewrite <- !app_assoc. }
  rewrite Ev. clear Ev.
  rewrite (scan_stop false (IdName str_type_id)).
  2:{ now apply forall_firstn. }
  2:{ apply Forall_forall. intros x I. apply In_nth_error in I. destruct I as [i I]. assert (Hi : (i < j)%nat) by (rewrite <- E2; apply nth_error_Some; congruence).
      rewrite nth_firstn in I by lia. rewrite matches_name. eapply Bj; eauto. }
  2:{ rewrite Forall_forall in Fi. apply Fi. eapply nth_error_In; eauto. }
  2:{ rewrite matches_name. exact Mj. }
  2:{ pose proof (events_split j its). lia. }
  cbn [erun fst snd M_Object.need ebind head_event content app].
  replace (negb (ty_eqb (v_type v) TString) && negb (ty_eqb (v_type v) TBinary)) with false by (destruct TX as [-> | ->]; reflexivity).
  cbn [andb]. cbv iota. rewrite R. reflexivity.
Qed.
Lemma restore_confused F w u old k ty its v z : deep_enough (DScope k ty its) -> (length (events (DScope k ty its)) < F)%nat -> first_id its = Some v -> is_text v ->
  w_reg w u (v_data v, v_enc v) = UB z -> erun (restore_prog F w (CPoly u) old) (events (DScope k ty its)) = Some (UB z).
Proof.
  intros De L FI TX R. pose proof (good_doc _ _ _ De) as Gd. destruct De as (Sh & _ & _). apply shaped_scope in Sh. destruct Sh as [T _]. destruct F as [|F]; [lia|].
  unfold restore_prog. cbn [events erun]. change (v_type (val_type ty)) with ty. rewrite T. cbn [negb]. change (scoped (CPoly u)) with true. cbv iota. rewrite erun_bind.
  rewrite (read_id F _ w u old ty its v z rs_new [] Gd ltac:(lia) T FI TX R). reflexivity.
Qed.
Lemma ecomp_part_ub {St R} (rd : St -> prog (St * event)) : forall n (p : eprog R) st b st' es b' u,
  run_block (read_events rd n st) b = Ok ((st', es), b') -> erun p es = Some (UB u) -> run_block (ecomp rd p st) b = UB u.
Proof.
  induction n as [|n IH]; intros p st b st' es b' u E Hp; cbn [read_events] in E.
  - cbn [run_block] in E. injection E as <- <- <-. destruct p; cbn [erun] in Hp; try discriminate. now injection Hp as ->.
  - rewrite run_block_bind in E. destruct (run_block (rd st) b) as [[[st1 e] b1]| | |] eqn:E1; try discriminate E. cbn [rbind] in E.
    rewrite run_block_bind in E. destruct (run_block (read_events rd n st1) b1) as [[[st2 es2] b2]| | |] eqn:E2; try discriminate E.
    cbn [rbind run_block] in E. injection E as <- <- <-. destruct p as [r0| |u0| |k]; cbn [erun] in Hp; try discriminate.
    + now injection Hp as ->.
    + cbn [ecomp]. rewrite run_block_bind, E1. cbn [rbind]. eapply IH; eauto.
Qed.
Lemma holds_run_ub {R} x F q b d (pr : eprog R) u : holds x F q b d -> erun pr (events d) = Some (UB u) -> run_block (with_parser x F q pr) b = UB u.
Proof.
  intros (q1 & b1 & H) E.
  assert (G : forall {St} (rd : St -> prog (St * event)) (mk : St -> parser) st,
     run_block (let! (st', es) := read_events rd (length (events d)) st in Ret (mk st', es)) b = Ok ((q1, events d), b1) ->
     run_block (let! (st', r) := ecomp rd pr st in Ret (mk st', r)) b = UB u).
  { intros St rd mk st H1. rewrite run_block_bind in *. destruct (run_block (read_events rd (length (events d)) st) b) as [[[st' es] b']| | |] eqn:H2; try discriminate.
    cbn [rbind run_block] in H1. injection H1 as _ -> _. now rewrite (ecomp_part_ub rd _ _ _ _ _ _ _ _ H2 E). }
  unfold parse_items in H. unfold with_parser. destruct (parser_clear q); now apply G.
Qed.
Theorem confused lay ops r w u old k ty its v c : registers ops r -> deep_enough (DScope k ty its) -> first_id its = Some v -> is_text v -> v_enc v = EUTF8 ->
  registered ops (v_data v) = Some c -> ~ begins lay c u -> forall q F b, (length (events (DScope k ty its)) < F)%nat -> holds (w_fp w) F q b (DScope k ty its) ->
  run_block (restore_object (w_fp w) F (with_regs lay r w) q (CPoly u) old) b = UB UbCast.
Proof.
  intros R De FI TX EN RG NB q F b L H. unfold restore_object. eapply holds_run_ub; [exact H|]. apply (restore_confused F _ u old k ty its v UbCast De L FI TX).
  cbn [w_reg with_regs]. rewrite EN, (create_found lay ops r u _ R), RG. rewrite <- begins_spec in NB. now destruct (at_start lay c u).
Qed.

(** * Objects stored through the same pointer *)
Lemma emit_any_static F w hp u c v name tab : emit F w hp (CPoly u) v name tab = emit F w hp (CPoly c) v name tab.
Proof. destruct F; reflexivity. Qed.
Lemma said_id F w c old k ty its s c' vs s' z : said F w true (CPoly c) old (DScope k ty its) s = Ok (VPoly c' vs, s', z) ->
  exists v, first_id its = Some v /\ is_text v /\ w_reg w c (v_data v, v_enc v) = Ok (Some c').
Proof.
  intros H. destruct F as [|F]; [discriminate H|]. cbn [said dstep] in H. destruct (is_scope ty); [|discriminate H]. cbn [negb] in H.
  destruct (select false (IdName str_type_id) its) as [[j [kk v|]]|] eqn:M; try discriminate H. exists v. split.
  - clear - M. unfold select in M. revert j M. induction its as [|d its IH]; intros j M; [discriminate M|]. cbn [nth_match first_id] in *. destruct d as [k' x|k' ty' l]; unfold of_name in M at 1; cbn [is_sc doc_name Bool.eqb andb] in M.
    + destruct (bytes_eqb k' str_type_id); [injection M as _ _ <-; reflexivity|]. destruct (nth_match (of_name false str_type_id) 0 its) as [[j' e]|] eqn:N; [|discriminate M]. injection M as _ ->. eapply IH. reflexivity.
    + destruct (nth_match (of_name false str_type_id) 0 its) as [[j' e]|] eqn:N; [|discriminate M]. injection M as _ ->. eapply IH. reflexivity.
  - destruct (negb (ty_eqb (v_type v) TString) && negb (ty_eqb (v_type v) TBinary)) eqn:T; [discriminate H|]. split.
    + unfold is_text. destruct (v_type v); auto; discriminate T.
    + destruct (w_reg w c (v_data v, v_enc v)) as [[c''|]| | |]; cbn [rbind] in H; try discriminate H. destruct (w_new w (CCls c'')); try discriminate H.
      destruct (dfields _ _ _ _ _ _ _ _ _) as [[[? ?] ?]| | |]; cbn [rbind] in H; try discriminate H. injection H as <- _ _ _. reflexivity.
Qed.
Theorem own_confused lay ops r w0 p hp lev n u c vs name : let w := with_regs lay r w0 in registers ops r -> regular w -> constructs w ->
  S_ObjStore.heap_ok w hp lev (carried (w_fp w) p) -> storable w hp lev (carried (w_fp w) p) n (CPoly c) (VPoly c vs) -> name_fits p name -> names_fit w p hp (VPoly c vs) ->
  ~ begins lay c u ->
  exists d tab size, (forall F, (size <= F)%nat -> stored_doc F w hp (CPoly u) (VPoly c vs) name [] = Ok (d, tab)) /\
  (size_fits p d -> exists bs size', stores_as w hp p name (CPoly u) (VPoly c vs) bs /\
    forall q F before rest old, same_format p q -> (size' <= F)%nat -> run_block (restore_object (w_fp w) F w q (CPoly u) old) (mkBlk before (bs ++ rest)) = UB UbCast).
Proof.
  intros w R RG NW HP ST N NF NB. destruct (object_kept w p hp lev n (CPoly c) (VPoly c vs) name VNone RG NW HP ST ltac:(now apply sh_any) N NF) as (d & tab & size & A & B).
  exists d, tab, size. split.
  - intros F L. rewrite <- (A F L). unfold stored_doc. cbn [null_root scoped]. now rewrite (emit_any_static F w hp u c).
  - intros Z. destruct (B Z) as (bs & c0 & s & rr & B1 & _ & _ & B2 & _ & dn & size' & D1 & D2 & D3).
    inversion B2 as [| | | |? ? cs _| | | |]; subst c0. destruct dn as [|k ty its]; [destruct D1 as (_ & D1 & _); discriminate D1|].
    unfold says in D2. change (scoped (CPoly c)) with true in D2. cbv iota in D2. destruct (said size' w true (CPoly c) VNone (DScope k ty its) rs_new) as [[[v1 s1] u1]| | |] eqn:SD; cbn [rbind] in D2; try discriminate D2.
    injection D2 as -> ->. destruct (said_id _ _ _ _ _ _ _ _ _ _ _ _ SD) as (v & FI & TX & RC).
    assert (UBC : w_reg w u (v_data v, v_enc v) = UB UbCast).
    { cbn [w_reg with_regs w] in RC |- *. unfold create_as in RC |- *. destruct (reg_find r (v_data v, v_enc v)) as [[c'|]| | |]; cbn [rbind] in RC |- *; try discriminate RC.
      destruct (at_start lay c' c); [|discriminate RC]. injection RC as ->. rewrite <- begins_spec in NB. now destruct (at_start lay c u). }
    exists bs, (size' + length (events (DScope k ty its)) + 1)%nat. split.
    + destruct B1 as (sz & p' & B1). exists sz, p'. intros F m L1 L2. destruct (B1 F m L1 L2) as [h Hh]. exists h. rewrite <- Hh. unfold store_object, stored_doc. cbn [null_root scoped].
      rewrite (emit_any_static F w hp u c). reflexivity.
    + intros q F before rest old SF L. unfold restore_object. eapply holds_run_ub; [apply (D3 q F before rest SF); lia|]. apply (restore_confused F w u old k ty its v UbCast D1); auto. lia.
Qed.
