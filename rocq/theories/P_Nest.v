(** Proofs for property C94. *)
From Coq Require Import ZArith List Bool Arith Lia ZifyBool ZifyNat.
From Verif Require Import Base Lemmas M_Types M_Conv M_In S_Doc M_OutOps S_Out S_OutJobs M_Event M_PSrl M_MsgPack M_Json S_MsgPack S_Json M_Heap M_Out P_Heap P_Out M_Tree S_Tree P_Tree P_Doc M_TreeIO S_TreeIO P_TreeIO M_Object S_Object S_ObjStore M_ObjIO S_ObjIO P_ObjEager P_ObjLazy P_ObjIO P_ObjFit S_Nest.
Import ListNotations.
Open Scope Z_scope.

Lemma height_nest n : height (nest n) = S n.
Proof. induction n as [|n IH]; [reflexivity|]. cbn [nest height]. now rewrite IH. Qed.

(** what is written *)
Fixpoint tower (k : bytes) (n : nat) (name : bytes) : doc :=
  match n with O => DScope name TObject [DScope k TArray []] | S m => DScope name TObject [DScope k TArray [tower k m []]] end.
Definition content_of (k : bytes) (n : nat) : list doc := match n with O => [] | S m => [tower k m []] end.
Lemma tower_eq k n name : tower k n name = DScope name TObject [DScope k TArray (content_of k n)].
Proof. now destruct n. Qed.
Lemma tower_depth k : forall n name, depth (tower k n name) = (2 * n + 2)%nat.
Proof. induction n as [|n IH]; intros name; [reflexivity|]. cbn [tower]. rewrite depth_scope. unfold deepest. cbn [fold_right]. rewrite depth_scope. unfold deepest. cbn [fold_right]. rewrite IH. lia. Qed.
Lemma tower_norm nv k : forall n nm name, doc_norm nv nm (tower k n name) = tower k n (if nm then name else []).
Proof.
  induction n as [|n IH]; intros nm name; [reflexivity|]. cbn [tower]. specialize (IH false []). cbn in IH.
  cbn [doc_norm map]. change (ty_eqb TObject TObject) with true. change (ty_eqb TArray TObject) with false. cbv iota. rewrite IH. reflexivity.
Qed.

Lemma tower_events k n name es : events (tower k n name) ++ es = (name, val_type TObject) :: events (DScope k TArray (content_of k n)) ++ ev_end :: es.
Proof. rewrite tower_eq. cbn [events flat_map]. rewrite app_nil_r. cbn [app]. now rewrite <- !app_assoc. Qed.

Section Run.
Variables (w : world) (c : nat) (k : bytes).
Hypothesis NC : nesting_class w c k.
Hypothesis NK : 0 < zlen k.

(** the next scope *)
Lemma next_scope {R} F id t k' ty es (kk : option (bytes * lnode) * lnode -> eprog R) : (0 < F)%nat -> is_scope ty = true -> id_matches id k' = true ->
  erun (ebind (consume_node F id (unode t [])) kk) ((k', val_type ty) :: es) = erun (kk (Some (k', unode ty []), unode t [])) es.
Proof.
  intros L T M. rewrite (take_read_node F id t [] (Forall_nil _)). rewrite erun_bind, erun_bind. destruct F as [|F]; [lia|]. cbn [scan unode l_parsed erun]. change (v_type (val_type ty)) with ty.
  rewrite (scope_not_end ty T), T, M. cbn [Bool.eqb andb erun]. reflexivity.
Qed.
Lemma no_scope {R} F id t es (kk : option (bytes * lnode) * lnode -> eprog R) : (0 < F)%nat ->
  erun (ebind (consume_node F id (unode t [])) kk) (ev_end :: es) = erun (kk (None, pnode t [])) es.
Proof.
  intros L. rewrite (take_read_node F id t [] (Forall_nil _)). rewrite erun_bind, erun_bind. destruct F as [|F]; [lia|]. reflexivity.
Qed.
Lemma leave_run {R} F t es (kk : unit -> eprog R) : erun (ebind (consume_scope (S F) (unode t [])) kk) (ev_end :: es) = erun (kk tt) es.
Proof. reflexivity. Qed.
(** the elements of the vector *)
Lemma kids_run F n : (2 <= F)%nat -> (forall s es o m, n = S m -> erun (paste_node F w (CCls c) (VList [o]) (unode TObject []) s) (events (DScope k TArray (content_of k m)) ++ es) = Some (Ok ((nest m, unode TObject [], s), es))) ->
  forall s es o, erun (paste_node (S F) w (CSeq (CCls c)) o (unode TArray []) s) (flat_map events (content_of k n) ++ ev_end :: es) =
    Some (Ok ((match n with O => VList [] | S m => VList [nest m] end, pnode TArray [], s), es)).
Proof.
  destruct NC as [CL (o1 & NW)]. intros L IH s es o. cbn [paste_node]. unfold paste_step. cbv zeta. change (n_type (l_node (unode TArray []))) with TArray. change (negb (is_scope TArray)) with false. cbv iota.
  unfold each_item. change (l_parsed (unode TArray [])) with false. change (scoped (CCls c)) with true. cbv iota. destruct F as [|[|F]]; [lia|lia|]. rewrite erun_bind.
  destruct n as [|m].
  - cbn [content_of flat_map app each_node_read]. rewrite no_scope by lia. reflexivity.
  - cbn [content_of flat_map app]. rewrite app_nil_r, tower_events. cbn [each_node_read]. rewrite next_scope by (reflexivity || lia). cbn [fst snd].
    change (l_parsed (unode TArray [])) with false. cbv iota. unfold elem_node at 1. rewrite NW. cbn [snd]. rewrite erun_bind, erun_bind. rewrite IH by reflexivity. cbn [erun].
    rewrite leave_run. rewrite no_scope by lia. reflexivity.
Qed.
(** reading the one member of an object; the end of the object is left *)
Lemma nest_run : forall n F o s es, (2 * n + 4 <= F)%nat ->
  erun (paste_node F w (CCls c) (VList [o]) (unode TObject []) s) (events (DScope k TArray (content_of k n)) ++ es) = Some (Ok ((nest n, unode TObject [], s), es)).
Proof.
  destruct NC as [CL (o1 & NW)].
  induction n as [|n IH]; intros F o s es L.
  all: destruct F as [|[|F]]; [lia|lia|].
  all: cbn [paste_node]; unfold paste_step at 1; cbv zeta; change (n_type (l_node (unode TObject []))) with TObject; change (negb (is_scope TObject)) with false; cbv iota.
  all: rewrite CL; cbn [paste_fields f_type f_opt f_name]; change (scoped (CSeq (CCls c))) with true; cbv iota; cbn [ebind fst snd negb]; replace (0 <? zlen k) with true by lia; unfold paste_field at 1.
  all: change (scoped (CSeq (CCls c))) with true; cbv iota; unfold field_node; change (l_parsed (unode TObject [])) with false; cbv iota.
  all: cbn [events app]; do 3 rewrite erun_bind; rewrite next_scope; [|lia|reflexivity|cbn [id_matches]; apply bytes_eqb_refl].
  all: cbn [fst snd need ebind erun].
  all: rewrite <- app_assoc; cbn [app]; rewrite erun_bind.
  - change (paste_step w (paste_node F w) F) with (paste_node (S F) w). rewrite (kids_run F 0) by (lia || discriminate). reflexivity.
  - change (paste_step w (paste_node F w) F) with (paste_node (S F) w). rewrite (kids_run F (S n)).
    + reflexivity.
    + lia.
    + intros s0 es0 o0 m E. injection E as <-. apply IH. lia.
Qed.
Lemma tower_restored n F o name : (2 * n + 4 <= F)%nat -> exists tail, erun (restore_prog F w (CCls c) (VList [o])) (events (tower k n name)) = Some (Ok ((nest n, rs_new), tail)).
Proof.
  intros L. rewrite <- (app_nil_r (events _)), tower_events. unfold restore_prog. cbn [erun]. change (v_type (val_type TObject)) with TObject. change (negb (is_scope TObject)) with false.
  change (scoped (CCls c)) with true. cbv iota. rewrite erun_bind. change (mkL false (empty_node TObject)) with (unode TObject []). rewrite nest_run by exact L. cbn [erun fst snd]. eauto.
Qed.
(** what is written *)
Lemma nest_emit hp : forall n F name tab, (2 * n + 2 <= F)%nat -> emit F w hp (CCls c) (nest n) name tab = Ok (tower k n name, tab).
Proof.
  destruct NC as [CL _]. induction n as [|n IH]; intros F name tab L; (destruct F as [|[|F]]; [lia|lia|]).
  - cbn [emit nest]. rewrite CL. reflexivity.
  - cbn [nest tower]. cbn [emit]. rewrite CL. cbn [length Nat.eqb combine emits fst snd f_type f_name]. cbn [emit emits]. rewrite IH by lia. reflexivity.
Qed.
End Run.

(** * In every format *)
Lemma tower_utf8 k : forall n name, utf8_doc (tower k n name) (tower k n name).
Proof. induction n as [|n IH]; intros name; cbn [tower]; repeat constructor. apply IH. Qed.
Lemma tower_len k : forall n name, length (events (tower k n name)) = (4 * n + 4)%nat.
Proof. induction n as [|n IH]; intros name; [reflexivity|]. cbn [tower events flat_map]. rewrite !app_nil_r. cbn [length]. rewrite !app_length. cbn [length]. rewrite !app_length, IH. cbn [length]. lia. Qed.
Lemma tower_carried x p k name n : name_fits p name -> name_fits p k -> Z.of_nat n < 2 ^ 60 -> carries x p (tower k n name).
Proof.
  intros [N1 N2] [K1 K2] NB.
  assert (E : wf_name []) by (split; [constructor|unfold zlen; cbn [length]; lia]).
  assert (W : forall n name, wf_name name -> wf_doc (tower k n name)).
  { clear - K1 E. induction n as [|n IH]; intros name N; cbn [tower wf_doc]; auto 10. }
  split; [now apply W|]. split; [destruct n; exact I|]. destruct p as [st|st|st].
  - split; [clear; revert name; induction n as [|n IH]; intros name; cbn [tower all_vals]; auto|]. rewrite tower_len. lia.
  - clear. revert name. induction n as [|n IH]; intros name; cbn [tower small_scopes]; unfold zlen; cbn [length]; repeat split; auto; lia.
  - specialize (K2 eq_refl). split; [clear; revert name; induction n as [|n IH]; intros name; cbn [tower all_vals]; auto|].
    clear - K2. revert name. induction n as [|n IH]; intros name; cbn [tower json_names]; change (ty_eqb TObject TObject) with true; change (ty_eqb TArray TObject) with false.
    + split; [intros X; discriminate X|]. auto.
    + split; [intros X; discriminate X|]. specialize (IH []). auto.
Qed.
Theorem nest_kept w c k p name n o : nesting_class w c k -> 0 < zlen k -> name_fits p name -> name_fits p k -> Z.of_nat n < 2 ^ 60 ->
  exists bs, stores_as w [] p name (CCls c) (nest n) bs /\ restores_as w p bs (CCls c) (VList [o]) (nest n) rs_new /\
    (if (n <=? 63)%nat then exists k' nd, loads_as (w_fp w) p bs k' nd else rejected (w_fp w) p bs).
Proof.
  intros NC NK NN NF NB. pose proof (tower_carried (w_fp w) p k name n NN NF NB) as C. pose proof (tower_utf8 k n name) as U.
  destruct (delivers _ p _ _ C U) as (p' & ops & WR & VO & RD). destruct (written _ p _ _ C U) as (p2 & ops2 & WR2 & _ & R2). rewrite WR in WR2. injection WR2 as <- <-.
  exists (spec_out ops). split; [|split].
  - exists (2 * n + 2)%nat, p'. intros F m L LB. destruct (run_jobs_spec [ToMemory ops] (heap_init m) (heap_ok_init m)) as (h & J & _); [constructor; [|constructor]; now split|].
    exists h. unfold store_object, stored_doc. cbn [null_root]. change (scoped (CCls c)) with true. cbv iota. rewrite (nest_emit w c k NC) by exact L. cbn [rbind].
    rewrite (write_all_same _ _ _ _ (stored_same _)), WR. cbn [rbind]. cbn [run_jobs run_job map job_result] in J.
    destruct (save_buffer (heap_init m) ops) as [[bs h1]| | |]; cbn [rbind] in *; try discriminate J. injection J as -> ->. reflexivity.
  - exists (length (spec_out ops) + length (events (tower k n name)) + 2 * n + 9)%nat. intros q F before rest SF L.
    destruct (tower_restored w c k NC NK n F o (if false then name else []) ltac:(lia)) as [tail ER]. rewrite <- (tower_norm (norm_of p) k n false name) in ER.
    unfold restore_object. eapply RD; [exact SF|lia|exact ER].
  - rewrite tower_depth in R2. destruct (n <=? 63)%nat eqn:E.
    + do 2 eexists. eexists. intros q F before rest SF L. destruct (R2 q SF F before rest L) as (q' & Q). exists q'. rewrite Q. replace (Nat.leb (2 * n + 2) 129) with true by lia. reflexivity.
    + eexists. intros q F before rest SF L. destruct (R2 q SF F before rest L) as (q' & Q). rewrite Q. replace (Nat.leb (2 * n + 2) 129) with false by lia. reflexivity.
Qed.
