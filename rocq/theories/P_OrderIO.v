(** What is stored comes in the order in which it is restored.  Proofs for property C94. *)
From Coq Require Import ZArith List Bool Arith Lia ZifyBool ZifyNat.
From Verif Require Import Base Lemmas M_Types M_Conv M_TpTools M_Charset M_In S_Conv S_Charset S_Doc P_Text M_OutOps S_Out S_OutJobs M_Event M_PSrl M_MsgPack M_Json S_MsgPack S_Json M_Heap M_Out P_Heap P_Out M_Env M_Tree S_Tree P_Doc P_Tree P_TreeOps M_TreeIO S_TreeIO P_TreeIO M_Object S_Object S_ObjStore M_ObjIO S_ObjIO P_ObjEager P_ObjLazy P_ObjStore P_ObjIO P_ObjFit S_Nest P_Order.
Import ListNotations.
Open Scope Z_scope.

Section Emitted.
Variables (w : world) (hp : heap_t) (lev : nat -> nat) (leaf : ct -> cv -> Prop) (V : value -> value -> Prop).
Hypothesis HEAP : S_ObjStore.heap_ok w hp lev leaf.
Hypothesis SOLID : forall t v sv, leaf t v -> leaf_value t v = Some sv -> v_type sv <> TNull.
Hypothesis TEXT : forall s v', leaf (CStr EUTF8) (VStr s) -> V (val_string s EUTF8) v' -> v_type v' = TString /\ v_data v' = s /\ v_enc v' = EUTF8.
Notation ok := (storable w hp lev leaf).

Lemma emits_each {A} (g : A -> shared_tab -> res (doc * shared_tab)) nm (P : A -> doc -> Prop) : forall l, (forall a tab d tab' d', In a l -> g a tab = Ok (d, tab') -> like V nm d d' -> P a d') ->
  forall tab its tab' its', emits g l tab = Ok (its, tab') -> Forall2 (like V nm) its its' -> Forall2 P l its'.
Proof.
  induction l as [|a l IH]; intros H tab its tab' its' E L; cbn [emits] in E.
  - injection E as <- <-. inversion L. constructor.
  - apply bind_ok in E. destruct E as ([d t1] & E1 & E). apply bind_ok in E. destruct E as ([ds t2] & E2 & E). injection E as <- <-. inversion L as [|? d' ? ds' L1 L2]; subst.
    constructor; [eapply H; eauto; now left|]. eapply IH; eauto. intros. eapply H; eauto. now right.
Qed.
Lemma combine_left {A B C} (Q : A -> C -> Prop) : forall (l : list A) (m : list B) its, length m = length l -> Forall2 (fun p => Q (fst p)) (combine l m) its -> Forall2 Q l its.
Proof.
  induction l as [|a l IH]; intros [|b m] its L H; try discriminate L; cbn [combine] in H; inversion H; subst; constructor; auto. eapply IH; eauto.
Qed.
Lemma combine_ok {A B} (R : A -> B -> Prop) : forall l m, Forall2 R l m -> forall p, In p (combine l m) -> R (fst p) (snd p).
Proof. induction 1; intros p I; cbn [combine] in I; [destruct I|]. destruct I as [<-|I]; auto. Qed.
Lemma Forall2_right {A B} (P : B -> Prop) : forall (l : list A) (m : list B), Forall2 (fun _ => P) l m -> Forall P m.
Proof. induction 1; constructor; auto. Qed.

Lemma Forall2_len {A B} (R : A -> B -> Prop) l m : Forall2 R l m -> length m = length l.
Proof. induction 1; cbn [length]; congruence. Qed.

Definition fine_child (F' : nat) (t : ct) (d : doc) : Prop := ochild (ordered F' w) t d.
Lemma child_intro F' t d : is_sc d = scoped t -> (scoped t = true -> ordered F' w t d) -> fine_child F' t d.
Proof. unfold fine_child. destruct d; cbn [is_sc ochild]; intros K H; [now symmetry|]. split; [now symmetry|]. apply H. now symmetry. Qed.

Lemma emit_ordered : forall F n t v nm name tab d tab' d', emit F w hp t v name tab = Ok (d, tab') -> ok n t v -> like V nm d d' -> forall F', fine_child F' t d'.
Proof.
  induction F as [|f IH]; intros n t v nm name tab d tab' d' H O L F'; [discriminate H|].
  apply child_intro; [exact (emit_kind w hp lev leaf V SOLID _ _ _ _ _ _ _ _ _ _ H O L)|]. intros Sc. destruct F' as [|F']; [exact I|]. cbn [ordered].
  assert (FLD : forall fs vs tab its tab' its', length vs = length fs -> Forall2 (fun f v => ok n (f_type f) v) fs vs ->
     emits (fun fv => emit f w hp (f_type (fst fv)) (snd fv) (f_name (fst fv))) (combine fs vs) tab = Ok (its, tab') -> Forall2 (like V true) its its' -> Forall2 (omember (ordered F' w)) fs its').
  { intros fs vs tab0 its tab1 its' LN FO E LK. apply (combine_left _ fs vs _ LN). apply (emits_each _ true (fun p => omember (ordered F' w) (fst p)) _) with (2 := E) (3 := LK).
    intros a tb dd tb' dd' IA EA LA. split; [now rewrite (like_name _ _ _ LA), (emit_name w hp lev leaf SOLID _ _ _ _ _ _ _ EA)|]. exact (IH n _ _ _ _ _ _ _ _ EA (combine_ok (fun f v => ok n (f_type f) v) _ _ FO a IA) LA F'). }
  assert (ALL : forall e vs tab its tab' its' nm, Forall (ok n e) vs -> emits (fun x => emit f w hp e x []) vs tab = Ok (its, tab') -> Forall2 (like V nm) its its' -> Forall (fine_child F' e) its').
  { intros e vs tab0 its tab1 its' nm0 FO E LK. eapply Forall2_right. apply (emits_each _ nm0 (fun _ => fine_child F' e) vs) with (2 := E) (3 := LK). intros a tb dd tb' dd' IA EA LA.
    eapply IH; eauto. rewrite Forall_forall in FO. auto. }
  inversion O; subst; cbn [emit] in H; cbn [ostep]; clear O.
  - (* no parts *) congruence.
  - (* class *) pose proof (Forall2_len _ _ _ H0) as LN. rewrite LN, Nat.eqb_refl in H. apply bind_ok in H. destruct H as ([its t1] & E & H). injection H as <- <-. inversion L; subst. cbn [items]. eapply FLD; eauto.
  - (* tuple *) pose proof (Forall2_len _ _ _ H0) as LN. rewrite LN, Nat.eqb_refl in H. apply bind_ok in H. destruct H as ([its t1] & E & H). injection H as <- <-. inversion L; subst. cbn [items].
    apply (combine_left _ (w_cls w c) vs _ LN). refine (emits_each _ _ (fun p => fine_child F' (f_type (fst p))) _ _ _ _ _ _ E H6). intros a tb dd tb' dd' IA EA LA.
    exact (IH n _ _ _ _ _ _ _ _ EA (combine_ok (fun f v => ok n (f_type f) v) _ _ H0 a IA) LA F').
  - apply bind_ok in H. destruct H as ([its t1] & E & H). injection H as <- <-. inversion L; subst. cbn [items]. eapply ALL; eauto.
  - apply bind_ok in H. destruct H as ([its t1] & E & H). injection H as <- <-. inversion L; subst. cbn [items]. eapply ALL; eauto.
  - rewrite Nat.eqb_refl in H. apply bind_ok in H. destruct H as ([its t1] & E & H). injection H as <- <-. inversion L; subst. cbn [items]. eapply ALL; eauto.
  - (* map *) apply bind_ok in H. destruct H as ([its t1] & E & H). injection H as <- <-. inversion L as [|? ? ? ? ? its' ? LK]; subst. cbn [items].
    eapply Forall2_right. refine (emits_each _ _ (fun _ x => is_sc x = true /\ exists d1 d2, items x = [d1; d2] /\ onamed (ordered F' w) k str_key d1 /\ onamed (ordered F' w) e str_value d2) l _ _ _ _ _ E LK).
    intros [a b] tb dd tb' dd' IA EA LA. cbn [fst snd] in EA. apply bind_ok in EA. destruct EA as ([d1 s1] & E1 & EA). apply bind_ok in EA. destruct EA as ([d2 s2] & E2 & EA). injection EA as <- <-.
    inversion LA as [|? ? ? ? ? sub' ? LS]; subst. inversion LS as [|? d1' ? r1 L1 R1]; subst. inversion R1 as [|? d2' ? r2 L2 R2]; subst. inversion R2; subst. split; [reflexivity|]. exists d1', d2'. split; [reflexivity|].
    match goal with HK : Forall (ok n k) _, HE : Forall (ok n e) _ |- _ => rewrite Forall_forall in HK, HE; pose proof (HK a (in_map fst _ _ IA)) as OA; pose proof (HE b (in_map snd _ _ IA)) as OB end.
    split; (split; [|]).
    + now rewrite (like_name _ _ _ L1), (emit_name w hp lev leaf SOLID _ _ _ _ _ _ _ E1).
    + exact (IH _ _ _ _ _ _ _ _ _ E1 OA L1 F').
    + now rewrite (like_name _ _ _ L2), (emit_name w hp lev leaf SOLID _ _ _ _ _ _ _ E2).
    + exact (IH _ _ _ _ _ _ _ _ _ E2 OB L2 F').
  - (* table *) apply bind_ok in H. destruct H as ([its t1] & E & H). injection H as <- <-. inversion L as [|? ? ? ? ? its' ? LK]; subst. cbn [items].
    eapply Forall2_right. refine (emits_each _ _ (fun _ => fine_child F' e) l _ _ _ _ _ E LK). intros [a b] tb dd tb' dd' IA EA LA. cbn [fst snd] in EA.
    match goal with HE : Forall (ok n e) _ |- _ => rewrite Forall_forall in HE; pose proof (HE b (in_map snd _ _ IA)) as OB end. exact (IH _ _ _ _ _ _ _ _ _ EA OB LA F').
  - (* pair *) apply bind_ok in H. destruct H as ([d1 s1] & E1 & H). apply bind_ok in H. destruct H as ([d2 s2] & E2 & H). injection H as <- <-.
    inversion L as [|? ? ? ? ? sub' ? LS]; subst. inversion LS as [|? d1' ? r1 L1 R1]; subst. inversion R1 as [|? d2' ? r2 L2 R2]; subst. inversion R2; subst. exists d1', d2'. split; [reflexivity|].
    match goal with OA : ok n a x, OB : ok n b y |- _ => split; (split; [|]); [now rewrite (like_name _ _ _ L1), (emit_name w hp lev leaf SOLID _ _ _ _ _ _ _ E1)|exact (IH _ _ _ _ _ _ _ _ _ E1 OA L1 F')
      |now rewrite (like_name _ _ _ L2), (emit_name w hp lev leaf SOLID _ _ _ _ _ _ _ E2)|exact (IH _ _ _ _ _ _ _ _ _ E2 OB L2 F')] end.
  - (* pointers *) match goal with OX : ok n e x |- _ => pose proof (IH _ _ _ _ _ _ _ _ _ H OX L F') as C; pose proof (emit_kind w hp lev leaf V SOLID _ _ _ _ _ _ _ _ _ _ H OX L) as K end.
    change (scoped (CPtr e)) with (scoped e) in Sc. rewrite Sc in K. unfold fine_child in C. destruct d'; [discriminate K|]. apply C.
  - match goal with OX : ok n e x |- _ => pose proof (IH _ _ _ _ _ _ _ _ _ H OX L F') as C; pose proof (emit_kind w hp lev leaf V SOLID _ _ _ _ _ _ _ _ _ _ H OX L) as K end.
    change (scoped (CUniq e)) with (scoped e) in Sc. rewrite Sc in K. unfold fine_child in C. destruct d'; [discriminate K|]. apply C.
  - change (scoped (CPtr e)) with (scoped e) in Sc. congruence.
  - match goal with EH0 : nth_error hp a = Some (e, x) |- _ => rename EH0 into EH end. apply nth_error_In in EH as IN_; rewrite EH in H; destruct (insert_shared a tab) as [[ex key] tab1]; destruct ex.
    + injection H as <- <-. inversion L as [|? ? ? ? ? its' ? LK]; subst. inversion LK as [|? k1 ? r1 K1 K2]; subst. inversion K2; subst. inversion K1 as [? ? ? ? kv NK _|]; subst. rewrite (NK eq_refl). cbn [items]. eauto.
    + apply bind_ok in H. destruct H as ([d2 t2] & E & H). injection H as <- <-. inversion L as [|? ? ? ? ? its' ? LK]; subst. inversion LK as [|? k1 ? r1 K1 K2]; subst. inversion K2 as [|? d2' ? r2 L2 R2]; subst. inversion R2; subst.
      inversion K1 as [? ? ? ? kv NK _|]; subst. rewrite (NK eq_refl). cbn [items]. exists kv, [d2']. split; [reflexivity|]. right. exists d2'. split; [reflexivity|].
      split; [now rewrite (like_name _ _ _ L2), (emit_name w hp lev leaf SOLID _ _ _ _ _ _ _ E)|]. exact (IH _ _ _ _ _ _ _ _ _ E (proj1 HEAP _ _ _ EH) L2 F').
  - match goal with EH0 : nth_error hp a = Some (e, x) |- _ => rename EH0 into EH end. apply nth_error_In in EH as IN_; rewrite EH in H; destruct (insert_shared a tab) as [[ex key] tab1]; destruct ex.
    + injection H as <- <-. inversion L as [|? ? ? ? ? its' ? LK]; subst. inversion LK as [|? k1 ? r1 K1 K2]; subst. inversion K2; subst. inversion K1 as [? ? ? ? kv NK _|]; subst. rewrite (NK eq_refl). cbn [items]. eauto.
    + apply bind_ok in H. destruct H as ([d2 t2] & E & H). injection H as <- <-. inversion L as [|? ? ? ? ? its' ? LK]; subst. inversion LK as [|? k1 ? r1 K1 K2]; subst. inversion K2 as [|? d2' ? r2 L2 R2]; subst. inversion R2; subst.
      inversion K1 as [? ? ? ? kv NK _|]; subst. rewrite (NK eq_refl). cbn [items]. exists kv, [d2']. split; [reflexivity|]. right. exists d2'. split; [reflexivity|].
      split; [now rewrite (like_name _ _ _ L2), (emit_name w hp lev leaf SOLID _ _ _ _ _ _ _ E)|]. exact (IH _ _ _ _ _ _ _ _ _ E (proj1 HEAP _ _ _ EH) L2 F').
  - (* derived class *) match goal with FO0 : Forall2 _ (w_cls w c) vs, RG0 : w_reg w u _ = _, LF0 : leaf _ _ |- _ => rename FO0 into FO; rename RG0 into RG; rename LF0 into LF end.
    pose proof (Forall2_len _ _ _ FO) as LN. rewrite LN, Nat.eqb_refl in H. apply bind_ok in H. destruct H as ([its t1] & E & H). injection H as <- <-.
    inversion L as [|? ? ? ? ? sub' ? LS]; subst. inversion LS as [|? k1 ? r1 K1 K2]; subst. inversion K1 as [? ? ? ? kv NK VK|]; subst. rewrite (NK eq_refl). cbn [items]. exists kv, r1. split; [reflexivity|].
    destruct (TEXT _ _ LF VK) as (_ & -> & ->). rewrite RG. intros c' EC. injection EC as <-. eapply FLD; eauto.
Qed.
End Emitted.

Lemma like_scope_one V nm k t d d' : like V nm (DScope k t [d]) d' -> exists k' e, d' = DScope k' t [e] /\ like V (ty_eqb t TObject) d e.
Proof. intros L. inversion L as [|? ? k' ? ? its' _ LK]; subst. inversion LK as [|? e ? r L1 L2]; subst. inversion L2; subst. eauto. Qed.

Theorem any_depth w p hp lev n t v name old : regular w -> constructs w -> simple_options w -> S_ObjStore.heap_ok w hp lev (carried (w_fp w) p) -> storable w hp lev (carried (w_fp w) p) n t v -> shape w t old ->
  name_fits p name -> names_fit w p hp v ->
  exists d tab size, (forall F, (size <= F)%nat -> stored_doc F w hp t v name [] = Ok (d, tab)) /\
  (counts_fit p d -> exists bs c s r, stores_as w hp p name t v bs /\ restores_as w p bs t old c s /\ same_object r v c /\ same_heap r hp (r_heap s) /\
    (if (depth d <=? 129)%nat then unwraps_as w p bs t old c s else rejected (w_fp w) p bs)).
Proof.
  intros RG NW SI HP ST SH N (NC & NV & NH). set (leaf := carried (w_fp w) p) in *. pose proof (fun t v (H : leaf t v) => proj1 H) as LC.
  destruct (stored_total w hp lev _ HP (fun t v H => cpp_leaf _ t v (LC t v H)) n t v name ST) as (F0 & [d tab] & TOT). exists d, tab, F0. split; [exact TOT|]. intros SZ.
  destruct (stored_fit w p hp lev (heap_typed _ _ _ _ HP) NC NH F0 n t v name d tab (TOT F0 (le_n _)) ST N NV) as (u & U & W & VA & J). destruct (utf8_size _ _ U) as (S1 & S2 & S3).
  pose proof (TOT F0 (le_n _)) as TD.
  assert (SOL : forall t v sv, leaf t v -> leaf_value t v = Some sv -> v_type sv <> TNull) by exact (fun t v sv H => leaf_solid p t v sv (LC t v H)).
  assert (TXT : forall s v', leaf (CStr EUTF8) (VStr s) -> brought (w_fp w) p (val_string s EUTF8) v' -> v_type v' = TString /\ v_data v' = s /\ v_enc v' = EUTF8) by exact (fun s v' H => leaf_text w p s v' (LC _ _ H)).
  assert (Sd : is_sc d = true).
  { unfold stored_doc in TD. destruct (null_root t v); [discriminate|]. destruct (scoped t) eqn:SC.
    - destruct (proj2 (emit_head w hp lev leaf SOL _ _ _ _ _ _ _ TD) n ST) as [K _]. now rewrite SC in K.
    - apply bind_ok in TD. destruct TD as ([d1 t1] & _ & E). injection E as <- <-. reflexivity. }
  assert (C : carries (w_fp w) p u).
  { split; [exact W|]. split.
    - destruct d; [discriminate Sd|]. inversion U; subst. exact I.
    - unfold counts_fit in SZ. destruct p; [|auto|].
      + split; [exact VA|lia].
      + split; [exact VA|]. now apply J. }
  destruct (delivers _ p d u C U) as (p' & ops & WR & VO & RD). destruct (written _ p d u C U) as (p2 & ops2 & WR2 & _ & R2). rewrite WR in WR2. injection WR2 as <- <-.
  pose proof C as (_ & Sc & _). pose proof (like_norm _ p d u U W (carries_vals _ _ _ C) false) as LK.
  destruct (stored_says w hp lev _ (brought (w_fp w) p) RG NW HP (fun t v sv v' old SH' H => leaf_back w p t v sv v' old SH' (LC t v H)) SOL (leaf_null w p) (leaf_key w p) TXT F0 n t v false name d tab _ old TD ST SH LK) as (c & s & SY & r & SO & SM).
  change (doc_norm (norm_of p) false u) with (dnorm p u) in SY.
  assert (ISd : is_sc (dnorm p u) = true) by (unfold dnorm; rewrite norm_is_sc; destruct u; [destruct Sc|reflexivity]).
  exists (spec_out ops), c, s, r. split; [|split; [|split; [exact SO|split; [exact SM|]]]].
  - exists F0, p'. intros F m L LB. destruct (run_jobs_spec [ToMemory ops] (heap_init m) (heap_ok_init m)) as (h & JB & _); [constructor; [|constructor]; now split|].
    exists h. unfold store_object. rewrite TOT by lia. cbn [rbind]. rewrite (write_all_same _ _ _ _ (stored_same d)), WR. cbn [rbind]. cbn [run_jobs run_job map job_result] in JB.
    destruct (save_buffer (heap_init m) ops) as [[bs h1]| | |]; cbn [rbind] in *; try discriminate JB. injection JB as -> ->. reflexivity.
  - exists (F0 + length (events u) + length (spec_out ops) + length (events (dnorm p u)) + 5)%nat. intros q F before rest SF L.
    assert (SHP : shaped (dnorm p u)) by (apply wf_shaped; apply (wf_norm (w_fp w)); [exact W|now apply carries_vals]).
    assert (OR : in_order w t (dnorm p u)).
    { unfold stored_doc in TD. destruct (null_root t v); [discriminate|]. unfold in_order. destruct (scoped t) eqn:SC.
      - intros F'. pose proof (emit_ordered w hp lev leaf (brought (w_fp w) p) HP SOL TXT _ _ _ _ _ _ _ _ _ _ TD ST LK F') as OC. change (doc_norm (norm_of p) false u) with (dnorm p u) in OC. unfold fine_child in OC.
        destruct (dnorm p u); [discriminate ISd|]. apply OC.
      - apply bind_ok in TD. destruct TD as ([d1 t1] & E & TD). injection TD as <- <-. destruct (like_scope_one _ _ _ _ _ _ LK) as (k' & e & EN & L1). change (doc_norm (norm_of p) false u) with (dnorm p u) in EN.
        pose proof (emit_kind w hp lev leaf (brought (w_fp w) p) SOL _ _ _ _ _ _ _ _ _ _ E ST L1) as KE. rewrite SC in KE. destruct e as [k2 v2|]; [|discriminate KE]. rewrite EN. eauto 10. }
    destruct (ord_restored F0 w t old _ c s RG SI SHP ISd OR SY F ltac:(lia)) as [tail ER]. unfold restore_object. eapply RD; [exact SF|lia|exact ER].
  - rewrite <- S2. destruct (depth u <=? 129)%nat eqn:DE.
    + exists F0, (doc_name (dnorm p u)), (doc_node (dnorm p u)). split.
      * exists (length (spec_out ops) + length (events u) + 5)%nat. intros q F before rest SF L. destruct (R2 q SF F before rest L) as (q' & Q).
        exists q'. rewrite Q. reflexivity.
      * intros F L. destruct (dnorm p u) as [|k ty its] eqn:DN; [discriminate ISd|]. rewrite doc_node_eq. apply (unwrap_says F w t old k). exact (says_more F0 F w true false t old _ _ _ (fun _ => eq_refl) L SY).
    + eexists. intros q F before rest SF L. destruct (R2 q SF F before rest L) as (q' & Q). rewrite Q. reflexivity.
Qed.
