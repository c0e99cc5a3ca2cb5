(** Null pointers in containers and classes. *)
From Coq Require Import ZArith List Bool Lia ZifyBool ZifyNat.
From Verif Require Import Base Lemmas M_Types M_Conv M_TpTools M_Charset M_In S_Conv S_Charset S_Doc M_OutOps S_Out M_Env M_Event S_PSrl M_PSrl S_MsgPack M_MsgPack S_Json M_Json
  M_Heap M_Out S_OutJobs M_Tree S_Tree M_TreeIO S_TreeIO M_Object S_Object S_Chars S_ObjStore M_ObjIO S_ObjIO P_In P_Reads P_Safe P_Conv P_Float P_FloatInt P_Paste P_Doc P_Text P_Charset P_PSrlDoc P_PSrlMain
  P_MsgPack P_MsgPackDoc P_MsgPackMain P_Scan P_JsonLit P_JsonDoc P_JsonMain P_Out P_Tree P_TreeOps P_TreeIO P_ObjEager P_ObjLazy P_Chars P_ObjStore P_ObjIO P_ObjFit S_Restored P_Restored P_ObjStore P_EvolveIO S_Null.
Import ListNotations.
Open Scope Z_scope.

Definition dnull (k : bytes) : doc := DVal k (val_type TNull).
Lemma null_emit F w hp t name tab : to_parts t = true -> emit (S F) w hp t VNone name tab = Ok (dnull name, tab).
Proof. destruct t; try discriminate; reflexivity. Qed.
Lemma parts_scoped t : to_parts t = true -> scoped t = true. Proof. destruct t; try discriminate; auto. Qed.

Section Nulls.
Context {A : Type} (isnull : A -> bool) (nm : A -> bytes) (f : A -> shared_tab -> res (doc * shared_tab)).
Hypothesis NULL : forall a tab, isnull a = true -> f a tab = Ok (dnull (nm a), tab).
Notation solid := (filter (fun a => negb (isnull a))).
Lemma emits_nulls : forall l, (forall a tab d tab', In a l -> isnull a = false -> f a tab = Ok (d, tab') -> is_sc d = true) ->
  forall tab its0 tab', emits f (solid l) tab = Ok (its0, tab') -> exists its, emits f l tab = Ok (its, tab') /\ kind_items true its = its0.
Proof.
  induction l as [|a l IH]; intros SC tab its0 tab' H; [injection H as <- <-; now exists []|]. cbn [filter] in H.
  assert (SC' : forall a tab d tab', In a l -> isnull a = false -> f a tab = Ok (d, tab') -> is_sc d = true) by (intros; eapply SC; eauto; now right).
  destruct (isnull a) eqn:N; cbn [negb] in H.
  - destruct (IH SC' _ _ _ H) as (its & E & K). exists (dnull (nm a) :: its). cbn [emits]. rewrite NULL by exact N. cbn [rbind]. rewrite E. split; [reflexivity|exact K].
  - cbn [emits] in *. apply bind_ok in H. destruct H as ([d t1] & E1 & H). apply bind_ok in H. destruct H as ([ds t2] & E2 & H). injection H as <- <-.
    destruct (IH SC' _ _ _ E2) as (its & E & K). exists (d :: its). rewrite E1. cbn [rbind]. rewrite E. split; [reflexivity|]. cbn [kind_items filter]. unfold of_kind at 1.
    rewrite (SC a _ _ _ (or_introl eq_refl) N E1). cbn. now f_equal.
Qed.
End Nulls.

Lemma like_kinds V b sc : forall its its', Forall2 (like V b) its its' -> Forall2 (like V b) (kind_items sc its) (kind_items sc its').
Proof.
  induction 1 as [|d d' its its' H F IH]; [constructor|]. cbn [kind_items filter]. assert (Q : of_kind sc d' = of_kind sc d) by (unfold of_kind; now rewrite (like_sc _ _ _ _ H)). rewrite Q. destruct (of_kind sc d); auto.
Qed.
Lemma kinds_twice sc its : kind_items sc (kind_items sc its) = kind_items sc its.
Proof.
  induction its as [|d its IH]; [reflexivity|]. cbn [kind_items filter]. destruct (of_kind sc d) eqn:E; [|exact IH]. cbn [filter]. rewrite E. f_equal. exact IH.
Qed.

Section Null.
Variables (w : world) (p : parser) (hp : heap_t) (lev : nat -> nat).
Notation x := (w_fp w).
Notation ok := (storable w hp lev (carried x p)).
Hypothesis RG : regular w.
Hypothesis HP : S_ObjStore.heap_ok w hp lev (carried x p).
Hypothesis NC : forall c f, In f (w_cls w c) -> name_fits p (f_name f).
Hypothesis NH : forall a e y, nth_error hp a = Some (e, y) -> Forall (name_fits p) (tab_keys y).
Lemma fine0 : tab_fine hp []. Proof. split; [intros [|i] a k H; discriminate H|split; constructor]. Qed.
Lemma name0 : name_fits p []. Proof. pose proof (own_names p) as O. now inversion O. Qed.
Notation maybe n := (or_null (ok n)).
Lemma maybe_total n t v name : maybe n t v -> succeeds (fun F v tab => emit F w hp t v name tab) v.
Proof.
  intros [[N T]|O].
  - destruct v; try discriminate N. exists 1%nat. intros [|F] L tab; [lia|]. rewrite null_emit by exact T. eauto.
  - exact (emit_total w hp lev _ HP (fun t v H => cpp_leaf _ t v (proj1 H)) n v t O name).
Qed.
Lemma maybe_fit n t v name F : maybe n t v -> name_fits p name -> Forall (name_fits p) (tab_keys v) ->
  forall tab d tab', emit F w hp t v name tab = Ok (d, tab') -> tab_fine hp tab -> fit_doc w p d /\ tab_fine hp tab'.
Proof.
  intros [[N T]|O] NF K tab d tab' E TF.
  - destruct v; try discriminate N. destruct F as [|F]; [discriminate|]. rewrite null_emit in E by exact T. injection E as <- <-. split; [now apply fit_null|exact TF].
  - eapply (emit_fit w p hp lev (heap_typed _ _ _ _ HP) NC NH); eauto.
Qed.
Lemma maybe_kind n t v name F tab d tab' : maybe n t v -> to_parts t = true -> emit F w hp t v name tab = Ok (d, tab') -> is_sc d = negb (null v) /\ doc_name d = name.
Proof.
  intros [[N T]|O] TP E.
  - destruct v; try discriminate N. destruct F as [|F]; [discriminate|]. rewrite null_emit in E by exact T. injection E as <- <-. auto.
  - destruct (emit_head w hp lev (carried (w_fp w) p) (fun t v sv H => leaf_solid p t v sv (proj1 H)) _ _ _ _ _ _ _ E) as [E1 E2]. destruct (E2 n O) as [E3 _]. rewrite E3, (parts_scoped _ TP). split; [|exact E1].
    destruct O; try reflexivity; try discriminate TP; [destruct t; try contradiction; discriminate TP|cbn in TP; congruence].
Qed.
Lemma not_null n t v : ok n t v -> to_parts t = true -> null v = false.
Proof. intros O TP. destruct O; try reflexivity; [destruct t; try contradiction; discriminate TP|cbn in TP; congruence]. Qed.

(** ** vectors, sets and tables *)
Lemma list_nulls {A} (nm : A -> bytes) (vl : A -> cv) n e l : to_parts e = true -> Forall (fun a => ok n e (vl a)) (filter (fun a => negb (null (vl a))) l) -> Forall (fun a => name_fits p (nm a) /\ Forall (name_fits p) (tab_keys (vl a))) l ->
  exists F0 its tab, (forall F, (F0 <= F)%nat -> emits (fun a => emit F w hp e (vl a) (nm a)) l [] = Ok (its, tab)) /\ Forall (fit_doc w p) its /\
    emits (fun a => emit F0 w hp e (vl a) (nm a)) (filter (fun a => negb (null (vl a))) l) [] = Ok (kind_items true its, tab).
Proof.
  intros TP OK K. assert (MB : Forall (fun a => maybe n e (vl a)) l).
  { apply Forall_forall. intros v I. destruct (null (vl v)) eqn:N; [left; auto|]. right. rewrite Forall_forall in OK. apply OK. apply filter_In. rewrite N. auto. }
  assert (Q : Forall (succeeds (fun F a tab => emit F w hp e (vl a) (nm a) tab)) l) by (eapply Forall_impl; [|exact MB]; intros v MV; exact (maybe_total n e (vl v) (nm v) MV)).
  destruct (emits_total _ _ Q) as [F0 T].
  destruct (T F0 (le_n _) []) as [[its tab] E].
  assert (NZ : (0 < F0)%nat \/ l = []).
  { destruct F0 as [|f0]; [|left; lia]. right. destruct l; [reflexivity|discriminate E]. }
  exists F0, its, tab. split; [|split].
  - intros F L. revert E. clear - L. revert its tab. generalize (@nil (nat * Z)). induction l as [|v vs IH]; intros tb its tab E; [exact E|]. cbn [emits] in *. apply bind_ok in E. destruct E as ([d t1] & E1 & E). apply bind_ok in E.
    destruct E as ([ds t2] & E2 & E). injection E as <- <-. rewrite (emit_more _ _ _ _ _ _ _ _ _ L E1). cbn [rbind]. now rewrite (IH _ _ _ E2).
  - refine (proj1 (emits_fit w p hp _ _ _ _ _ _ E fine0)). apply Forall_forall. intros v I tb d tb' E1 TF. rewrite Forall_forall in MB, K. destruct (K _ I) as [K1 K2]. exact (maybe_fit n e (vl v) (nm v) F0 (MB _ I) K1 K2 _ _ _ E1 TF).
  - destruct NZ as [NZ| ->]; [|injection E as <- <-; reflexivity]. destruct F0 as [|f0]; [lia|].
    assert (S0 : exists its0 tab0, emits (fun a => emit (S f0) w hp e (vl a) (nm a)) (filter (fun a => negb (null (vl a))) l) [] = Ok (its0, tab0)).
    { clear - E TP. revert its tab E. generalize (@nil (nat * Z)). induction l as [|v vs IH]; intros tb its tab E; [exists [], tb; reflexivity|]. cbn [emits] in E. apply bind_ok in E. destruct E as ([d t1] & E1 & E). apply bind_ok in E.
      destruct E as ([ds t2] & E2 & E). destruct (IH _ _ _ E2) as (i0 & t0 & X). cbn [filter]. destruct (null (vl v)) eqn:N; cbn [negb].
      - destruct (vl v); try discriminate N. rewrite null_emit in E1 by exact TP. injection E1 as <- <-. eauto.
      - cbn [emits]. rewrite E1. cbn [rbind]. rewrite X. cbn [rbind]. eauto. }
    destruct S0 as (its0 & tab0 & X).
    destruct (emits_nulls (fun a => null (vl a)) nm (fun a => emit (S f0) w hp e (vl a) (nm a))) with (l := l) (tab := @nil (nat * Z)) (its0 := its0) (tab' := tab0) as (its1 & Y & Z); [| |exact X|].
    + intros v tb N. destruct (vl v); try discriminate N. now apply null_emit.
    + intros v tb d tb' I N E1. rewrite Forall_forall in MB. destruct (maybe_kind n e (vl v) (nm v) _ _ _ _ (MB _ I) TP E1) as [Q1 _]. now rewrite Q1, N.
    + pose proof E as E'. rewrite X. clear X. assert (QQ : Ok (its, tab) = Ok (its1, tab0)) by (rewrite <- Y; symmetry; exact E'). injection QQ as -> ->. now rewrite Z.
Qed.
Theorem nulls_lost n t v name : constructs w -> of_pointers t = true -> ok n t (without_nulls v) -> name_fits p name -> Forall (name_fits p) (tab_keys v) ->
  exists d tab size, (forall F, (size <= F)%nat -> stored_doc F w hp t v name [] = Ok (d, tab)) /\
  (size_fits p d -> exists bs, stores_as w hp p name t v bs /\ forall old, exists c s r, restores_as w p bs t old c s /\ unwraps_as w p bs t old c s /\ same_object r (without_nulls v) c /\ same_heap r hp (r_heap s)).
Proof.
  intros NW OP ST N K.
  assert (Q : exists F0 its tab ty, (forall F, (F0 <= F)%nat -> stored_doc F w hp t v name [] = Ok (DScope name ty its, tab)) /\ (ty = TObject \/ ty = TArray) /\ Forall (fit_doc w p) its /\
    stored_doc F0 w hp t (without_nulls v) name [] = Ok (DScope name ty (kind_items true its), tab)).
  { destruct t as [t|e|e|e m| |c|e|e|k e|e|m e|a b|c|e|e|e|e|]; try discriminate OP; cbn [of_pointers] in OP;
      destruct v as [z|z|vs|l|l| |y|a0|c0 vs]; try (inversion ST as [? ? X| | | | | | | | | | | | | |]; subst; contradiction); cbn [without_nulls tab_keys] in *.
    1,2: destruct (list_nulls (fun _ => []) (fun v => v) n e vs OP) as (F0 & its & tab & L1 & L2 & L3);
      [inversion ST; subst; [contradiction|assumption]|apply Forall_forall; intros a I; split; [exact name0|]; rewrite Forall_forall in *; intros k KI; apply K; apply in_flat_map; eauto|];
      exists (S F0), its, tab, TArray; unfold stored_doc; cbn [null_root scoped type_of is_scope]; split; [|split; [auto|split; [exact L2|]]];
      [intros [|F] L; [lia|]; cbn [emit]; rewrite (L1 F ltac:(lia)); reflexivity|cbn [emit]; rewrite L3; reflexivity].
    destruct (list_nulls (fun q : bytes * cv => fst q) (fun q => snd q) n e l OP) as (F0 & its & tab & L1 & L2 & L3).
    - inversion ST as [? ? X| | | | | | |? ? FV| | | | | | |]; subst; [contradiction|]. clear - FV. induction (filter _ l); [constructor|]. inversion FV; subst. constructor; auto.
    - apply Forall_forall. intros a I. rewrite Forall_forall in K. split; [|apply Forall_forall; intros k KI]; apply K; apply in_flat_map; exists a; split; auto; [now left|now right].
    - exists (S F0), its, tab, TObject. unfold stored_doc. cbn [null_root scoped type_of is_scope]. split; [|split; [auto|split; [exact L2|]]].
      + intros [|F] L; [lia|]. cbn [emit]. rewrite (L1 F ltac:(lia)). reflexivity.
      + cbn [emit]. rewrite L3. reflexivity. }
  destruct Q as (F0 & its & tab & ty & TOT & TY & FIT & ST0). exists (DScope name ty its), tab, F0. split; [exact TOT|]. intros SZ.
  destruct (fit_delivered w p hp t v name _ tab F0 TOT eq_refl (fit_scope w p name ty its N TY FIT) SZ) as (bs & dn & size & SA & LK & DE & LD & RD).
  exists bs. split; [exact SA|]. intros old. inversion LK as [|? ? k' ? ? its' _ LI]; subst.
  assert (LK0 : like (brought (w_fp w) p) false (DScope name ty (kind_items true its)) (DScope k' ty (kind_items true its'))) by (constructor; [discriminate|now apply like_kinds]).
  assert (SH : shape w t old) by (apply sh_any; destruct t; try discriminate OP; exact I).
  destruct (stored_says w hp lev (carried (w_fp w) p) (brought (w_fp w) p) RG NW HP (fun t v sv v' old SH' H => leaf_back w p t v sv v' old SH' (proj1 H)) (fun t v sv H => leaf_solid p t v sv (proj1 H)) (leaf_null w p) (leaf_key w p)
    (fun s v' H => leaf_text w p s v' (proj1 H)) F0 n t (without_nulls v) false name _ tab _ old ST0 ST SH LK0) as (c & s & SY & r & SO & SM).
  assert (SY' : says F0 w true t old (DScope k' ty its') rs_new = Ok (c, s)).
  { clear - SY OP. unfold says in *. destruct F0 as [|f0]; [destruct (scoped t) eqn:X; [discriminate|destruct t; discriminate]|].
    destruct t as [t|e|e|e m| |c0|e|e|k e|e|m e|a b|c0|e|e|e|e|]; try discriminate OP; cbn [of_pointers] in OP; cbn [scoped type_of is_scope said] in *; unfold dstep in *; rewrite (parts_scoped _ OP) in *; rewrite kinds_twice in SY;
      (destruct (negb _); [discriminate|]); destruct (deach _ _ _ _) as [[q1 q2]| | |]; try discriminate; exact SY. }
  exists c, s, r. split; [|split; [|auto]].
  - exists (F0 + size + length (events (DScope k' ty its')) + 5)%nat. intros q F before rest SF L.
    destruct (restore_says F0 w t old _ c s RG DE SY' F ltac:(lia)) as [tail ER]. unfold restore_object. refine (RD q SF F before rest _ _ _ _ tail ER). lia.
  - exists F0, (doc_name (DScope k' ty its')), (doc_node (DScope k' ty its')). split; [exact LD|]. intros F L. rewrite doc_node_eq.
    apply (unwrap_says F w t old k'). refine (says_more F0 F w true false t old _ _ _ _ L SY'). auto.
Qed.

(** ** arrays *)
Theorem array_fails n m e vs name : to_parts e = true -> length vs = m -> Forall (maybe n e) vs -> existsb null vs = true -> name_fits p name -> Forall (name_fits p) (tab_keys (VList vs)) ->
  exists d tab size, (forall F, (size <= F)%nat -> stored_doc F w hp (CArr m e) (VList vs) name [] = Ok (d, tab)) /\
  (size_fits p d -> exists bs k nd, stores_as w hp p name (CArr m e) (VList vs) bs /\ loads_as (w_fp w) p bs k nd /\ forall F old r, unwrap_prog F w (CArr m e) old nd rs_new <> ERet r).
Proof.
  intros TP LN MB EX N K. cbn [tab_keys] in K.
  destruct (list_nulls (fun _ => []) (fun v => v) n e vs TP) as (F0 & its & tab & L1 & L2 & L3).
  { apply Forall_forall. intros v I. apply filter_In in I. destruct I as [I V]. rewrite Forall_forall in MB. destruct (MB _ I) as [[X _]|X]; [rewrite X in V; discriminate|exact X]. }
  { apply Forall_forall; intros a I; split; [exact name0|]; rewrite Forall_forall in *; intros k KI; apply K; apply in_flat_map; eauto. }
  assert (TOT : forall F, (S F0 <= F)%nat -> stored_doc F w hp (CArr m e) (VList vs) name [] = Ok (DScope name TArray its, tab)).
  { intros [|F] L; [lia|]. unfold stored_doc. cbn [null_root scoped type_of is_scope emit]. rewrite LN, Nat.eqb_refl, (L1 F ltac:(lia)). reflexivity. }
  exists (DScope name TArray its), tab, (S F0). split; [exact TOT|]. intros SZ.
  destruct (fit_delivered w p hp (CArr m e) (VList vs) name _ tab (S F0) TOT eq_refl (fit_scope w p name TArray its N (or_intror eq_refl) L2) SZ) as (bs & dn & size & SA & LK & DE & LD & _).
  exists bs, (doc_name dn), (doc_node dn). split; [exact SA|]. split; [exact LD|]. intros F old r H. inversion LK as [|? ? k' ? ? its' _ LI]; subst. rewrite doc_node_eq, (eager_says F w _ old k') in H. unfold says in H. cbn [scoped type_of is_scope] in H.
  destruct F as [|F]; [discriminate|]. cbn [said] in H. unfold dstep in H. cbn [is_scope negb] in H. destruct old as [z|z|olds|l|l| |y|a0|c0 os]; try discriminate H. destruct (negb (Nat.eqb (length olds) (length vs))) eqn:X1; [discriminate|].
  assert (E : forall l tb (js : list doc) tb', emits (fun a => emit F0 w hp e a []) l tb = Ok (js, tb') -> length js = length l).
  { clear. induction l as [|a l IH]; intros tb js tb' E; cbn [emits] in E; [now injection E as <- <-|]. apply bind_ok in E. destruct E as ([d t1] & _ & E). apply bind_ok in E. destruct E as ([ds t2] & E2 & E). injection E as <- <-. cbn [length]. f_equal. eauto. }
  pose proof (E _ _ _ _ (L1 F0 (le_n _))) as E1. pose proof (E _ _ _ _ L3) as E2. clear E.
  assert (E3 : (length (filter (fun v => negb (null v)) vs) < length vs)%nat).
  { clear - EX. assert (LE : forall us : list cv, (length (filter (fun v => negb (null v)) us) <= length us)%nat) by (induction us as [|d us IH]; [auto|cbn [filter length]; destruct (null d); cbn [negb length]; lia]).
    induction vs as [|v vs IH]; [discriminate|]. cbn [existsb filter length] in *. specialize (LE vs). destruct (null v); cbn [negb orb length] in *; [lia|specialize (IH EX); lia]. }
  pose proof (len2 _ _ _ (like_kinds _ _ true _ _ LI)) as E4. rewrite (parts_scoped _ TP) in H. replace (Nat.eqb (length (kind_items true its')) (length vs)) with false in H by (symmetry; apply Nat.eqb_neq; lia). discriminate H.
Qed.

(** ** members of a class *)
Theorem member_fails n c vs name g : named_class (w_cls w c) -> Forall2 (fun f v => maybe n (f_type f) v) (w_cls w c) vs -> In (g, VNone) (combine (w_cls w c) vs) -> to_parts (f_type g) = true -> f_opt g = false ->
  name_fits p name -> Forall (name_fits p) (tab_keys (VList vs)) ->
  exists d tab size, (forall F, (size <= F)%nat -> stored_doc F w hp (CCls c) (VList vs) name [] = Ok (d, tab)) /\
  (size_fits p d -> exists bs k nd, stores_as w hp p name (CCls c) (VList vs) bs /\ loads_as (w_fp w) p bs k nd /\ forall F old r, unwrap_prog F w (CCls c) old nd rs_new <> ERet r).
Proof.
  intros ND MB IG TG OG N K. cbn [tab_keys] in K. set (fs := w_cls w c) in *.
  assert (FA : Forall (fun fv => In (fst fv) fs /\ maybe n (f_type (fst fv)) (snd fv) /\ Forall (name_fits p) (tab_keys (snd fv))) (combine fs vs)).
  { clear - MB K. assert (G : forall all, (forall f, In f fs -> In f all) -> Forall (fun fv => In (fst fv) all /\ maybe n (f_type (fst fv)) (snd fv) /\ Forall (name_fits p) (tab_keys (snd fv))) (combine fs vs)); [|apply G; auto].
    clearbody fs. induction MB as [|f v l l' H MB IH]; intros all X; [constructor|]. cbn [flat_map] in K. apply Forall_app in K. destruct K as [K1 K2].
    cbn [combine]. constructor; [|apply IH; [exact K2|intros; apply X; now right]]. cbn [fst snd]. split; [apply X; now left|auto]. }
  assert (LN : length vs = length fs) by (symmetry; exact (len2 _ _ _ MB)).
  assert (Q : Forall (succeeds (fun F fv tab => emit F w hp (f_type (fst fv)) (snd fv) (f_name (fst fv)) tab)) (combine fs vs)).
  { eapply Forall_impl; [|exact FA]. intros fv (_ & M & _). exact (maybe_total n (f_type (fst fv)) (snd fv) (f_name (fst fv)) M). }
  destruct (emits_total _ _ Q) as [F0 T]. destruct (T F0 (le_n _) []) as [[its tab] E].
  assert (FIT : Forall (fit_doc w p) its).
  { refine (proj1 (emits_fit w p hp _ _ _ _ _ _ E fine0)). eapply Forall_impl; [|exact FA]. intros fv (I1 & M & KK) tb d tb' E1 TF. exact (maybe_fit n _ _ _ F0 M (NC c _ I1) KK _ _ _ E1 TF). }
  assert (TOT : forall F, (S F0 <= F)%nat -> stored_doc F w hp (CCls c) (VList vs) name [] = Ok (DScope name TObject its, tab)).
  { assert (M : emit (S F0) w hp (CCls c) (VList vs) name [] = Ok (DScope name TObject its, tab)).
    { cbn [emit]. fold fs. rewrite LN, Nat.eqb_refl. match goal with |- context [emits ?f ?l ?tb] => assert (E' : emits f l tb = Ok (its, tab)) by exact E; rewrite E' end. reflexivity. }
    intros F L. unfold stored_doc. cbn [null_root scoped type_of is_scope]. exact (emit_more _ _ _ _ _ _ _ _ _ L M). }
  exists (DScope name TObject its), tab, (S F0). split; [exact TOT|]. intros SZ.
  destruct (fit_delivered w p hp (CCls c) (VList vs) name _ tab (S F0) TOT eq_refl (fit_scope w p name TObject its N (or_introl eq_refl) FIT) SZ) as (bs & dn & size & SA & LK & DE & LD & _).
  exists bs, (doc_name dn), (doc_node dn). split; [exact SA|]. split; [exact LD|]. intros F old r H. inversion LK as [|? ? k' ? ? its' _ LI]; subst. cbn [ty_eqb] in LI. destruct F as [|F]; [discriminate|].
  assert (IGF : In g fs) by (apply in_combine_l in IG; exact IG).
  refine (missing_member F w c k' TObject its' old rs_new r g ND eq_refl IGF OG _ H). clear - E LI IG TG ND FA. destruct ND as [_ ND].
  unfold item_for. rewrite (parts_scoped _ TG).
  assert (W : Forall2 (fun fv (d : doc) => S_Tree.doc_name d = f_name (fst fv) /\ (snd fv = VNone -> to_parts (f_type (fst fv)) = true -> is_sc d = false)) (combine fs vs) its').
  { clear IG ND. revert tab its its' E LI FA. generalize (@nil (nat * Z)). induction (combine fs vs) as [|fv l IH]; intros tb tab its its' E LI FA; cbn [emits] in E.
    - injection E as <- <-. inversion LI. constructor.
    - apply bind_ok in E. destruct E as ([d t1] & E1 & E). apply bind_ok in E. destruct E as ([ds t2] & E2 & E). injection E as <- <-. inversion LI as [|? d' ? ds' L1 L2]; subst. inversion FA as [|? ? (_ & M & _) FA2]; subst.
      constructor; [|eapply IH; eauto]. split.
      + rewrite (like_name _ _ _ L1). destruct (emit_head w hp lev (carried (w_fp w) p) (fun t v sv H => leaf_solid p t v sv (proj1 H)) _ _ _ _ _ _ _ E1) as [X _]. exact X.
      + intros V TP. rewrite (like_sc _ _ _ _ L1). destruct (maybe_kind n _ _ _ _ _ _ _ M TP E1) as [X _]. rewrite X, V. reflexivity. }
  assert (ND2 : NoDup (map (fun fv => f_name (fst fv)) (combine fs vs))).
  { clear - ND. revert vs ND. induction fs as [|f l IH]; intros vs ND; [constructor|]. destruct vs as [|v vs]; [constructor|]. cbn [combine map fst] in *. inversion ND as [|? ? N1 N2]; subst. constructor; [|apply IH; exact N2].
    intros I. apply N1. apply in_map_iff in I. destruct I as ([f' v'] & E & I). cbn [fst] in E. apply in_combine_l in I. apply in_map_iff. eauto. }
  clear E LI FA ND. induction W as [|fv d l its2 (H1 & H2) W IH]; [destruct IG|]. cbn [map] in ND2. inversion ND2 as [|? ? N1 N2]; subst. cbn [find]. rewrite H1. destruct IG as [->|IG].
  - cbn [fst snd] in *. rewrite (H2 eq_refl TG). cbn [Bool.eqb andb]. clear - N1 W. induction W as [|fv d l its (H1 & _) W IH]; [reflexivity|]. cbn [map In] in N1. cbn [find]. rewrite H1.
    assert (B : bytes_eqb (f_name (fst fv)) (f_name g) = false) by (apply bytes_eqb_neq; tauto). rewrite B, andb_false_r. apply IH. tauto.
  - assert (B : bytes_eqb (f_name (fst fv)) (f_name g) = false).
    { apply bytes_eqb_neq. intros X. apply N1. rewrite X. apply in_map_iff. exists (g, VNone). auto. }
    rewrite B, andb_false_r. auto.
Qed.

(** ** unique pointers to numbers and strings *)
Theorem unique_made_up e name v : made_up w e = Some v -> scoped e = false -> name_fits p name ->
  exists d tab size, (forall F, (size <= F)%nat -> stored_doc F w hp (CUniq e) VNone name [] = Ok (d, tab)) /\
  (size_fits p d -> exists bs, stores_as w hp p name (CUniq e) VNone bs /\ forall old, restores_as w p bs (CUniq e) old (VSome v) rs_new /\ unwraps_as w p bs (CUniq e) old (VSome v) rs_new).
Proof using RG.
  clear NC NH HP lev. intros MU SE N. assert (SC : scoped (CUniq e) = false) by exact SE.
  assert (TOT : forall F, (1 <= F)%nat -> stored_doc F w hp (CUniq e) VNone name [] = Ok (DScope name TObject [dnull str_value], [])).
  { intros [|F] L; [lia|]. unfold stored_doc. cbn [null_root]. rewrite SC. reflexivity. }
  exists (DScope name TObject [dnull str_value]), [], 1%nat. split; [exact TOT|]. intros SZ.
  assert (NV : name_fits p str_value) by (pose proof (own_names p) as O; rewrite Forall_forall in O; apply O; cbn; tauto).
  destruct (fit_delivered w p hp (CUniq e) VNone name _ [] 1%nat TOT eq_refl (fit_scope w p name TObject _ N (or_introl eq_refl) (Forall_cons _ (fit_null w p _ NV) (Forall_nil _))) SZ) as (bs & dn & size & SA & LK & DE & LD & RD).
  exists bs. split; [exact SA|]. intros old. inversion LK as [|? ? k' ? ? its' _ LI]; subst. inversion LI as [|? d' ? its2 L1 L2]; subst. inversion L2; subst. inversion L1 as [? ? k2 ? v' _ BR|]; subst.
  assert (TN : v_type v' = TNull) by (apply (leaf_null w p _ _ BR); reflexivity).
  assert (SY : says 1 w true (CUniq e) old (DScope k' TObject [DVal k2 v']) rs_new = Ok (VSome v, rs_new)).
  { unfold says. rewrite SC. unfold dfield, select. cbn [items]. rewrite SC. cbn [nth_match of_kind is_sc Bool.eqb Z.ltb Z.compare Z.to_nat]. cbn [rbind dchild paste_value].
    destruct e; try discriminate MU; cbn [made_up] in MU; injection MU as <-; cbn [paste_value]; [|rewrite TN; reflexivity].
    unfold paste_number, paste_num, apply_or_throw, apply_type. rewrite TN. reflexivity. }
  split.
  - exists (1 + size + length (events (DScope k' TObject [DVal k2 v'])) + 5)%nat. intros q F before rest SF L.
    destruct (restore_says 1 w _ old _ _ _ RG DE SY F ltac:(lia)) as [tail ER]. unfold restore_object. refine (RD q SF F before rest _ _ _ _ tail ER). lia.
  - exists 1%nat, (doc_name (DScope k' TObject [DVal k2 v'])), (doc_node (DScope k' TObject [DVal k2 v'])). split; [exact LD|]. intros F L. rewrite doc_node_eq.
    apply (unwrap_says F w _ old k'). refine (says_more 1 F w true false _ old _ _ _ _ L SY). auto.
Qed.
End Null.
