(** The documents of objects that a format can carry are documents that the format can carry. *)
From Coq Require Import ZArith List Bool Lia ZifyBool ZifyNat Permutation.
From Verif Require Import Base Lemmas M_Types M_Conv M_TpTools M_Charset M_In S_Conv S_Charset S_Doc M_OutOps S_Out M_Env M_Event S_PSrl M_PSrl S_MsgPack M_MsgPack S_Json M_Json
  M_Heap M_Out S_OutJobs M_Tree S_Tree M_TreeIO S_TreeIO M_Object S_Object S_Chars S_ObjStore M_ObjIO S_ObjIO P_In P_Reads P_Safe P_Conv P_Float P_FloatInt P_Paste P_Doc P_Text P_Charset P_PSrlDoc P_PSrlMain
  P_MsgPack P_MsgPackDoc P_MsgPackMain P_Scan P_JsonLit P_JsonDoc P_JsonMain P_Out P_Tree P_TreeOps P_TreeIO P_ObjEager P_ObjLazy P_Chars P_ObjStore P_ObjIO.
Import ListNotations.
Open Scope Z_scope.

Section Fit.
Variables (w : world) (p : parser).
Notation x := (w_fp w).
Definition fit_value (sv u : value) : Prop := same_text sv u /\ wf_value u /\ vcarries x p u.

Lemma text_wf e cs : known e -> Forall scalar cs -> wf_bytes (text e cs).
Proof.
  intros K F. induction F as [|c cs H F IH]; [constructor|]. cbn [text flat_map]. apply Forall_app. split; [|exact IH]. now apply wf_encode.
Qed.
Lemma fit_text e s : zlen s < 2 ^ 32 -> textual e s -> exists u, fit_value (val_string s e) u.
Proof.
  intros L [W T]. assert (E : v_data (val_string s e) = s) by (cbn; apply trunc_block_id; unfold_words; lia).
  assert (J : forall d, wf_bytes d -> zlen d < 2 ^ 32 -> wf_value (val_string d EUTF8) /\ vcarries x p (val_string d EUTF8)).
  { intros d Wd Ld. split.
    - unfold wf_value. cbn [v_type val_string v_data]. rewrite trunc_block_id by (unfold_words; lia). auto.
    - destruct p; cbn [vcarries]; [discriminate|exact I|]. unfold json_value, meaning_of. reflexivity. }
  destruct (enc_eqb e EUTF8) eqn:EE.
  - apply enc_eqb_spec in EE. subst e. exists (val_string s EUTF8). split; [now constructor|]. now apply J.
  - assert (NE : e <> EUTF8) by (intros ->; discriminate). destruct T as [T|(cs & K & F & S & LC)]; [now destruct NE|].
    exists (val_string (text EUTF8 cs) EUTF8). split; [|apply J; [apply text_wf; [discriminate|exact F]|exact LC]]. apply same_conv; auto. rewrite E. exact S.
Qed.
Lemma meaning_f64 n : 0 <= n < two64 -> meaning_of (val_f64 n) = MeFloat n.
Proof.
  intros R. pose proof (val_f64_roundtrip n R) as D. unfold meaning_of. rewrite D. unfold val_f64. destruct (narrow64 n); reflexivity.
Qed.
Lemma kept_value t v sv : carried x p t v -> leaf_value t v = Some sv -> exists u, fit_value sv u.
Proof.
  intros [C K] L. assert (SELF : forall u, v_type u <> TString -> wf_value u -> vcarries x p u -> exists v', fit_value u v').
  { intros u N W V. exists u. split; [constructor; intros H; contradiction|auto]. }
  destruct t; try discriminate L; destruct v; try discriminate L.
  4: { destruct (chars_leaf _ _ _ _ _ C L) as (-> & s0 & P & -> & LS). apply fit_text; [exact LS|]. split; [|now left].
       destruct P as (-> & _). cbn in K. apply Forall_app in K. exact (proj1 K). }
  all: injection L as <-.
  - assert (INT : is_int_ty t = true -> exists u, fit_value (val_int t n) u).
    { intros It. assert (R : in_range t n) by (unfold in_range; destruct t; try discriminate It; exact C).
      destruct (int_value_of (val_int t n) n It R eq_refl) as [E B].
      apply SELF; [destruct t; discriminate|now apply wf_val_int|]. unfold vcarries. destruct p; [|exact I|unfold json_value]; rewrite meaning_int_ty, E by exact It; intros Q;
        try (injection Q as Q); unfold in_range in R; destruct t; try discriminate It; cbn [int_min int_max] in R; unfold_words; cbn in K; lia. }
    destruct t; try (apply INT; reflexivity); cbn in C; try contradiction; clear INT; cbn [num_value].
    + apply SELF; [discriminate| |].
      * unfold wf_value. cbn [v_type val_int v_raw]. destruct C as [-> | ->]; [now left|now right].
      * unfold vcarries. destruct p; [discriminate|exact I|exact I].
    + apply SELF; [discriminate|unfold wf_value; cbn; lia|]. unfold vcarries. destruct p; [discriminate|exact I|]. unfold json_value, meaning_of. cbn [v_type val_f32].
      change (mkValue TFP32 n [] EUnknown) with (val_f32 n). rewrite v_double_f32 by (unfold_words; lia). now apply K.
    + assert (T : v_type (val_f64 n) <> TString) by (unfold val_f64; destruct (narrow64 n); discriminate). apply SELF; [exact T|apply wf_val_f64; unfold_words; lia|].
      unfold vcarries. rewrite meaning_f64 by (unfold_words; lia). destruct p; [discriminate|exact I|]. unfold json_value. rewrite meaning_f64 by (unfold_words; lia). now apply K.
  - now apply fit_text.
  - apply fit_text; [|exact K]. cbn in C. rewrite C. destruct e; reflexivity.
  - destruct K as [W J]. cbn in C. apply SELF; [discriminate|unfold wf_value; cbn; rewrite trunc_block_id by (unfold_words; lia); auto|].
    unfold vcarries. destruct p; [discriminate|exact I|]. unfold json_value, meaning_of. cbn [v_type val_block v_data]. rewrite trunc_block_id by (unfold_words; lia). now apply J.
Qed.

(** documents *)
Definition names_of (b : bool) (u : doc) : Prop := is_json p = true -> json_names b u.
Definition fit_doc (d : doc) : Prop := exists u, utf8_doc d u /\ wf_doc u /\ vcarry x p u /\ forall b, names_of b u.
Lemma fit_val k sv : name_fits p k -> (exists u, fit_value sv u) -> fit_doc (DVal k sv).
Proof.
  intros [N1 N2] (u & S & W & V). exists (DVal k u). split; [now constructor|]. split; [now split|]. split; [exact V|]. intros b J. cbn. auto.
Qed.
Lemma fit_scope k t its : name_fits p k -> (t = TObject \/ t = TArray) -> Forall fit_doc its -> fit_doc (DScope k t its).
Proof.
  intros [N1 N2] T F. assert (Q : exists us, Forall2 utf8_doc its us /\ Forall wf_doc us /\ Forall (vcarry x p) us /\ Forall (fun u => forall b, names_of b u) us).
  { induction F as [|d its (u & U1 & U2 & U3 & U4) F (us & I1 & I2 & I3 & I4)]; [exists []; auto|]. exists (u :: us). auto. }
  destruct Q as (us & I1 & I2 & I3 & I4). exists (DScope k t us). split; [now constructor|]. split; [apply wf_doc_scope; auto|]. split.
  - unfold vcarry. cbn [all_vals]. clear - I3. induction I3; [exact I|]. split; assumption.
  - intros b J. cbn [json_names]. split; [auto|]. clear - I4 J. induction I4 as [|y l H F IH]; [exact I|]. split; [now apply H|exact IH].
Qed.
Lemma fit_null k : name_fits p k -> fit_doc (DVal k (val_type TNull)).
Proof. intros N. apply fit_val; [exact N|]. exists (val_type TNull). split; [constructor; discriminate|]. split; [exact I|]. unfold vcarries. destruct p; [discriminate|exact I|exact I]. Qed.
Lemma fit_key k n : name_fits p k -> 0 <= n < two64 -> fit_doc (DVal k (val_int TUI64 n)).
Proof.
  intros N R. apply fit_val; [exact N|]. apply (kept_value (CNum TUI64) (VNum n)); [|reflexivity]. split; [|exact I]. cbn. unfold_words. lia.
Qed.
Definition plain_names : list bytes := [[]; str_key; str_value; str_first; str_second; str_shared_key; str_shared_value; str_type_id].
Lemma own_names : Forall (name_fits p) plain_names.
Proof.
  assert (Q : forall k, forallb (fun c => (0 <=? c) && (c <? 256) && negb (c =? 34) && negb (c =? 92)) k && (zlen k <? 100) = true -> name_fits p k).
  { intros k H. apply andb_prop in H. destruct H as [H L]. rewrite forallb_forall in H. split; [split|intros _; split].
    - apply Forall_forall. intros c I. specialize (H c I). unfold is_byte. lia.
    - lia.
    - intros I. specialize (H _ I). lia.
    - intros I. specialize (H _ I). lia. }
  unfold plain_names. repeat (apply Forall_cons; [apply Q; reflexivity|]). constructor.
Qed.

(** objects *)
Variables (hp : heap_t) (lev : nat -> nat).
Notation ok := (storable w hp lev (carried x p)).
Hypothesis HEAP : (forall a e y, nth_error hp a = Some (e, y) -> exists m, ok m e y) /\ zlen hp < two64.
Hypothesis NC : forall c f, In f (w_cls w c) -> name_fits p (f_name f).
Hypothesis NH : forall a e y, nth_error hp a = Some (e, y) -> Forall (name_fits p) (tab_keys y).
Definition tab_fine (tab : shared_tab) : Prop := tab_ok tab /\ NoDup (map fst tab) /\ Forall (fun q => (fst q < length hp)%nat) tab.
Lemma tab_fine_len tab : tab_fine tab -> zlen tab <= zlen hp.
Proof.
  intros (_ & ND & FA). assert (L : (length (map fst tab) <= length (seq 0 (length hp)))%nat).
  { apply NoDup_incl_length; [exact ND|]. intros a I. apply in_seq. apply in_map_iff in I. destruct I as (q & <- & I). rewrite Forall_forall in FA. specialize (FA _ I). lia. }
  rewrite map_length, seq_length in L. unfold zlen. lia.
Qed.
Lemma tab_fine_key a tab k : tab_fine tab -> tab_key a tab = Some k -> 0 <= k < two64.
Proof. intros T H. pose proof (tab_fine_len _ T). destruct T as (T & _). pose proof (tab_key_range _ _ _ T H). destruct HEAP as [_ HL]. lia. Qed.
Lemma tab_fine_push a e y tab : tab_fine tab -> nth_error hp a = Some (e, y) -> tab_key a tab = None -> tab_fine (tab ++ [(a, zlen tab)]).
Proof.
  intros (T & ND & FA) E N. split; [now apply tab_ok_snoc|]. split.
  - rewrite map_app. cbn. apply (Permutation_NoDup (l := a :: map fst tab)); [apply Permutation_cons_append|]. constructor; [now apply tab_key_none|exact ND].
  - apply Forall_app. split; [exact FA|]. constructor; [cbn|constructor]. apply nth_error_Some. congruence.
Qed.
Definition fits_as (n : nat) (F : nat) : Prop := forall t v name tab d tab', emit F w hp t v name tab = Ok (d, tab') -> ok n t v -> name_fits p name -> Forall (name_fits p) (tab_keys v) ->
  tab_fine tab -> fit_doc d /\ tab_fine tab'.
Lemma emits_fit {A} (f : A -> shared_tab -> res (doc * shared_tab)) : forall l, Forall (fun a => forall tab d tab', f a tab = Ok (d, tab') -> tab_fine tab -> fit_doc d /\ tab_fine tab') l ->
  forall tab its tab', emits f l tab = Ok (its, tab') -> tab_fine tab -> Forall fit_doc its /\ tab_fine tab'.
Proof.
  induction 1 as [|a l H F IH]; intros tab its tab' E T; cbn [emits] in E.
  - injection E as <- <-. auto.
  - destruct (f a tab) as [[d t1]| | |] eqn:E1; try discriminate. cbn [rbind] in E. destruct (emits f l t1) as [[ds t2]| | |] eqn:E2; try discriminate. injection E as <- <-.
    destruct (H _ _ _ E1 T) as [H1 H2]. destruct (IH _ _ _ E2 H2) as [I1 I2]. auto.
Qed.
Lemma fields_fit F n (fn : field -> bytes) : (forall m, fits_as m F) -> forall fs vs, Forall2 (fun f v => ok n (f_type f) v) fs vs -> (forall f, In f fs -> name_fits p (fn f)) -> Forall (name_fits p) (flat_map tab_keys vs) ->
  Forall (fun fv => forall tab d tab', emit F w hp (f_type (fst fv)) (snd fv) (fn (fst fv)) tab = Ok (d, tab') -> tab_fine tab -> fit_doc d /\ tab_fine tab') (combine fs vs).
Proof.
  intros IH fs vs F2. induction F2 as [|f v fs vs H F2 I]; intros N K; cbn [combine]; [constructor|]. cbn [flat_map] in K. apply Forall_app in K. destruct K as [K1 K2].
  constructor; [|apply I; [intros; apply N; now right|exact K2]]. cbn [fst snd]. intros tab d tab' E T. eapply IH; eauto. apply N. now left.
Qed.
Lemma list_fit F n e k : (forall m, fits_as m F) -> name_fits p k -> forall vs, Forall (ok n e) vs -> Forall (name_fits p) (flat_map tab_keys vs) ->
  Forall (fun v => forall tab d tab', emit F w hp e v k tab = Ok (d, tab') -> tab_fine tab -> fit_doc d /\ tab_fine tab') vs.
Proof.
  intros IH N vs F2. induction F2 as [|v vs H F2 I]; intros K; [constructor|]. cbn [flat_map] in K. apply Forall_app in K. destruct K as [K1 K2]. constructor; [|auto]. intros. eapply IH; eauto.
Qed.
Ltac inv_bind H := let q := fresh "q" in let E := fresh "E" in apply bind_ok in H; destruct H as (q & E & H).
Ltac own := match goal with |- name_fits p ?k => let O := fresh in pose proof own_names as O; rewrite Forall_forall in O; apply O; cbn; tauto end.

Lemma emit_fit : forall F n, fits_as n F.
Proof.
  induction F as [|F IH]; intros n t v name tab d tab' E O N K T; [discriminate|]. cbn [emit] in E.
  destruct O as [t v TT SC LF|c vs FV|c vs FV|e vs FV|e vs FV PL SO|e vs FV|k e l FK FV PL SO|e l FV ND|a b y z OA OB|e y OX NN|e y OX NN|e SC|e y a HA LA|e y a HA LA|bu c vs FV RG LF].
  - assert (Q : exists sv, leaf_value t v = Some sv /\ d = DVal name sv /\ tab' = tab).
    { destruct t; try contradiction; destruct v; try discriminate E.
      4: { inv_bind E. injection E as <- <-. eexists. cbn [leaf_value]. rewrite E0. auto. }
      all: injection E as <- <-; now eexists. }
    destruct Q as (sv & Q & -> & ->). split; [|exact T]. apply fit_val; [exact N|]. eapply kept_value; eauto.
  - destruct (Nat.eqb _ _); [|discriminate]. inv_bind E. destruct q as [its t1]. injection E as <- <-.
    destruct (emits_fit _ _ (fields_fit F n f_name IH _ _ FV (NC c) K) _ _ _ E0 T) as [A B]. split; [|exact B]. apply fit_scope; auto.
  - destruct (Nat.eqb _ _); [|discriminate]. inv_bind E. destruct q as [its t1]. injection E as <- <-.
    destruct (emits_fit _ _ (fields_fit F n (fun _ => []) IH _ _ FV ltac:(intros; own) K) _ _ _ E0 T) as [A B]. split; [|exact B]. apply fit_scope; auto.
  - inv_bind E. destruct q as [its t1]. injection E as <- <-. destruct (emits_fit _ _ (list_fit F n e [] IH ltac:(own) _ FV K) _ _ _ E0 T) as [A B]. split; [|exact B]. apply fit_scope; auto.
  - inv_bind E. destruct q as [its t1]. injection E as <- <-. destruct (emits_fit _ _ (list_fit F n e [] IH ltac:(own) _ FV K) _ _ _ E0 T) as [A B]. split; [|exact B]. apply fit_scope; auto.
  - destruct (Nat.eqb _ _); [|discriminate]. inv_bind E. destruct q as [its t1]. injection E as <- <-. destruct (emits_fit _ _ (list_fit F n e [] IH ltac:(own) _ FV K) _ _ _ E0 T) as [A B]. split; [|exact B]. apply fit_scope; auto.
  - inv_bind E. destruct q as [its t1]. injection E as <- <-. cbn [tab_keys] in K.
    assert (Q : Forall fit_doc its /\ tab_fine t1).
    { refine (emits_fit _ _ _ _ _ _ E0 T). clear - IH FK FV K. induction l as [|[a b] l IL]; [constructor|]. cbn [map flat_map fst snd] in *. inversion FK as [|? ? K1 K2]; inversion FV as [|? ? V1 V2]; subst.
      apply Forall_app in K. destruct K as [K3 K4]. apply Forall_app in K3. destruct K3 as [K5 K6]. constructor; [|auto]. cbn [fst snd]. intros tb d tb' E T.
      inv_bind E. destruct q as [d1 t2]. inv_bind E. destruct q as [d2 t3]. injection E as <- <-. destruct (IH n _ _ _ _ _ _ E0 K1 ltac:(own) K5 T) as [A1 A2]. destruct (IH n _ _ _ _ _ _ E1 V1 ltac:(own) K6 A2) as [B1 B2].
      split; [|exact B2]. apply fit_scope; [own|now left|auto]. }
    destruct Q as [A B]. split; [|exact B]. apply fit_scope; auto.
  - inv_bind E. destruct q as [its t1]. injection E as <- <-. cbn [tab_keys] in K.
    assert (Q : Forall fit_doc its /\ tab_fine t1).
    { refine (emits_fit _ _ _ _ _ _ E0 T). clear - IH FV K. induction l as [|[a b] l IL]; [constructor|]. cbn [map flat_map fst snd app] in *. inversion FV as [|? ? V1 V2]; subst.
      inversion K as [|? ? K1 K2]; subst. apply Forall_app in K2. destruct K2 as [K3 K4]. constructor; [|auto]. cbn [fst snd]. intros tb d tb' E T. eapply IH; eauto. }
    destruct Q as [A B]. split; [|exact B]. apply fit_scope; auto.
  - inv_bind E. destruct q as [d1 t2]. inv_bind E. destruct q as [d2 t3]. injection E as <- <-. cbn [tab_keys flat_map] in K. rewrite app_nil_r in K. apply Forall_app in K. destruct K as [K1 K2].
    destruct (IH n _ _ _ _ _ _ E0 OA ltac:(own) K1 T) as [A1 A2]. destruct (IH n _ _ _ _ _ _ E1 OB ltac:(own) K2 A2) as [B1 B2]. split; [|exact B2]. apply fit_scope; auto.
  - eapply IH; eauto.
  - eapply IH; eauto.
  - injection E as <- <-. split; [now apply fit_null|exact T].
  - rewrite HA in E. unfold insert_shared in E. destruct (tab_key a tab) as [key|] eqn:EK.
    + injection E as <- <-. split; [|exact T]. apply fit_scope; auto. constructor; [|constructor]. apply fit_key; [own|]. eapply tab_fine_key; eauto.
    + inv_bind E. destruct q as [d1 t2]. injection E as <- <-. pose proof (tab_fine_push _ _ _ _ T HA EK) as T1. destruct (proj1 HEAP _ _ _ HA) as [m OM]. destruct (IH _ _ _ _ _ _ _ E0 OM ltac:(own) (NH _ _ _ HA) T1) as [A B]. split; [|exact B].
      apply fit_scope; auto. constructor; [|auto]. apply fit_key; [own|]. pose proof (tab_fine_len _ T1) as L. destruct HEAP as [_ HL]. unfold zlen in *. rewrite app_length in L. cbn [length] in L. lia.
  - rewrite HA in E. unfold insert_shared in E. destruct (tab_key a tab) as [key|] eqn:EK.
    + injection E as <- <-. split; [|exact T]. apply fit_scope; auto. constructor; [|constructor]. apply fit_key; [own|]. eapply tab_fine_key; eauto.
    + inv_bind E. destruct q as [d1 t2]. injection E as <- <-. pose proof (tab_fine_push _ _ _ _ T HA EK) as T1. destruct (proj1 HEAP _ _ _ HA) as [m OM]. destruct (IH _ _ _ _ _ _ _ E0 OM ltac:(own) (NH _ _ _ HA) T1) as [A B]. split; [|exact B].
      apply fit_scope; auto. constructor; [|auto]. apply fit_key; [own|]. pose proof (tab_fine_len _ T1) as L. destruct HEAP as [_ HL]. unfold zlen in *. rewrite app_length in L. cbn [length] in L. lia.
  - destruct (Nat.eqb _ _); [|discriminate]. inv_bind E. destruct q as [its t1]. injection E as <- <-.
    destruct (emits_fit _ _ (fields_fit F n f_name IH _ _ FV (NC c) K) _ _ _ E0 T) as [A B]. split; [|exact B]. apply fit_scope; auto. constructor; [|exact A].
    apply fit_val; [own|]. exact (kept_value (CStr EUTF8) (VStr (w_id w c)) _ LF eq_refl).
Qed.
Lemma stored_fit F n t v name d tab' : stored_doc F w hp t v name [] = Ok (d, tab') -> ok n t v -> name_fits p name -> Forall (name_fits p) (tab_keys v) -> fit_doc d.
Proof.
  assert (T0 : tab_fine []) by (split; [intros [|i] a k H; discriminate H|split; constructor]).
  unfold stored_doc. intros E O N K. destruct (null_root t v); [discriminate|]. destruct (scoped t).
  - now destruct (emit_fit _ _ _ _ _ _ _ _ E O N K T0).
  - inv_bind E. destruct q as [d1 t1]. injection E as <- <-. apply fit_scope; auto. constructor; [|constructor]. now destruct (emit_fit _ _ _ _ _ _ _ _ E0 O ltac:(own) K T0).
Qed.
End Fit.
Lemma heap_typed w hp lev leaf : S_ObjStore.heap_ok w hp lev leaf -> (forall a e y, nth_error hp a = Some (e, y) -> exists m, storable w hp lev leaf m e y) /\ zlen hp < two64.
Proof. intros [H L]. split; [|exact L]. intros a e y E. exists (lev a). now apply H. Qed.

Lemma utf8_size : forall d u, utf8_doc d u -> length (events u) = length (events d) /\ depth u = depth d /\ (small_scopes d -> small_scopes u).
Proof.
  induction d as [k v|k t its IH] using doc_ind2; intros u U; inversion U as [|? ? ? its' F]; subst; [auto|]. cbn [events]. rewrite !depth_scope, !small_scopes_scope. clear U.
  assert (Q : length (flat_map events its') = length (flat_map events its) /\ deepest its' = deepest its /\ length its' = length its /\ (Forall small_scopes its -> Forall small_scopes its')).
  { revert IH. induction F as [|a b l l' H F IF]; intros IH; [auto|]. inversion IH as [|? ? I1 I2]; subst. destruct (I1 _ H) as (A1 & A2 & A3). destruct (IF I2) as (B1 & B2 & B3 & B4).
    cbn [flat_map length]. rewrite !app_length, A1, B1, B3. unfold deepest in *. cbn [fold_right]. rewrite A2, B2. repeat split; auto. intros X. inversion X; subst. auto. }
  destruct Q as (Q1 & Q2 & Q3 & Q4). cbn [length]. rewrite !app_length, Q1, Q2. unfold zlen. rewrite Q3. repeat split; tauto.
Qed.
Theorem object_kept w p hp lev n t v name old : regular w -> constructs w -> S_ObjStore.heap_ok w hp lev (carried (w_fp w) p) -> storable w hp lev (carried (w_fp w) p) n t v -> shape w t old ->
  name_fits p name -> names_fit w p hp v ->
  exists d tab size, (forall F, (size <= F)%nat -> stored_doc F w hp t v name [] = Ok (d, tab)) /\
  (size_fits p d -> exists bs c s r, stores_as w hp p name t v bs /\ restores_as w p bs t old c s /\ unwraps_as w p bs t old c s /\ same_object r v c /\ same_heap r hp (r_heap s) /\
    exists dn size', deep_enough dn /\ says size' w true t old dn rs_new = Ok (c, s) /\
      forall q F before rest, same_format p q -> (size' <= F)%nat -> holds (w_fp w) F q (mkBlk before (bs ++ rest)) dn).
Proof.
  intros RG NW HP ST SH N (NC & NV & NH). destruct (store_restore w p _ hp lev n t v name old (fun t v H => proj1 H) RG NW HP ST SH) as (d & tab & size & TOT & G). exists d, tab, size. split; [exact TOT|].
  intros [D SZ]. destruct (stored_fit w p hp lev (heap_typed _ _ _ _ HP) NC NH size n t v name d tab (TOT size (le_n _)) ST N NV) as (u & U & W & V & J). destruct (utf8_size _ _ U) as (S1 & S2 & S3).
  assert (C : carries (w_fp w) p u).
  { split; [exact W|]. split.
    - specialize (TOT size (le_n _)). assert (Sc : is_sc d = true).
      { unfold stored_doc in TOT. destruct (null_root t v); [discriminate|]. destruct (scoped t) eqn:SC.
        - destruct (proj2 (emit_head w hp lev (carried (w_fp w) p) (fun t v sv H => leaf_solid p t v sv (proj1 H)) _ _ _ _ _ _ _ TOT) n ST) as [K _]. now rewrite SC in K.
        - apply bind_ok in TOT. destruct TOT as ([d1 t1] & _ & E). injection E as <- <-. reflexivity. }
      destruct d; [discriminate Sc|]. inversion U; subst. exact I.
    - destruct p; [|auto|].
      + split; [exact V|lia].
      + split; [exact V|]. now apply J. }
  destruct (G u U C ltac:(lia)) as (p' & bs & size' & G1 & c & s & r & G2 & G3 & G4 & G5 & dn & G6).
  exists bs, c, s, r. split; [now exists size', p'|]. split; [now exists size'|]. do 3 (split; [assumption|]). now exists dn, size'.
Qed.
