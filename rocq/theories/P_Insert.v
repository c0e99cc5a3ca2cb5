(** Objects put into a tree and taken out again. *)
From Coq Require Import ZArith List Bool Lia ZifyBool ZifyNat.
From Verif Require Import Base Lemmas M_Types M_Conv M_TpTools M_Charset M_In S_Conv S_Charset S_Doc M_OutOps S_Out M_Env M_Event S_PSrl M_PSrl S_MsgPack M_MsgPack S_Json M_Json
  M_Heap M_Out M_Tree S_Tree M_TreeIO S_TreeIO M_Object S_Object S_Chars S_ObjStore M_ObjIO S_ObjIO M_Pack S_Pack M_Insert S_Insert P_Conv P_Float P_FloatInt P_Paste P_Doc P_Text P_Charset P_Chars
  P_Tree P_TreeOps P_TreeIO P_ObjPart P_Pack P_Again P_ObjIO P_ObjEager P_ObjLazy S_ObjStore P_ObjStore.
Import ListNotations.
Open Scope Z_scope.

(** * Values *)
Lemma any_number x t n : cpp_value false (CNum t) (VNum n) -> paste_number x t (num_value t n) = Ok n.
Proof.
  intros C. destruct (is_int_ty t) eqn:It.
  - assert (R : in_range t n) by (unfold in_range; destruct t; try discriminate It; exact C).
    assert (E : num_value t n = val_int t n) by (destruct t; try discriminate It; reflexivity). rewrite E. apply paste_back; auto; unfold int_or_bool; destruct t; try discriminate It; cbn; tauto.
  - destruct t; try discriminate It; cbn [cpp_value] in C; try contradiction; cbn [num_value].
    + apply paste_back; try (unfold int_or_bool; cbn; tauto); unfold in_range; cbn; lia.
    + apply paste_f32. unfold_words. lia.
    + apply paste_f64. unfold_words. lia.
Qed.
Lemma any_back w t v sv old : shape w t old -> any_value t v -> leaf_value t v = Some sv -> paste_value w t old sv = Ok v.
Proof.
  intros SH [C U] L. destruct t as [t|e|e|e n| |c|e|e|k e|e|m e|a b|c|e|e|e|e|]; try discriminate L; destruct v as [z|s|vs|l|l| |y|a0|c0 vs]; try discriminate L.
  4: { destruct (chars_leaf (PsrlP psrl_init) e n s sv C L) as (-> & s0 & P & -> & LS). inversion SH as [? ? X| | | | |]; subst; [contradiction|]. cbn [paste_value]. destruct P as (-> & L1 & NI).
       assert (D : trunc_block s0 = s0) by (apply trunc_block_id; unfold_words; lia).
       rewrite (paste_padded n s0 (val_string s0 EUTF8)) by (auto; pose proof (zlen_nonneg s0); lia). reflexivity. }
  all: injection L as <-.
  - cbn [paste_value]. now rewrite (any_number _ _ _ C).
  - cbn [cpp_value] in C. cbn [paste_value]. unfold val_string. cbn [v_type val_block_enc v_enc v_data ty_eqb ty_num Z.eqb Pos.eqb]. rewrite trunc_block_id by (unfold_words; lia).
    unfold unwrap_text. replace (enc_eqb e e) with true by (now destruct e). cbn [rbind]. now rewrite firstn_units.
  - cbn [cpp_value] in C. assert (L' : zlen s < 2 ^ 32) by (rewrite C; destruct e; reflexivity). cbn [paste_value]. unfold paste_char, val_string. cbn [v_type val_block_enc v_enc v_data ty_eqb ty_num Z.eqb Pos.eqb negb andb].
    rewrite trunc_block_id by (unfold_words; lia). replace (enc_eqb e e) with true by (now destruct e). cbn [rbind]. now rewrite C, Z.eqb_refl.
  - cbn [cpp_value] in C. cbn [paste_value val_block v_type val_block_enc v_data]. now rewrite trunc_block_id by (unfold_words; lia).
Qed.
Lemma any_solid t v sv : any_value t v -> leaf_value t v = Some sv -> v_type sv <> TNull.
Proof. intros [C _]. apply (leaf_solid (PsrlP psrl_init)). exact C. Qed.
Lemma any_key w k old : 0 <= k < two64 -> paste_value w (CNum TUI64) old (val_int TUI64 k) = Ok (VNum k).
Proof.
  intros R. cbn [paste_value]. assert (IR : in_range TUI64 k) by (unfold in_range; cbn [int_min int_max]; unfold_words; lia). now rewrite paste_back by (auto; unfold int_or_bool; cbn; tauto).
Qed.
Lemma any_text s : any_value (CStr EUTF8) (VStr s) -> v_type (val_string s EUTF8) = TString /\ v_data (val_string s EUTF8) = s /\ v_enc (val_string s EUTF8) = EUTF8.
Proof. intros [C _]. cbn [cpp_value] in C. split; [reflexivity|]. split; [|reflexivity]. cbn. apply trunc_block_id. unfold_words. lia. Qed.
Lemma any_leaf t v : any_value t v -> match t with CNum _ | CStr _ | CChar _ | CChars _ _ | CBits => exists sv, leaf_value t v = Some sv | _ => True end.
Proof. intros [C _]. now apply (cpp_leaf false). Qed.

Fixpoint like_refl (d : doc) : forall nm, like eq nm d d.
Proof.
  destruct d as [k v|k t its]; intros nm; [now constructor|]. constructor; [reflexivity|]. revert its. fix go 1. intros [|x its]; [constructor|]. constructor; [apply like_refl|apply go].
Qed.

(** * Inserting *)
Lemma insert_docs_go its : forall c, (fix go (l : list doc) (c : node) : res node := match l with [] => Ok c | x :: l' => let* c' := insert_doc x c in go l' c' end) its c = insert_docs its c.
Proof. induction its as [|x its IH]; intros c; [reflexivity|]. cbn [insert_docs]. destruct (insert_doc x c); cbn [rbind]; auto. Qed.
Definition node_of (t : ty) (its : list doc) : node := mkNode t (vals_of its) (subs_of its).
Lemma subs_app a b : subs_of (a ++ b) = subs_of a ++ subs_of b. Proof. unfold subs_of. apply flat_map_app. Qed.
Lemma vals_app a b : vals_of (a ++ b) = vals_of a ++ vals_of b. Proof. unfold vals_of. apply flat_map_app. Qed.
Lemma insert_docs_from its : Forall (fun d => forall t ds, insert_doc d (node_of t ds) = Ok (node_of t (ds ++ [d]))) its ->
  forall t ds, insert_docs its (node_of t ds) = Ok (node_of t (ds ++ its)).
Proof.
  induction 1 as [|d its H _ IH]; intros t ds; cbn [insert_docs]; [now rewrite app_nil_r|]. rewrite H. cbn [rbind]. rewrite IH, <- app_assoc. reflexivity.
Qed.
Lemma insert_doc_eq : forall d t ds, insert_doc d (node_of t ds) = Ok (node_of t (ds ++ [d])).
Proof.
  apply (doc_ind2 (fun d => forall t ds, insert_doc d (node_of t ds) = Ok (node_of t (ds ++ [d])))).
  - intros k v t ds. cbn [insert_doc]. unfold store_value. rewrite store_string_utf8. unfold node_of. cbn [rbind n_type n_values n_nodes]. rewrite vals_app, subs_app. cbn. now rewrite app_nil_r.
  - intros k ty its H t ds. cbn [insert_doc]. rewrite insert_docs_go. change (empty_node ty) with (node_of ty []). rewrite insert_docs_from by exact H. cbn [rbind app]. unfold store_node. rewrite store_string_utf8.
    unfold node_of at 1. cbn [rbind n_type n_values n_nodes]. unfold node_of. rewrite vals_app, subs_app. change (subs_of [DScope k ty its]) with [(k, doc_node (DScope k ty its))]. rewrite doc_node_eq. cbn [vals_of flat_map app]. now rewrite app_nil_r.
Qed.
Lemma insert_docs_eq its t ds : insert_docs its (node_of t ds) = Ok (node_of t (ds ++ its)).
Proof. apply insert_docs_from. apply Forall_forall. intros d _. apply insert_doc_eq. Qed.
Lemma any_node n : exists its, n = node_of (n_type n) its.
Proof.
  destruct (tree_doc_scope [] n) as (ty & its & E). assert (D : doc_node (DScope [] ty its) = n) by (rewrite <- E; apply doc_node_tree). exists its. rewrite <- D, doc_node_eq. reflexivity.
Qed.
Lemma names_node t its k : In k (map doc_name its) -> In k (names_in (node_of t its)).
Proof.
  unfold names_in, node_of. cbn [n_values n_nodes]. intros H. apply in_or_app. induction its as [|[k' v|k' ty l] its IH]; [easy| |]; cbn [map doc_name] in H; cbn [vals_of subs_of flat_map app map fst] in *.
  - destruct H as [->|H]; [left; now left|]. destruct (IH H) as [I|I]; [left; now right|now right].
  - destruct H as [->|H]; [right; now left|]. destruct (IH H) as [I|I]; [now left|right; now right].
Qed.

Lemma all_refl (r : nat -> nat -> Prop) vs : Forall (fun v => plain v = true -> same_object r v v) vs -> forallb plain vs = true -> Forall2 (same_object r) vs vs.
Proof. induction 1; cbn [forallb]; intros P; constructor; apply andb_prop in P; destruct P; auto. Qed.

Section Run.
Variables (w : world) (hp : heap_t) (lev : nat -> nat) (n : nat).
Hypothesis REG : regular w.
Hypothesis NEW : constructs w.
Hypothesis HEAP : S_ObjStore.heap_ok w hp lev any_value.
Notation ok := (storable w hp lev any_value n).
Notation invr := (invar hp lev n).

Lemma kept_any F t v name tab d tab' old s : emit F w hp t v name tab = Ok (d, tab') -> ok t v -> shape w t old -> invr tab s ->
  exists c s', dchild w true (said F w true) t old d s = Ok (c, s') /\ same_object (refs tab' s') v c /\ invr tab' s' /\ ext tab s tab' s'.
Proof.
  intros E O SH I. refine (all_kept w hp lev any_value eq REG NEW HEAP _ _ _ _ _ F n t v true name tab d tab' d old s E O SH (like_refl d true) I).
  - intros t0 v0 sv v' o S A L <-. now apply any_back.
  - intros t0 v0 sv. apply any_solid.
  - intros sv v' <-. tauto.
  - intros k v' o R <-. now apply any_key.
  - intros s0 v' A <-. now apply any_text.
Qed.
Lemma same_heaps tab s : invr tab s -> ext [] rs_new tab s -> same_heap (refs tab s) hp (r_heap s).
Proof.
  intros (T & C & K & J & _) X. split; [|split].
  - intros a b b' (k & A1 & A2) (k' & B1 & B2). congruence.
  - intros a a' b (k & A1 & A2) (k' & B1 & B2). assert (k = k') by eauto. subst k'. eauto using tab_key_inj.
  - intros a b (k & A1 & A2). destruct (C _ _ A1) as [[_ N]|(b' & e & x & c & C1 & C2 & C3 & C4)]; [congruence|]. assert (b' = b) by congruence. subst b'. eauto 10.
Qed.

Variable G : nat.
Definition emits_at (i : item) : Prop := forall tab, exists r, emit G w hp (i_type i) (i_val i) (i_name i) tab = Ok r.
(** the items whose turn has not come: their documents are in the tree *)
Fixpoint chain (ds : list doc) (todo : list item) (tab tab' : shared_tab) : Prop :=
  match todo with
  | [] => tab' = tab
  | i :: todo' => exists d tab1, emit G w hp (i_type i) (i_val i) (i_name i) tab = Ok (d, tab1) /\ In d ds /\ chain ds todo' tab1 tab'
  end.
Lemma chain_snoc ds d i tab2 : forall todo tab tab1, chain ds todo tab tab1 -> emit G w hp (i_type i) (i_val i) (i_name i) tab1 = Ok (d, tab2) -> chain (ds ++ [d]) (todo ++ [i]) tab tab2.
Proof.
  induction todo as [|j todo IH]; cbn [chain app]; intros tab tab1 C E.
  - subst tab1. exists d, tab2. split; [exact E|]. split; [apply in_or_app; right; now left|reflexivity].
  - destruct C as (dj & tabj & Ej & Ij & C). exists dj, tabj. split; [exact Ej|]. split; [apply in_or_app; now left|eauto].
Qed.
(** an inserted item and its document *)
Definition put (i : item) (d : doc) : Prop := exists tab tab', emit G w hp (i_type i) (i_val i) (i_name i) tab = Ok (d, tab').
Lemma put_plain i d : put i d -> plain (i_val i) = true -> forall tab, emit G w hp (i_type i) (i_val i) (i_name i) tab = Ok (d, tab).
Proof.
  intros (t1 & t2 & E) P tab. destruct (plain_untouched w hp G (i_val i) (i_type i) (i_name i) P) as [r H]. rewrite H in *. destruct r as [d'| | |]; try discriminate E. cbn [rbind] in *. injection E as -> _. reflexivity.
Qed.
Lemma doc_of i d : put i d -> ok (i_type i) (i_val i) -> doc_name d = i_name i /\ is_sc d = scoped (i_type i).
Proof.
  intros (t1 & t2 & E) O. destruct (emit_head w hp lev any_value any_solid _ _ _ _ _ _ _ E) as [H1 H2]. split; [exact H1|]. now apply (H2 n).
Qed.
Lemma pick its0 ds d ty F t k old s c s' : NoDup (map doc_name ds) -> In d ds -> doc_name d = k -> is_sc d = scoped t -> Forall (fun x => doc_name x <> k) its0 ->
  (G <= F)%nat -> dchild w true (said G w true) t old d s = Ok (c, s') ->
  paste_field w (paste_node F w) F t (IdName k) old (mkL true (node_of ty (its0 ++ ds))) s = ERet (c, mkL true (node_of ty (its0 ++ ds)), s').
Proof.
  intros ND I N K N0 L D. apply in_split in I. destruct I as (pre & post & ->).
  assert (NP : Forall (fun x => doc_name x <> k) pre).
  { apply Forall_forall. intros x Ix Ex. rewrite map_app in ND. cbn [map] in ND. apply NoDup_remove_2 in ND. apply ND. apply in_or_app. left. rewrite N, <- Ex. now apply in_map. }
  change (mkL true (node_of ty (its0 ++ pre ++ d :: post))) with (pnode ty (its0 ++ pre ++ d :: post)).
  rewrite (eager_field w F (paste_node F w) (said F w false)) by (intros; apply eager_said).
  assert (E : dfield w false (said F w false) t (IdName k) old (its0 ++ pre ++ d :: post) s = Ok (c, s', S (length (its0 ++ pre)))).
  { apply (weak_field w true false ltac:(discriminate) (said G w true) (said F w false)); [intros; eapply said_more; [| |eassumption]; [discriminate|exact L]|].
    rewrite app_assoc. apply field_name; auto. apply Forall_app. now split. }
  now rewrite E.
Qed.

Lemma put_names done ds : Forall2 put done ds -> map doc_name ds = map i_name done.
Proof. induction 1 as [|i d done ds (t1 & t2 & E) _ IH]; [reflexivity|]. cbn [map]. f_equal; [|exact IH]. exact (emit_name w hp lev any_value any_solid _ _ _ _ _ _ _ E). Qed.
Lemma put_in done ds i : Forall2 put done ds -> In i done -> exists d, In d ds /\ put i d.
Proof. induction 1 as [|j d done ds P _ IH]; intros I; [easy|]. destruct I as [->|I]; [exists d; split; [now left|exact P]|]. destruct (IH I) as (d' & I' & P'). exists d'. split; [now right|exact P']. Qed.
Lemma apart (its0 : list doc) there (done : list item) i : incl (map doc_name its0) there -> Forall (fun i => ~ In (i_name i) there) done -> In i done -> Forall (fun x => doc_name x <> i_name i) its0.
Proof. intros H N I. apply Forall_forall. intros x Ix E. rewrite Forall_forall in N. apply (N _ I), H. rewrite <- E. now apply in_map. Qed.
Lemma plain_refl r : forall v, plain v = true -> same_object r v v.
Proof.
  apply (cv_ind2 (fun v => plain v = true -> same_object r v v)); cbn [plain]; intros; try discriminate; constructor; auto.
  - apply all_refl; assumption.
  - apply all_refl; [assumption|]. rewrite forallb_forall in *. intros x I. apply in_map_iff in I. destruct I as (q & <- & I). specialize (H1 _ I). now apply andb_prop in H1.
  - apply all_refl; [assumption|]. rewrite forallb_forall in *. intros x I. apply in_map_iff in I. destruct I as (q & <- & I). specialize (H1 _ I). now apply andb_prop in H1.
  - apply all_refl; [assumption|]. rewrite forallb_forall in *. intros x I. apply in_map_iff in I. destruct I as (q & <- & I). exact (H0 _ I).
  - apply all_refl; assumption.
Qed.
Lemma alone_child i d old : put i d -> ok (i_type i) (i_val i) -> free w i -> shape w (i_type i) old -> forall s0, dchild w true (said G w true) (i_type i) old d s0 = Ok (i_val i, s0).
Proof.
  intros P O [PL (U & U1 & U2 & U3)] SH s0. pose proof (put_plain i d P PL []) as E.
  destruct (kept_any G _ _ _ _ _ _ old rs_new E O SH (invar_new hp lev n)) as (c & s & D & S & _). apply plain_same in S; [subst c|exact PL].
  destruct (al_child w true (said G w true) U (fun t o e Ut => al_said w true U U2 U3 G t o e Ut) _ old d U1 _ _ _ D) as [_ A]. apply A.
Qed.

Theorem ops_run there its0 ty : forall done todo ops vs, in_turn w hp there done todo ops vs ->
  incl (map doc_name its0) there -> Forall (fun i => ~ In (i_name i) there) done -> NoDup (map i_name done) -> incl todo done ->
  Forall emits_at (inserted ops) -> Forall (fun i => ok (i_type i) (i_val i)) (done ++ inserted ops) ->
  forall ds tab tabz s, Forall2 put done ds -> chain ds todo tab tabz -> invr tab s -> ext [] rs_new tab s ->
  exists cs T tab', (forall F, (G <= F)%nat -> run_ops F w ops (mkTree (node_of ty (its0 ++ ds)) tabz s) = ERet (cs, T)) /\ Forall2 (same_object (refs tab' (t_objs T))) vs cs /\
    invr tab' (t_objs T) /\ ext [] rs_new tab' (t_objs T) /\ ext tab s tab' (t_objs T).
Proof.
  induction 1 as [done todo|done todo i ops vs NT ND IT IH|done todo i o ops vs E1 E2 SH IT IH|done todo i o ops vs Ii Fr E1 E2 SH IT IH|done todo i ops vs Fr IT IH];
    intros T0 TD NDd TI EM OK ds tab tabz s PU CH IV EX.
  - exists [], (mkTree (node_of ty (its0 ++ ds)) tabz s), tab. split; [reflexivity|]. split; [constructor|]. split; [exact IV|]. split; [exact EX|apply ext_refl].
  - cbn [inserted flat_map app] in EM, OK. inversion EM as [|? ? EM1 EM2]; subst. destruct (EM1 tabz) as [[d tab2] E].
    assert (IH' : exists cs T tab', (forall F, (G <= F)%nat -> run_ops F w ops (mkTree (node_of ty (its0 ++ ds ++ [d])) tab2 s) = ERet (cs, T)) /\ Forall2 (same_object (refs tab' (t_objs T))) vs cs /\
       invr tab' (t_objs T) /\ ext [] rs_new tab' (t_objs T) /\ ext tab s tab' (t_objs T)).
    { apply IH; auto.
      + apply Forall_app. auto.
      + rewrite map_app. cbn [map]. apply (Permutation.Permutation_NoDup (l := i_name i :: map i_name done)); [apply Permutation.Permutation_cons_append|]. now constructor.
      + apply incl_app; [now apply incl_appl|apply incl_appr, incl_refl].
      + rewrite <- app_assoc. exact OK.
      + apply Forall2_app; [exact PU|]. constructor; [|constructor]. exists tabz, tab2. exact E.
      + eapply chain_snoc; eauto. }
    destruct IH' as (cs & T & tab' & R & REST). exists cs, T, tab'. split; [|exact REST]. intros F L. cbn [run_ops].
    unfold insert_root, insert_object. cbn [t_store t_root t_objs]. rewrite (emit_more _ _ _ F _ _ _ _ _ L E). cbn [rbind]. rewrite insert_doc_eq. cbn [rbind elift ebind]. rewrite <- app_assoc. now apply R.
  - cbn [chain] in CH. destruct CH as (d & tab1 & E & Id & CH). assert (P : put i d) by (now exists tab, tab1).
    assert (O : ok (i_type i) (i_val i)). { rewrite Forall_forall in OK. apply OK, in_or_app. left. apply TI. now left. }
    destruct (doc_of i d P O) as [DN DK]. assert (Ii : In i done) by (apply TI; now left). rewrite E2 in SH.
    destruct (kept_any G _ _ _ _ _ _ (i_val o) s E O SH IV) as (c & s1 & D & S & IV1 & X1).
    destruct (IH T0 TD NDd ltac:(intros x Hx; apply TI; now right) EM OK ds tab1 tabz s1 PU CH IV1 (ext_trans _ _ _ _ _ _ (proj1 IV) EX X1)) as (cs & T & tab' & R & SO & IV2 & EX2 & X2).
    exists (c :: cs), T, tab'. split; [|split; [constructor; [|exact SO]; exact (so_ext _ _ _ _ _ _ (proj1 IV1) X2 S)|]; split; [exact IV2|]; split; [exact EX2|]; exact (ext_trans _ _ _ _ _ _ (proj1 IV1) X1 X2)].
    intros F L. cbn [run_ops]. unfold paste_root. cbn [t_root t_objs t_store]. rewrite E1, E2.
    rewrite (pick its0 ds d ty F _ _ _ s c s1); auto; [|now rewrite (put_names _ _ PU)|eapply apart; eauto]. cbn [ebind fst snd]. rewrite (R F L). reflexivity.
  - assert (O : ok (i_type i) (i_val i)). { rewrite Forall_forall in OK. apply OK, in_or_app. now left. }
    destruct (put_in _ _ i PU Ii) as (d & Id & P). destruct (doc_of i d P O) as [DN DK]. rewrite E2 in SH. pose proof (alone_child i d (i_val o) P O Fr SH s) as D.
    destruct (IH T0 TD NDd TI EM OK ds tab tabz s PU CH IV EX) as (cs & T & tab' & R & SO & REST).
    exists (i_val i :: cs), T, tab'. split; [|split; [constructor; [|exact SO]; apply plain_refl; apply Fr|exact REST]].
    intros F L. cbn [run_ops]. unfold paste_root. cbn [t_root t_objs t_store]. rewrite E1, E2.
    rewrite (pick its0 ds d ty F _ _ _ s (i_val i) s); auto; [|now rewrite (put_names _ _ PU)|eapply apart; eauto]. cbn [ebind fst snd]. rewrite (R F L). reflexivity.
  - cbn [chain] in CH. destruct CH as (d & tab1 & E & Id & CH). pose proof (put_plain i d (ex_intro _ tab (ex_intro _ tab1 E)) (proj1 Fr) tab) as E'. rewrite E' in E. injection E as <-.
    apply IH; auto. intros x Hx. apply TI. now right.
Qed.
End Run.

Lemma emits_enough w hp lev n : S_ObjStore.heap_ok w hp lev any_value -> forall its, Forall (fun i => storable w hp lev any_value n (i_type i) (i_val i)) its -> exists G, Forall (emits_at w hp G) its.
Proof.
  intros HEAP. induction 1 as [|i its O _ [G IH]]; [exists 0%nat; constructor|]. destruct (emit_total w hp lev any_value HEAP any_leaf n _ _ O (i_name i)) as [F0 T].
  exists (Nat.max F0 G). constructor.
  - intros tab. apply T. lia.
  - eapply Forall_impl; [|exact IH]. intros j H tab. destruct (H tab) as [r E]. exists r. revert E. apply emit_more. lia.
Qed.
Theorem taken_out w hp lev n n0 ops vs : regular w -> constructs w -> S_ObjStore.heap_ok w hp lev any_value ->
  Forall (fun i => storable w hp lev any_value n (i_type i) (i_val i)) (inserted ops) -> in_turn w hp (names_in n0) [] [] ops vs ->
  exists size cs T r, (forall F, (size <= F)%nat -> run_ops F w ops (mkTree n0 [] rs_new) = ERet (cs, T)) /\ Forall2 (same_object r) vs cs /\ same_heap r hp (r_heap (t_objs T)).
Proof.
  intros REG NEW HEAP O IT. destruct (emits_enough w hp lev n HEAP _ O) as [G EM]. destruct (any_node n0) as [its0 E0].
  destruct (ops_run w hp lev n REG NEW HEAP G (names_in n0) its0 (n_type n0) [] [] ops vs IT) with (ds := @nil doc) (tab := @nil (nat * Z)) (tabz := @nil (nat * Z)) (s := rs_new) as (cs & T & tab' & R & SO & IV & EX & _).
  - intros k Hk. rewrite E0. now apply names_node.
  - constructor.
  - constructor.
  - easy.
  - exact EM.
  - exact O.
  - constructor.
  - reflexivity.
  - apply invar_new.
  - apply ext_refl.
  - exists G, cs, T, (refs tab' (t_objs T)). split; [|split; [exact SO|now apply (same_heaps hp lev n)]]. intros F L. rewrite <- (R F L). rewrite app_nil_r, <- E0. reflexivity.
Qed.

(** * A tree made from an object *)
Lemma step_root w b dn tp : is_scope tp = true -> forall t old k ty its s r, (forall e old r, takes tp e = true -> dn e old (DScope k ty its) s = Ok r -> dn e old (DScope k tp its) s = Ok r) ->
  takes tp t = true -> dstep w b dn t old k ty its s = Ok r -> dstep w b dn t old k tp its s = Ok r.
Proof.
  intros S t old k ty its s r D K. unfold dstep. cbv zeta. destruct t as [t|e|e|e m| |c|e|e|k0 e|e|m e|a0 b0|c|e|e|e|e|]; cbn [takes] in K; try exact (fun H => H); rewrite ?S, ?K; cbn [negb].
  all: try (destruct (is_scope ty); cbn [negb]; [exact (fun H => H)|discriminate]). all: try (destruct (ty_eqb ty TObject); cbn [negb]; [exact (fun H => H)|discriminate]).
  all: destruct (dn e (w_new w e) (DScope k ty its) s) as [[[x s1] u]| | |] eqn:E; cbn [rbind]; try discriminate; rewrite (D _ _ _ K E); exact (fun H => H).
Qed.
Lemma said_root w b tp : is_scope tp = true -> forall F t old k ty its s r, takes tp t = true -> said F w b t old (DScope k ty its) s = Ok r -> said F w b t old (DScope k tp its) s = Ok r.
Proof.
  intros S. induction F as [|F IH]; intros t old k ty its s r K H; [discriminate H|]. cbn [said] in *. revert H. apply step_root; eauto.
Qed.
Theorem loaded_object w hp lev n T t v old : regular w -> constructs w -> S_ObjStore.heap_ok w hp lev any_value -> storable w hp lev any_value n t v -> shape w t old ->
  is_scope (n_type (t_root T)) = true -> takes (n_type (t_root T)) t = true ->
  exists size T2 c T3 r, (forall F, (size <= F)%nat -> load_object F w hp t v T = Ok T2 /\ unwrap_root F w t old T2 = ERet (c, T3)) /\ same_object r v c /\ same_heap r hp (r_heap (t_objs T3)).
Proof.
  intros REG NEW HEAP O SH SC TK. set (tp := n_type (t_root T)) in *.
  destruct (emit_total w hp lev any_value HEAP any_leaf n _ _ O []) as [G EM]. destruct (EM G (le_n _) []) as [[d tab] E]. destruct (emit_head w hp lev any_value any_solid _ _ _ _ _ _ _ E) as [_ DK].
  destruct (DK n O) as [K _]. destruct (kept_any w hp lev n REG NEW HEAP G _ _ _ _ _ _ old rs_new E O SH (invar_new hp lev n)) as (c & s & D & SO & IV & EX).
  assert (NR : null_root t v = false) by (destruct O as [t0 v0 T0 _ _| | | | | | | | | | | | | |]; try reflexivity; destruct t0; try contradiction; reflexivity).
  set (its := if scoped t then items d else [d]). exists G, (mkTree (node_of tp its) tab rs_new), c, (mkTree (node_of tp its) tab s), (refs tab s).
  split; [|split; [exact SO|now apply (same_heaps hp lev n)]]. intros F L. pose proof (emit_more _ _ _ F _ _ _ _ _ L E) as EF. split.
  - unfold load_object. rewrite NR. unfold its. destruct (scoped t) eqn:S.
    + cbn [clear_tree t_store t_root t_objs]. rewrite EF. cbn [rbind]. destruct d as [|k ty l]; [discriminate K|]. change (empty_node (n_type (t_root T))) with (node_of tp []). rewrite insert_docs_eq. reflexivity.
    + unfold insert_root, insert_object. cbn [clear_tree t_store t_root t_objs i_type i_val i_name]. rewrite EF. cbn [rbind]. change (empty_node (n_type (t_root T))) with (node_of tp []). rewrite insert_doc_eq. reflexivity.
  - unfold unwrap_root. cbn [t_root t_objs t_store]. unfold node_of at 1. rewrite (eager_says F w t old (doc_name d)).
    assert (SY : says F w false t old (DScope (doc_name d) tp its) rs_new = Ok (c, s)); [|now rewrite SY].
    unfold says, its. destruct (scoped t) eqn:S.
    + destruct d as [|k ty l]; [discriminate K|]. cbn [items doc_name]. cbn [dchild] in D. destruct (said G w true t old (DScope k ty l) rs_new) as [[[c1 s1] u]| | |] eqn:E1; try discriminate D. cbn [rbind] in D.
      destruct (quiet true l u); [|discriminate D]. injection D as -> ->. assert (E2 : said F w false t old (DScope k ty l) rs_new = Ok (c, s, u)) by (eapply said_more; [| |exact E1]; [discriminate|exact L]).
      apply (said_root w false tp SC F _ _ _ _ _ _ _ TK) in E2. rewrite E2. reflexivity.
    + cbn [items]. apply (weak_child w true false ltac:(discriminate) (said G w true) (said F w false) ltac:(intros; eapply said_more; [| |eassumption]; [discriminate|exact L])) in D.
      unfold dfield, select. change (0 <? 0) with false. cbv iota. change (Z.to_nat 0) with 0%nat. cbn [nth_match]. unfold of_kind. rewrite K, S. cbn [Bool.eqb]. rewrite D. reflexivity.
Qed.

(** * What inserting changes *)
Theorem insert_adds F w hp i T T' : insert_root F w hp i T = Ok T' ->
  n_type (t_root T') = n_type (t_root T) /\ t_objs T' = t_objs T /\
  ((exists x, n_values (t_root T') = n_values (t_root T) ++ [(i_name i, x)] /\ n_nodes (t_root T') = n_nodes (t_root T)) \/
   (exists c, n_nodes (t_root T') = n_nodes (t_root T) ++ [(i_name i, c)] /\ n_values (t_root T') = n_values (t_root T))).
Proof.
  unfold insert_root, insert_object. destruct (emit F w hp _ _ _ _) as [[d tab]| | |] eqn:E; cbn [rbind]; try discriminate. destruct (any_node (t_root T)) as [its ->]. rewrite insert_doc_eq. cbn [rbind]. intros [= <-]. cbn [t_root t_objs].
  split; [reflexivity|]. split; [reflexivity|]. pose proof (emit_name w hp (fun _ => 0%nat) any_value any_solid _ _ _ _ _ _ _ E) as N. unfold node_of. cbn [n_values n_nodes n_type]. rewrite vals_app, subs_app. destruct d as [k v|k ty l]; cbn [doc_name] in N; subst k.
  - left. exists v. cbn. now rewrite app_nil_r.
  - right. eexists. cbn [vals_of flat_map]. rewrite app_nil_r. split; [reflexivity|reflexivity].
Qed.

(** * The tree of the stored object *)
Theorem load_stored F w hp t v T d tab : scoped t = true -> stored_doc F w hp t v [] [] = Ok (d, tab) -> is_sc d = true -> doc_type d = n_type (t_root T) ->
  load_object F w hp t v T = Ok (mkTree (doc_node d) tab rs_new).
Proof.
  unfold stored_doc, load_object. destruct (null_root t v); [discriminate|]. intros -> E K D. cbn [clear_tree t_store t_root t_objs]. rewrite E. cbn [rbind]. destruct d as [|k ty its]; [discriminate K|]. cbn [doc_type] in D. subst ty.
  change (empty_node (n_type (t_root T))) with (node_of (n_type (t_root T)) []). rewrite insert_docs_eq, doc_node_eq. reflexivity.
Qed.
