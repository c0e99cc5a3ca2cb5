(** Documents put together by hand. *)
From Coq Require Import ZArith List Bool Lia ZifyBool ZifyNat.
From Verif Require Import Base Lemmas M_Types M_Conv M_TpTools M_Charset M_In S_Conv S_Charset S_Doc M_OutOps S_Out M_Env M_Event S_PSrl M_PSrl S_MsgPack M_MsgPack S_Json M_Json
  M_Heap M_Out S_OutJobs P_Out P_Doc M_Tree S_Tree M_TreeIO S_TreeIO P_Tree P_TreeOps P_TreeIO M_Object S_Object M_ObjIO S_ObjIO S_ObjStore P_ObjIO M_Pack S_Pack P_Pack M_Insert S_Insert P_Insert M_Build S_Build.
Import ListNotations.
Open Scope Z_scope.

Section Ind.
  Variable P : ins -> Prop.
  Hypothesis H1 : forall i, P (InObj i).
  Hypothesis H2 : forall k v, P (InValue k v).
  Hypothesis H3 : forall k c own, P (InNode k c own).
  Hypothesis H4 : forall k t vs, P (InList k t vs).
  Hypothesis H5 : forall k tp a l, Forall P l -> P (InScope k tp a l).
  Fixpoint ins_ind2 (c : ins) : P c :=
    match c with
    | InObj i => H1 i | InValue k v => H2 k v | InNode k n o => H3 k n o | InList k t vs => H4 k t vs
    | InScope k tp a l => H5 k tp a l ((fix go (l : list ins) : Forall P l := match l with [] => Forall_nil _ | x :: l' => Forall_cons _ (ins_ind2 x) (go l') end) l)
    end.
End Ind.
Lemma unlisted_all l : (fix all (l : list ins) : Prop := match l with [] => True | x :: l' => unlisted x /\ all l' end) l <-> Forall unlisted l.
Proof. induction l as [|x l IH]; split; intros H; [constructor|exact I| |]. - destruct H. constructor; [assumption|]. now apply IH. - inversion H; subst. split; [assumption|]. now apply IH. Qed.
Lemma callable_all l : (fix all (l : list ins) : Prop := match l with [] => True | x :: l' => callable x /\ all l' end) l <-> Forall callable l.
Proof. induction l as [|x l IH]; split; intros H; [constructor|exact I| |]. - destruct H. constructor; [assumption|]. now apply IH. - inversion H; subst. split; [assumption|]. now apply IH. Qed.

(** * The tree *)
Lemma node_scope c : exists t its, forall k, tree_doc k c = DScope k t its.
Proof. destruct c as [t vs ns]. eexists. eexists. intros k. apply tree_doc_eq. Qed.
Lemma store_node_doc t ds k ty its : store_node (node_of t ds) (node_of ty its) (k, EUTF8) = Ok (node_of t (ds ++ [DScope k ty its])).
Proof.
  unfold store_node. rewrite store_string_utf8. cbn [rbind]. unfold node_of at 1. cbn [n_type n_values n_nodes]. unfold node_of. rewrite vals_app, subs_app.
  change (subs_of [DScope k ty its]) with [(k, doc_node (DScope k ty its))]. rewrite doc_node_eq. cbn [vals_of flat_map app]. now rewrite app_nil_r.
Qed.
Lemma own_node k n : exists ty its, tree_doc k n = DScope k ty its /\ n = node_of ty its.
Proof. destruct (node_scope n) as (ty & its & E). exists ty, its. split; [apply E|]. rewrite <- (doc_node_tree n k), E, doc_node_eq. reflexivity. Qed.

Section Stand.
Variables (w : world) (hp : heap_t).
Notation stands := (stands w hp). Notation all_stand := (all_stand w hp).

Lemma steps_objs F t : forall vs n tab, steps (put F w hp) (map (fun v => InObj (mkItem [] t v)) vs) (n, tab) = steps (fun v s => insert_object F w hp t v [] (snd s) (fst s)) vs (n, tab).
Proof.
  induction vs as [|v vs IH]; intros n tab; [reflexivity|]. cbn [map steps]. cbn [put i_type i_val i_name fst snd].
  destruct (insert_object F w hp t v [] tab n) as [[n1 t1]| | |]; cbn [rbind]; auto.
Qed.
Lemma built : (forall c tab d tab', stands c tab d tab' -> exists size, forall F t ds, (size <= F)%nat -> put F w hp c (node_of t ds, tab) = Ok (node_of t (ds ++ [d]), tab')) /\
  (forall l tab its tab', all_stand l tab its tab' -> exists size, forall F t ds, (size <= F)%nat -> steps (put F w hp) l (node_of t ds, tab) = Ok (node_of t (ds ++ its), tab')).
Proof.
  apply (stand_ind w hp (fun c tab d tab' => exists size, forall F t ds, (size <= F)%nat -> put F w hp c (node_of t ds, tab) = Ok (node_of t (ds ++ [d]), tab'))
    (fun l tab its tab' => exists size, forall F t ds, (size <= F)%nat -> steps (put F w hp) l (node_of t ds, tab) = Ok (node_of t (ds ++ its), tab'))).
  - intros i tab d tab' [size E]. exists size. intros F t ds L. cbn [put]. unfold insert_object. rewrite E by exact L. cbn [rbind]. rewrite insert_doc_eq. reflexivity.
  - intros k v tab. exists 0%nat. intros F t ds _. cbn [put]. unfold store_value. rewrite store_string_utf8. cbn [rbind]. unfold node_of. cbn [n_type n_values n_nodes]. rewrite vals_app, subs_app. cbn. now rewrite app_nil_r.
  - intros k n own tab. exists 0%nat. intros F t ds _. cbn [put]. destruct (own_node k n) as (ty & its & E & N). rewrite E. unfold store_foreign. rewrite rebuild_id. cbn [rbind]. rewrite N, store_node_doc. now destruct own.
  - intros k t vs tab ds tab' _ [size E]. exists size. intros F ty ds0 L. cbn [put]. rewrite <- steps_objs. change (empty_node TArray) with (node_of TArray []). rewrite E by exact L. cbn [rbind app]. rewrite store_node_doc. reflexivity.
  - intros k tp l tab ds tab' _ [size E]. exists size. intros F ty ds0 L. cbn [put negb]. change (empty_node tp) with (node_of tp []). rewrite E by exact L. cbn [rbind app]. rewrite store_node_doc. reflexivity.
  - intros tab. exists 0%nat. intros F t ds _. cbn [steps]. now rewrite app_nil_r.
  - intros c l tab d tab1 ds tab2 _ [s1 E1] _ [s2 E2]. exists (Nat.max s1 s2). intros F t ds0 L. cbn [steps]. rewrite E1 by lia. cbn [rbind]. rewrite E2 by lia. rewrite <- app_assoc. reflexivity.
Qed.

(** * What is written *)
Lemma write_node_doc : forall n k, write_node k n = stored_events (tree_doc k n).
Proof.
  induction n as [t vs ns IH] using node_ind'. intros k. rewrite tree_doc_eq. cbn [write_node stored_events]. rewrite flat_map_app, <- app_assoc.
  assert (V : flat_map stored_events (val_docs vs) = vs). { unfold val_docs. clear IH. induction vs as [|[a b] l IHl]; cbn; [reflexivity|now rewrite IHl]. }
  assert (N : flat_map (fun q => write_node (fst q) (snd q)) ns = flat_map stored_events (docs_of ns)).
  { unfold docs_of. induction IH as [|[a c] l E _ IHl]; [reflexivity|]. cbn [flat_map map fst snd]. cbn [snd] in E. now rewrite E, IHl. }
  now rewrite V, N.
Qed.
Lemma collect_objs F t : forall vs tab, collect (put_writes F w hp) (map (fun v => InObj (mkItem [] t v)) vs) tab =
  collect (fun v tab => let* (d, tab1) := emit F w hp t v [] tab in Ok (stored_events d, tab1)) vs tab.
Proof.
  induction vs as [|v vs IH]; intros tab; [reflexivity|]. cbn [map collect]. cbn [put_writes i_type i_val i_name].
  destruct (emit F w hp t v [] tab) as [[d t1]| | |]; cbn [rbind]; auto. now rewrite IH.
Qed.
Lemma collect_app {A} (f : A -> shared_tab -> res (list event * shared_tab)) : forall a b tab, collect f (a ++ b) tab =
  let* (es, t1) := collect f a tab in let* (es', t2) := collect f b t1 in Ok (es ++ es', t2).
Proof.
  induction a as [|x a IH]; intros b tab; cbn [app collect rbind].
  - destruct (collect f b tab) as [[es t1]| | |]; reflexivity.
  - destruct (f x tab) as [[e1 t1]| | |]; cbn [rbind]; try reflexivity. rewrite IH. destruct (collect f a t1) as [[e2 t2]| | |]; cbn [rbind]; try reflexivity.
    destruct (collect f b t2) as [[e3 t3]| | |]; cbn [rbind]; try reflexivity. now rewrite app_assoc.
Qed.
Lemma collect_one {A} (f : A -> shared_tab -> res (list event * shared_tab)) x tab : collect f [x] tab = f x tab.
Proof. cbn [collect]. destruct (f x tab) as [[e t]| | |]; cbn [rbind]; try reflexivity. now rewrite app_nil_r. Qed.
Lemma spilled_all F l : Forall (fun c => forall tab, collect (put_writes F w hp) (spill c) tab = put_writes F w hp c tab) l ->
  forall tab, collect (put_writes F w hp) (flat_map spill l) tab = collect (put_writes F w hp) l tab.
Proof.
  induction 1 as [|c l E _ IH]; intros tab; [reflexivity|]. cbn [flat_map]. rewrite collect_app, E. cbn [collect]. destruct (put_writes F w hp c tab) as [[e t]| | |]; cbn [rbind]; try reflexivity. now rewrite IH.
Qed.
Lemma spilled_one F : forall c tab, collect (put_writes F w hp) (spill c) tab = put_writes F w hp c tab.
Proof.
  induction c as [i|k v|k c own|k t vs|k tp a l IH] using ins_ind2; intros tab; try (cbn [spill]; apply collect_one).
  - cbn [spill]. change (InScope k TArray true [] :: map (fun v => InObj (mkItem [] t v)) vs) with ([InScope k TArray true []] ++ map (fun v => InObj (mkItem [] t v)) vs).
    rewrite collect_app, collect_one. cbn [put_writes negb collect rbind]. rewrite collect_objs. destruct (collect _ vs tab) as [[es t1]| | |]; reflexivity.
  - cbn [spill]. rewrite collect_one. cbn [put_writes]. now rewrite (spilled_all F l IH).
Qed.
Lemma spilled F l tab : collect (put_writes F w hp) (flat_map spill l) tab = collect (put_writes F w hp) l tab.
Proof. apply spilled_all. apply Forall_forall. intros c _. apply spilled_one. Qed.
Lemma spill_unlisted : forall c, Forall unlisted (spill c).
Proof.
  induction c as [i|k v|k c own|k t vs|k tp a l IH] using ins_ind2; try (constructor; [exact I|constructor]).
  - constructor; [exact I|]. induction vs; constructor; [exact I|assumption].
  - constructor; [|constructor]. cbn [unlisted]. apply unlisted_all. induction IH as [|c l H _ IHl]; [constructor|]. cbn [flat_map]. apply Forall_app. auto.
Qed.
Lemma all_unlisted l : Forall unlisted (flat_map spill l).
Proof. induction l as [|c l IH]; [constructor|]. cbn [flat_map]. apply Forall_app. split; [apply spill_unlisted|exact IH]. Qed.
Lemma unlisted_spill : forall c, unlisted c -> spill c = [c].
Proof.
  induction c as [i|k v|k c own|k t vs|k tp a l IH] using ins_ind2; intros U; try reflexivity; [destruct U|]. cbn [spill]. do 2 f_equal. cbn [unlisted] in U. apply unlisted_all in U.
  clear k tp a. induction IH as [|c l E _ IHl]; [reflexivity|]. inversion U; subst. cbn [flat_map]. rewrite E, IHl by assumption. reflexivity.
Qed.
Lemma unlisted_id l : Forall unlisted l -> flat_map spill l = l.
Proof. induction 1 as [|c l U _ IH]; [reflexivity|]. cbn [flat_map]. now rewrite unlisted_spill, IH. Qed.

Lemma wrote : (forall c tab d tab', stands c tab d tab' -> unlisted c -> exists size, forall F, (size <= F)%nat -> put_writes F w hp c tab = Ok (stored_events d, tab')) /\
  (forall l tab its tab', all_stand l tab its tab' -> Forall unlisted l -> exists size, forall F, (size <= F)%nat -> collect (put_writes F w hp) l tab = Ok (flat_map stored_events its, tab')).
Proof.
  apply (stand_ind w hp (fun c tab d tab' => unlisted c -> exists size, forall F, (size <= F)%nat -> put_writes F w hp c tab = Ok (stored_events d, tab'))
    (fun l tab its tab' => Forall unlisted l -> exists size, forall F, (size <= F)%nat -> collect (put_writes F w hp) l tab = Ok (flat_map stored_events its, tab'))).
  - intros i tab d tab' [size E] _. exists size. intros F L. cbn [put_writes]. rewrite E by exact L. reflexivity.
  - intros k v tab _. exists 0%nat. reflexivity.
  - intros k n own tab _. exists 0%nat. intros F _. cbn [put_writes]. now rewrite write_node_doc.
  - intros k t vs tab ds tab' _ _ [].
  - intros k tp l tab ds tab' _ IH U. cbn [unlisted] in U. apply unlisted_all in U. destruct (IH U) as [size E]. exists size. intros F L. cbn [put_writes negb]. rewrite E by exact L. reflexivity.
  - intros tab _. exists 0%nat. reflexivity.
  - intros c l tab d tab1 ds tab2 _ IH1 _ IH2 U. inversion U; subst. destruct IH1 as [s1 E1]; [assumption|]. destruct IH2 as [s2 E2]; [assumption|].
    exists (Nat.max s1 s2). intros F L. cbn [collect]. rewrite E1 by lia. cbn [rbind]. rewrite E2 by lia. reflexivity.
Qed.
(** every list of insertions stands for something *)
Lemma stands_total lev n : S_ObjStore.heap_ok w hp lev any_value -> forall c, callable c -> Forall (fun i => storable w hp lev any_value n (i_type i) (i_val i)) (objects c) ->
  forall tab, exists d tab', stands c tab d tab'.
Proof.
  intros HEAP.
  assert (OB : forall i, storable w hp lev any_value n (i_type i) (i_val i) -> forall tab, exists d tab', stands (InObj i) tab d tab').
  { intros i O tab. destruct (emit_total w hp lev any_value HEAP any_leaf n _ _ O (i_name i)) as [F0 T]. destruct (T F0 (le_n _) tab) as [[d tab'] E]. exists d, tab'. constructor. exists F0. intros F L. revert E. apply emit_more. exact L. }
  induction c as [i|k v|k c own|k t vs|k tp a l IH] using ins_ind2; intros C O tab.
  - cbn [objects] in O. inversion O; subst. apply OB. assumption.
  - eexists. eexists. constructor.
  - eexists. eexists. constructor.
  - assert (A : exists ds tab', all_stand (map (fun v => InObj (mkItem [] t v)) vs) tab ds tab').
    { clear C. cbn [objects] in O. revert tab O. induction vs as [|v vs IH]; intros tab O; [eexists; eexists; constructor|]. inversion O as [|? ? O1 O2]; subst. cbn [map].
      destruct (OB _ O1 tab) as (d & t1 & S1). destruct (IH t1 O2) as (ds & t2 & S2). exists (d :: ds), t2. econstructor; eauto. }
    destruct A as (ds & tab' & A). eexists. exists tab'. constructor. exact A.
  - cbn [callable] in C. destruct C as [-> C]. apply callable_all in C. cbn [objects] in O.
    assert (A : exists ds tab', all_stand l tab ds tab').
    { revert tab C O. induction IH as [|c l E _ IHl]; intros tab C O; [eexists; eexists; constructor|]. inversion C; subst. cbn [flat_map] in O. apply Forall_app in O. destruct O as [O1 O2].
      destruct (E ltac:(assumption) O1 tab) as (d & t1 & S1). destruct (IHl t1 ltac:(assumption) O2) as (ds & t2 & S2). exists (d :: ds), t2. econstructor; eauto. }
    destruct A as (ds & tab' & A). eexists. exists tab'. constructor. exact A.
Qed.
Theorem all_total lev n : S_ObjStore.heap_ok w hp lev any_value -> forall l, Forall callable l -> Forall (fun i => storable w hp lev any_value n (i_type i) (i_val i)) (flat_map objects l) ->
  forall tab, exists ds tab', all_stand l tab ds tab'.
Proof.
  intros HEAP. induction 1 as [|c l C _ IH]; intros O tab; [eexists; eexists; constructor|]. cbn [flat_map] in O. apply Forall_app in O. destruct O as [O1 O2].
  destruct (stands_total lev n HEAP c C O1 tab) as (d & t1 & S1). destruct (IH O2 t1) as (ds & t2 & S2). exists (d :: ds), t2. econstructor; eauto.
Qed.
Theorem built_node n : forall l tab ds tab', all_stand l tab ds tab' -> exists size, forall F, (size <= F)%nat ->
  build F w hp l n tab = Ok (mkNode (n_type n) (n_values n ++ n_values (doc_node (DScope [] TObject ds))) (n_nodes n ++ n_nodes (doc_node (DScope [] TObject ds))), tab').
Proof.
  intros l tab ds tab' A. destruct (proj2 built _ _ _ _ A) as [size E]. exists size. intros F L. destruct (any_node n) as [its N]. unfold build. rewrite N at 1. rewrite E by exact L.
  rewrite doc_node_eq. cbn [n_values n_nodes]. replace (n_values n) with (vals_of its) by (rewrite N; reflexivity). replace (n_nodes n) with (subs_of its) by (rewrite N; reflexivity).
  unfold node_of. now rewrite vals_app, subs_app.
Qed.
End Stand.

(** * With the values first *)
Definition in_order (its : list doc) : list doc := filter d_val its ++ map values_first (filter (fun m => negb (d_val m)) its).
Lemma order_all (P Q : doc -> Prop) its : Forall P its -> Forall (fun d => P d -> Q (values_first d)) its -> Forall Q (in_order its).
Proof.
  intros HP HQ. unfold in_order. apply Forall_app. split.
  - revert HQ. induction HP as [|d l H _ IH]; intros HQ; [constructor|]. inversion HQ as [|? ? Q1 Q2]; subst. destruct d as [k v|k t its]; cbn [filter d_val]; [constructor; [exact (Q1 H)|auto]|auto].
  - revert HQ. induction HP as [|d l H _ IH]; intros HQ; [constructor|]. inversion HQ as [|? ? Q1 Q2]; subst. destruct d as [k v|k t its]; cbn [filter d_val negb map]; [auto|constructor; [exact (Q1 H)|auto]].
Qed.
Lemma order_sum (f : doc -> nat) its : Forall (fun d => f (values_first d) = f d) its -> fold_right (fun d s => (f d + s)%nat) 0%nat (in_order its) = fold_right (fun d s => (f d + s)%nat) 0%nat its.
Proof.
  assert (A : forall a b, fold_right (fun d s => (f d + s)%nat) 0%nat (a ++ b) = (fold_right (fun d s => (f d + s)%nat) 0%nat a + fold_right (fun d s => (f d + s)%nat) 0%nat b)%nat).
  { induction a as [|x a IH]; intros b; [reflexivity|]. cbn [app fold_right]. rewrite IH. lia. }
  unfold in_order. rewrite A. induction 1 as [|d l H _ IH]; [reflexivity|]. destruct d as [k v|k t i]; cbn [filter d_val negb map fold_right] in *; lia.
Qed.
Lemma order_length its : length (in_order its) = length its.
Proof. unfold in_order. rewrite app_length, map_length. induction its as [|[k v|k t i] l IH]; cbn [filter d_val negb length]; lia. Qed.
Lemma all_Forall (P : doc -> Prop) l : (fix all (l : list doc) : Prop := match l with [] => True | x :: l' => P x /\ all l' end) l <-> Forall P l.
Proof. induction l as [|x l IH]; split; intros H; [constructor|exact I| |]. - destruct H. constructor; [assumption|]. now apply IH. - inversion H; subst. split; [assumption|]. now apply IH. Qed.
Lemma vf_wf : forall d, wf_doc d -> wf_doc (values_first d).
Proof.
  induction d as [k v|k t its IH] using doc_ind2; intros W; [exact W|]. rewrite vf_eq. apply wf_doc_scope in W. destruct W as (N & T & W). apply wf_doc_scope. split; [exact N|]. split; [exact T|]. eapply order_all; [exact W|exact IH].
Qed.
Lemma vf_vals P : forall d, all_vals P d -> all_vals P (values_first d).
Proof.
  induction d as [k v|k t its IH] using doc_ind2; intros W; [exact W|]. rewrite vf_eq. cbn [all_vals] in *. apply (all_Forall (all_vals P)) in W. apply (all_Forall (all_vals P)). eapply order_all; [exact W|exact IH].
Qed.
Lemma vf_small : forall d, small_scopes d -> small_scopes (values_first d).
Proof.
  induction d as [k v|k t its IH] using doc_ind2; intros W; [exact W|]. rewrite vf_eq. cbn [small_scopes] in *. destruct W as [L W]. apply (all_Forall small_scopes) in W. split.
  - unfold zlen in *. pose proof (order_length its) as O. unfold in_order in O. rewrite O. exact L.
  - apply (all_Forall small_scopes). eapply order_all; [exact W|exact IH].
Qed.
Lemma vf_names : forall d nm, json_names nm d -> json_names nm (values_first d).
Proof.
  induction d as [k v|k t its IH] using doc_ind2; intros nm W; [exact W|]. rewrite vf_eq. cbn [json_names] in *. destruct W as [L W]. apply (all_Forall (json_names (ty_eqb t TObject))) in W. split; [exact L|].
  apply (all_Forall (json_names (ty_eqb t TObject))). eapply order_all; [exact W|]. eapply Forall_impl; [|exact IH]. intros d H. apply H.
Qed.
Lemma events_sum : forall l, length (flat_map events l) = fold_right (fun d s => (length (events d) + s)%nat) 0%nat l.
Proof. induction l as [|d l IH]; [reflexivity|]. cbn [flat_map fold_right]. now rewrite app_length, IH. Qed.
Lemma vf_events : forall d, length (events (values_first d)) = length (events d).
Proof.
  induction d as [k v|k t its IH] using doc_ind2; [reflexivity|]. rewrite vf_eq. cbn [events length]. rewrite !app_length. do 2 f_equal. rewrite !events_sum. apply (order_sum (fun d => length (events d))). exact IH.
Qed.
Lemma vf_depth : forall d, depth (values_first d) = depth d.
Proof.
  induction d as [k v|k t its IH] using doc_ind2; [reflexivity|]. rewrite vf_eq. cbn [depth]. f_equal.
  assert (A : forall a b, fold_right (fun d n => Nat.max (depth d) n) 0%nat (a ++ b) = Nat.max (fold_right (fun d n => Nat.max (depth d) n) 0%nat a) (fold_right (fun d n => Nat.max (depth d) n) 0%nat b)).
  { induction a as [|x a IHa]; intros b; [reflexivity|]. cbn [app fold_right]. rewrite IHa. lia. }
  rewrite A. induction IH as [|d l H _ IHl]; [reflexivity|]. destruct d as [k0 v0|k0 t0 i0]; cbn [filter d_val negb map fold_right] in *; lia.
Qed.
Lemma vf_carries x p u : carries x p u -> carries x p (values_first u).
Proof.
  intros (W & S & C). split; [now apply vf_wf|]. split; [destruct u; [destruct S|exact I]|]. destruct p; [|now apply vf_small|].
  - destruct C as [C1 C2]. split; [now apply vf_vals|]. now rewrite vf_events.
  - destruct C as [C1 C2]. split; [now apply vf_vals|now apply vf_names].
Qed.
Lemma vf_node : forall d, doc_node (values_first d) = doc_node d.
Proof.
  intros d. destruct d as [k v|k t its]; [reflexivity|]. rewrite <- (tree_of_doc (DScope k t its)) by exact I. apply doc_node_tree.
Qed.
Lemma vf_name d : doc_name (values_first d) = doc_name d.
Proof. destruct d; [reflexivity|]. now rewrite vf_eq. Qed.

(** * Bytes *)
Lemma pack_memory w hp p l es p' ops size : (forall F, (size <= F)%nat -> pack_writes F w hp l = Ok es) -> write_all (w_fp w) p es = Ok (p', ops) -> valid_ops [] ops -> hand_packs w hp p l (spec_out ops).
Proof.
  intros E W V. exists size, p'. intros F m L Z. unfold pack_build. rewrite E by exact L. cbn [rbind]. rewrite W. cbn [rbind].
  destruct (run_jobs_spec [ToMemory ops] (heap_init m) (heap_ok_init m)) as (h & J & _).
  - constructor; [|constructor]. split; auto.
  - exists h. cbn [run_jobs run_job map job_result] in J. destruct (save_buffer (heap_init m) ops) as [[bs h1]| | |]; cbn [rbind] in *; try discriminate J. injection J as -> ->. reflexivity.
Qed.
Lemma pack_events w hp l ds tab : all_stand w hp (flat_map spill l) [] ds tab -> exists size, forall F, (size <= F)%nat -> pack_writes F w hp l = Ok (stored_events (DScope [] TObject ds)).
Proof.
  intros A. destruct (proj2 (wrote w hp) _ _ _ _ A (all_unlisted l)) as [size E]. exists size. intros F L. unfold pack_writes. rewrite <- spilled, E by exact L. reflexivity.
Qed.
Theorem packed w hp p l ds tab u : all_stand w hp (flat_map spill l) [] ds tab -> utf8_doc (DScope [] TObject ds) u -> carries (w_fp w) p u -> (depth u <= 129)%nat ->
  exists bs bs' k' n n', hand_packs w hp p l bs /\ builds w hp (flat_map spill l) n /\ saves_as (w_fp w) p [] n bs' /\ loads_as (w_fp w) p bs k' n' /\ loads_as (w_fp w) p bs' k' n' /\
    mdoc_of (tree_doc k' n') = delivered p (values_first u).
Proof.
  intros A U C D. destruct (pack_events w hp l ds tab A) as [size E]. destruct (written (w_fp w) p _ u C U) as (p' & ops & W & V & R).
  assert (D' : Nat.leb (depth u) 129 = true) by (apply Nat.leb_le; exact D).
  destruct (built_node w hp (empty_node TObject) _ _ _ _ A) as [s1 B].
  set (d := DScope [] TObject ds) in *. assert (B' : forall F, (s1 <= F)%nat -> build F w hp (flat_map spill l) (empty_node TObject) [] = Ok (doc_node d, tab)).
  { intros F L. rewrite B by exact L. cbn [empty_node n_type n_values n_nodes app]. unfold d. rewrite doc_node_eq. reflexivity. }
  assert (U' : utf8_doc (tree_doc [] (doc_node d)) (values_first u)).
  { change (@nil Z) with (doc_name d). rewrite (tree_of_doc d) by exact I. apply utf8_values_first. exact U. }
  destruct (saved_loaded (w_fp w) p [] (doc_node d) (values_first u) U' (vf_carries _ _ _ C)) as (bs' & S' & L'). rewrite vf_depth, D' in L'.
  assert (X : doc_name (dnorm p (values_first u)) = doc_name (dnorm p u) /\ doc_node (dnorm p (values_first u)) = doc_node (dnorm p u)).
  { unfold dnorm. rewrite <- values_first_norm, vf_node, vf_name. auto. }
  cbv iota in L'. destruct X as [X1 X2]. change @P_MsgPackDoc.doc_name with doc_name in *. rewrite X1, X2 in L'.
  exists (spec_out ops), bs', (doc_name (dnorm p u)), (doc_node d), (doc_node (dnorm p u)).
  split; [|split; [|split; [|split; [|split]]]].
  - eapply pack_memory; [exact E| |exact V]. rewrite <- W. apply write_all_same. apply stored_same.
  - exists s1, tab. exact B'.
  - exact S'.
  - exists (length (spec_out ops) + length (events u) + 5)%nat. intros q F before rest SF L. destruct (R q SF F before rest L) as (q' & Q). rewrite D' in Q. eauto.
  - exact L'.
  - rewrite delivered_eq. pose proof C as (Wu & Sc & C'). eapply loaded_meaning; [apply fdenote_keeps|exact Sc|]. rewrite <- delivered_eq. apply (dnorm_delivered (w_fp w)). exact C.
Qed.
Theorem packed_same w hp p l ds tab u : all_stand w hp l [] ds tab -> Forall unlisted l -> utf8_doc (DScope [] TObject ds) u -> carries (w_fp w) p u -> (depth u <= 129)%nat ->
  exists bs bs' k' n n', hand_packs w hp p l bs /\ builds w hp l n /\ saves_as (w_fp w) p [] n bs' /\ loads_as (w_fp w) p bs k' n' /\ loads_as (w_fp w) p bs' k' n' /\
    mdoc_of (tree_doc k' n') = delivered p (values_first u).
Proof. intros A UL U C D. pose proof (packed w hp p l ds tab u) as Q. rewrite (unlisted_id l UL) in Q. now apply Q. Qed.
(** the same bytes, if the values come first *)
Theorem packed_bytes w hp p l ds tab u : all_stand w hp l [] ds tab -> Forall unlisted l -> utf8_doc (DScope [] TObject ds) u -> carries (w_fp w) p u -> values_first (DScope [] TObject ds) = DScope [] TObject ds ->
  exists bs n, hand_packs w hp p l bs /\ builds w hp l n /\ saves_as (w_fp w) p [] n bs.
Proof.
  intros A UL U C VF. assert (A' := A). rewrite <- (unlisted_id l UL) in A'. destruct (pack_events w hp l ds tab A') as [size E]. set (d := DScope [] TObject ds) in *.
  assert (T : tree_doc [] (doc_node d) = d). { change (@nil Z) with (doc_name d). rewrite (tree_of_doc d) by exact I. exact VF. }
  destruct (built_node w hp (empty_node TObject) _ _ _ _ A) as [s1 B].
  assert (U' : utf8_doc (tree_doc [] (doc_node d)) u) by (rewrite T; exact U).
  destruct (saved_loaded (w_fp w) p [] (doc_node d) u U' C) as (bs & S & _). exists bs, (doc_node d). split; [|split; [|exact S]].
  - destruct S as (p' & ops & W & V & <- & _). eapply pack_memory; [exact E| |exact V]. rewrite <- W, write_all_tree, T. apply write_all_same. apply stored_same.
  - exists s1, tab. intros F L. rewrite B by exact L. cbn [empty_node n_type n_values n_nodes app]. unfold d. rewrite doc_node_eq. reflexivity.
Qed.
(** Tree::pack of objects only *)
Theorem pack_objects x F w hp p h its : pack_build x F w hp p h (map InObj its) = pack_object x (S F) w hp p h its.
Proof.
  unfold pack_build, pack_writes, pack_object, pack_doc.
  assert (G : forall its tab, collect (put_writes F w hp) (map InObj its) tab = let* (ds, t1) := emits (fun i => emit F w hp (i_type i) (i_val i) (i_name i)) its tab in Ok (flat_map stored_events ds, t1)).
  { clear its. induction its as [|i its IH]; intros tab; [reflexivity|]. cbn [map collect emits]. cbn [put_writes]. destruct (emit F w hp (i_type i) (i_val i) (i_name i) tab) as [[d t1]| | |]; cbn [rbind]; try reflexivity.
    rewrite IH. destruct (emits _ its t1) as [[ds t2]| | |]; reflexivity. }
  rewrite G. destruct (emits _ its []) as [[ds t1]| | |]; reflexivity.
Qed.

(** A new tree, with an object or an array as its root, built, saved and loaded *)
Theorem new_tree_saved w hp p tp l ds tab u : tp = TObject \/ tp = TArray -> all_stand w hp l [] ds tab -> utf8_doc (DScope [] tp ds) u -> carries (w_fp w) p u -> (depth u <= 129)%nat ->
  exists size n bs k' n', (forall F, (size <= F)%nat -> build F w hp l (t_root (new_tree tp)) [] = Ok (n, tab)) /\ saves_as (w_fp w) p [] n bs /\ loads_as (w_fp w) p bs k' n' /\
    mdoc_of (tree_doc k' n') = delivered p (values_first u).
Proof.
  intros T A U C D. assert (D' : Nat.leb (depth u) 129 = true) by (apply Nat.leb_le; exact D).
  destruct (built_node w hp (t_root (new_tree tp)) _ _ _ _ A) as [s1 B]. set (d := DScope [] tp ds) in *.
  assert (B' : forall F, (s1 <= F)%nat -> build F w hp l (t_root (new_tree tp)) [] = Ok (doc_node d, tab)).
  { intros F L. rewrite B by exact L. unfold d. rewrite !doc_node_eq. destruct T as [-> | ->]; reflexivity. }
  assert (U' : utf8_doc (tree_doc [] (doc_node d)) (values_first u)).
  { change (@nil Z) with (doc_name d). rewrite (tree_of_doc d) by exact I. apply utf8_values_first. exact U. }
  destruct (saved_loaded (w_fp w) p [] (doc_node d) (values_first u) U' (vf_carries _ _ _ C)) as (bs' & S' & L'). rewrite vf_depth, D' in L'.
  exists s1, (doc_node d), bs', (doc_name (dnorm p (values_first u))), (doc_node (dnorm p (values_first u))).
  split; [exact B'|]. split; [exact S'|]. split; [exact L'|].
  unfold dnorm. rewrite <- values_first_norm. change @P_MsgPackDoc.doc_name with doc_name in *. rewrite vf_node, vf_name. fold (dnorm p u).
  rewrite delivered_eq. pose proof C as (Wu & Sc & C'). eapply loaded_meaning; [apply fdenote_keeps|exact Sc|]. rewrite <- delivered_eq. apply (dnorm_delivered (w_fp w)). exact C.
Qed.
