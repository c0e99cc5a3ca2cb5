(** C82, C83: what a tree holds after a load that failed, and loads on a tree that was used before. *)
From Coq Require Import ZArith List Bool.
From Verif Require Import Base M_Types M_Conv M_In S_Doc M_OutOps M_Env M_Event M_PSrl M_MsgPack M_Json M_Tree M_TreeIO M_Object M_Pack S_Json S_Tree M_Kept S_Kept P_Kept P_KeptLost Properties_Charset Properties_PSrl Properties_MsgPack Properties_Object.
Import ListNotations.
Open Scope Z_scope.

(** * C82 a load that fails.
    Full statement: after a load that failed the tree is empty or as it was before.  False: part of the input is in it. *)
Theorem C82_all_or_nothing_refuted : exists src k n,
  load_after (@run_block) ex_fp 100 false TObject (MsgpP msgp_init) (set_block src) = (Err, (k, n)) /\ n_values n = [($"a", val_int TI32 1)].
Proof. exists (firstn 8 (msgp_bytes (DScope [] TObject [DVal ($"a") (val_int TI32 1); DVal ($"b") (val_int TI32 2)]))). do 2 eexists. split; vm_compute; reflexivity. Qed.
(** the model of the tree that is kept and the model of loads used elsewhere (C38, C39) say the same *)
Theorem C82_outcome : forall x f old q i,
  match run_block (load_tree x f q) i with
  | Ok ((q', kn), i') => load_after (@run_block) x f false old q i = (Ok (q', i'), kn)
  | r => alike r (fst (load_after (@run_block) x f false old q i))
  end.
Proof. intros x f old q i. pose proof (same_block x f old q i) as H. destruct (run_block (load_tree x f q) i) as [[[q' kn] i']| | |]; [exact H|rewrite H; cbn; auto..]. Qed.
Theorem C82_outcome_stream : forall x f old q i,
  match run_stream (load_tree x f q) i with
  | Ok ((q', kn), i') => load_after (@run_stream) x f false old q i = (Ok (q', i'), kn)
  | r => alike r (fst (load_after (@run_stream) x f false old q i))
  end.
Proof. intros x f old q i. pose proof (same_stream x f old q i) as H. destruct (run_stream (load_tree x f q) i) as [[[q' kn] i']| | |]; [exact H|rewrite H; cbn; auto..]. Qed.
(** For any parser, on any input: the tree holds exactly the items delivered before the failure, each scope that is still open closed
    where reading stopped; before the root was found the tree is empty and its root keeps its kind.  Nothing of what the tree held
    before is left, and nothing else makes a load fail than the parser, a source that does not begin with a scope, or a scope in
    128 scopes. *)
Theorem C82_kept : forall S (m : machine S) f old s r k n, load_keep m false f old s = (r, (k, n)) ->
  match r with
  | Ok s' => exists d es, gives (m_next m) s es s' /\ closed_by es 0 d /\ doc_name d = k /\ doc_node d = n
  | _ => k = [] /\ n = empty_node old /\ no_root (m_next m) s r \/
      exists d es s' open, gives (m_next m) s es s' /\ (1 <= open <= 129)%nat /\ closed_by es open d /\ doc_name d = k /\ doc_node d = n /\ stops (m_next m) s' open r
  end.
Proof. exact @kept_load. Qed.
(** bytes of a document cut off anywhere, PSrl and PMsgPack: the load fails, and the tree holds the beginning of that document *)
Theorem C82_cut : forall x F q bs q' k' n' b', binary q -> run_block (load_tree x F q) (set_block bs) = Ok ((q', (k', n')), b') -> b_rest b' = [] ->
  exists D, shaped D /\ doc_name D = k' /\ doc_node D = n' /\
  forall pre post old r k n, bs = pre ++ post -> post <> [] -> load_after (@run_block) x F false old q (set_block pre) = (r, (k, n)) ->
  (forall z, r <> Ok z) /\
  (k = [] /\ n = empty_node old \/
   exists d i open, (1 <= open)%nat /\ shaped d /\ firstn i (events D) ++ repeat ev_end open = events d /\ doc_name d = k /\ doc_node d = n).
Proof. exact cut_load. Qed.
Print Assumptions C82_all_or_nothing_refuted.
Print Assumptions C82_outcome.
Print Assumptions C82_outcome_stream.
Print Assumptions C82_kept.
Print Assumptions C82_cut.
Definition kept_doc : doc := DScope [] TObject [DVal ($"a") (val_int TI32 1); DScope ($"b") TObject [DVal ($"c") (val_int TI32 2); DScope ($"d") TArray [DVal [] (val_int TI32 3)]]; DVal ($"e") (val_int TI32 4)].
(** the three formats, cut in the innermost array *)
Example C82_ex_psrl :
  load_after (@run_stream) ex_fp 100 false TArray (PsrlP psrl_init) (set_stream (firstn 12 (psrl_bytes kept_doc))) =
  (Err, ([], doc_node (DScope [] TObject [DVal ($"a") (val_int TUI64 1); DScope ($"b") TObject [DVal ($"c") (val_int TUI64 2)]]))).
Proof. vm_compute. reflexivity. Qed.
Example C82_ex_msgp :
  load_after (@run_block) ex_fp 100 false TArray (MsgpP msgp_init) (set_block (firstn 27 (msgp_bytes kept_doc))) =
  (Err, ([], doc_node (DScope [] TObject [DVal ($"a") (val_int TI32 1); DScope ($"b") TObject [DVal ($"c") (val_int TI32 2); DScope ($"d") TArray [DVal [] (val_int TI32 3)]]]))).
Proof. vm_compute. reflexivity. Qed.
Example C82_ex_json :
  load_after (@run_stream) ex_fp 100 false TArray json_p (set_stream (js ($"{'a':1,'b':{'c':2,'d':[3,tru]},'e':4}"))) =
  (Err, ([], doc_node (DScope [] TObject [DVal ($"a") (val_int TUI64 1); DScope ($"b") TObject [DVal ($"c") (val_int TUI64 2); DScope ($"d") TArray [DVal [] (val_int TUI64 3)]]]))).
Proof. vm_compute. reflexivity. Qed.

(** * C83 loads on a tree that was used before.
    Full statement: [load_after run x f (e_parsing (used F w hp us)) old q i] is that of a new tree, whatever [us].  False after a store
    that threw: in JSON and PSrl what is in nested scopes is lost, in MessagePack the load fails. *)
Definition failed_store : list use := [UStore (CCls 4) (VList [VNone]) ($"o")].
Definition load_new (q : parser) (src : bytes) := load_after (@run_block) ex_fp 100 (e_parsing tenv_new) TObject q (set_block src).
Definition load_used (q : parser) (src : bytes) := load_after (@run_block) ex_fp 100 (e_parsing (used 9 ex_world [] failed_store)) TObject q (set_block src).
Definition is_ok {A} (r : res A) : bool := match r with Ok _ => true | _ => false end.
Theorem C83_used_json_refuted : exists src, let new := load_new json_p src in let old := load_used json_p src in
  is_ok (fst new) = true /\ is_ok (fst old) = true /\ snd new = ([], doc_node (DScope [] TObject [DVal ($"a") (val_int TUI64 1); DScope ($"b") TObject [DVal ($"c") (val_int TUI64 2)]])) /\
  snd old = ([], doc_node (DScope [] TObject [DVal ($"a") (val_int TUI64 1)])).
Proof. exists (js ($"{'a':1,'b':{'c':2}}")). vm_compute. auto. Qed.
Theorem C83_used_psrl_refuted : exists src, let new := load_new (PsrlP psrl_init) src in let old := load_used (PsrlP psrl_init) src in
  is_ok (fst new) = true /\ is_ok (fst old) = true /\ length (n_nodes (snd (snd new))) = 1%nat /\ n_nodes (snd (snd old)) = [].
Proof. exists (psrl_bytes kept_doc). vm_compute. auto. Qed.
Theorem C83_used_msgpack_refuted : exists src, is_ok (fst (load_new (MsgpP msgp_init) src)) = true /\ fst (load_used (MsgpP msgp_init) src) = Err.
Proof. exists (msgp_bytes kept_doc). vm_compute. auto. Qed.
(** a tree whose last store or pack, if any, succeeded: a load has the outcome and the document it has on a new tree *)
Theorem C83_used_partial : forall F w hp us x f old q i, well_used F w hp us ->
  match run_block (load_tree x f q) i with
  | Ok ((q', kn), i') => load_after (@run_block) x f (e_parsing (used F w hp us)) old q i = (Ok (q', i'), kn)
  | r => alike r (fst (load_after (@run_block) x f (e_parsing (used F w hp us)) old q i))
  end.
Proof. intros F w hp us x f old q i W. rewrite (well_used_parsing _ _ _ _ W). apply C82_outcome. Qed.
(** whatever was done with the tree: a document without scopes within the root loads as on a new tree, with any parser *)
Theorem C83_flat_partial : forall S (m : machine S) f parsing old s, n_nodes (snd (snd (load_keep m false f old s))) = [] ->
  load_keep m parsing f old s = load_keep m false f old s.
Proof. intros S m f [|] old s H; [now apply flat_load|reflexivity]. Qed.
(** exactly what is lost with PJson: loads fail and succeed as on a new tree, and every scope within the root is missing *)
Theorem C83_lost_json : forall x f old st i,
  alike (fst (load_after (@run_block) x f false old (JsonP st) i)) (fst (load_after (@run_block) x f true old (JsonP st) i)) /\
  snd (load_after (@run_block) x f true old (JsonP st) i) = only_values (snd (load_after (@run_block) x f false old (JsonP st) i)).
Proof. intros x f old st i. destruct (json_lost_block x f old st i) as [A B]. split; [exact (same_end_alike _ _ _ A)|]. destruct (snd (load_after (@run_block) x f false old (JsonP st) i)). exact B. Qed.
Theorem C83_lost_json_stream : forall x f old st i,
  alike (fst (load_after (@run_stream) x f false old (JsonP st) i)) (fst (load_after (@run_stream) x f true old (JsonP st) i)) /\
  snd (load_after (@run_stream) x f true old (JsonP st) i) = only_values (snd (load_after (@run_stream) x f false old (JsonP st) i)).
Proof. intros x f old st i. destruct (json_lost_stream x f old st i) as [A B]. split; [exact (same_end_alike _ _ _ A)|]. destruct (snd (load_after (@run_stream) x f false old (JsonP st) i)). exact B. Qed.
(** so after every store or pack that threw, whatever was done before and however many loads there were since, everything within the
    root is lost *)
Theorem C83_after_throw_json : forall F w hp a u b x f old st i, threw F w hp (used F w hp a) u -> Forall (fun u => u = ULoad) b ->
  let used_tree := load_after (@run_block) x f (e_parsing (used F w hp (a ++ u :: b))) old (JsonP st) i in
  match run_block (load_tree x f (JsonP st)) i with
  | Ok ((_, kn), _) => is_ok (fst used_tree) = true /\ snd used_tree = only_values kn
  | r => alike r (fst used_tree)
  end.
Proof.
  intros F w hp a u b x f old st i W L. cbv zeta. rewrite (threw_parsing _ _ _ _ _ _ W L). destruct (C83_lost_json x f old st i) as [A B]. pose proof (C82_outcome x f old (JsonP st) i) as O.
  destruct (run_block (load_tree x f (JsonP st)) i) as [[[q' kn] i']| |v|].
  - rewrite O in A, B. cbn [fst snd] in A, B. split; [|exact B]. now destruct (fst (load_after (@run_block) x f true old (JsonP st) i)).
  - destruct (fst (load_after (@run_block) x f false old (JsonP st) i)); cbn in O; try contradiction. exact A.
  - destruct (fst (load_after (@run_block) x f false old (JsonP st) i)); cbn in O; try contradiction. subst. exact A.
  - destruct (fst (load_after (@run_block) x f false old (JsonP st) i)); cbn in O; try contradiction. exact A.
Qed.
Print Assumptions C83_after_throw_json.
Print Assumptions C83_used_json_refuted.
Print Assumptions C83_used_psrl_refuted.
Print Assumptions C83_used_msgpack_refuted.
Print Assumptions C83_used_partial.
Print Assumptions C83_flat_partial.
Print Assumptions C83_lost_json.
Print Assumptions C83_lost_json_stream.
(** a store that succeeds heals the tree *)
Definition healed : list use := failed_store ++ [ULoad; UStore (CCls 0) (pt 1 ($"a")) ($"o"); ULoad].
Example C83_ex_healed : well_used 9 ex_world [] healed.
Proof. right. exists (failed_store ++ [ULoad]), (UStore (CCls 0) (pt 1 ($"a")) ($"o")), [ULoad]. split; [reflexivity|]. split; [do 2 eexists; vm_compute; reflexivity|repeat constructor]. Qed.
Example C83_ex : exists r, load_after (@run_block) ex_fp 100 (e_parsing (used 9 ex_world [] healed)) TArray (MsgpP msgp_init) (set_block (msgp_bytes kept_doc)) = (Ok r, ([], doc_node kept_doc)).
Proof. eexists. vm_compute. reflexivity. Qed.
(** a pack that throws *)
Example C83_ex_pack : threw 9 ex_world [] (used 9 ex_world [] []) (UPack [mkItem ($"a") (CNum TI32) (VNum 1); mkItem ($"o") (CCls 4) (VList [VNone])]) /\
  snd (load_after (@run_block) ex_fp 100 (e_parsing (used 9 ex_world [] [UPack [mkItem ($"a") (CNum TI32) (VNum 1); mkItem ($"o") (CCls 4) (VList [VNone])]; ULoad])) TObject json_p (set_block (js ($"{'a':1,'b':{'c':2}}")))) =
  ([], doc_node (DScope [] TObject [DVal ($"a") (val_int TUI64 1)])).
Proof. split; [eexists; vm_compute; reflexivity|vm_compute; reflexivity]. Qed.
