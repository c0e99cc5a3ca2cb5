(** Properties C32-C38, C51, C55, C59 and the part of C19, C20, C31 that concerns whole trees. *)
From Coq Require Import ZArith List Bool Lia Sorted ZifyBool ZifyNat.
From Verif Require Import Base Lemmas M_Types M_Conv M_Charset M_In S_Conv S_Doc S_Json S_JsonText S_Charset M_OutOps S_Out M_Event M_Env
  M_PSrl M_MsgPack S_MsgPack M_Json M_Heap M_Out M_Tree S_Tree M_TreeIO S_TreeIO P_Safe P_Doc P_TreeOps P_TreeIO P_TreeSafe P_Env.
Import ListNotations.
Open Scope Z_scope.

Definition ex_fp : fp_text := {| x_strtod := fun _ => None; x_dtoa := fun _ => [] |}.
Definition ex_tree : node :=
  mkNode TObject [($"a", val_int TI32 1); ($"b", val_int TI32 2); ($"a", val_string ($"x") EUTF8)]
    [($"b", mkNode TArray [([], val_int TI32 3); ([], val_int TI32 4)] [([], mkNode TObject [($"k", val_bool true)] [])]);
     ($"c", mkNode TObject [] [])].
(** "b" and "ß" in UTF-16 *)
Definition wide_b : sstr := ([98; 0], EUTF16).

(** * C32 lookup by name and index *)
(** [names q k]: the text given as name, in whatever encoding, is [k] in UTF-8 *)
Theorem C32_lookup_by_name : forall n q k, names q k ->
  value_named n q = match first_named k (n_values n) with Some x => Ok x | None => Err end /\
  node_named n q = match first_named k (n_nodes n) with Some x => Ok x | None => Err end /\
  get_named n q = match first_named k (n_values n) with
                  | Some (k', v) => Ok (UnValue k' v)
                  | None => match first_named k (n_nodes n) with Some (k', c) => Ok (UnNode k' c) | None => Err end
                  end /\
  has_value n q = Ok (match first_named k (n_values n) with Some _ => true | None => false end) /\
  has_node n q = Ok (match first_named k (n_nodes n) with Some _ => true | None => false end).
Proof. intros n q k H. repeat split; [now apply lookup_spec|now apply lookup_spec|now apply get_named_spec|now apply has_named_spec|now apply has_named_spec]. Qed.
Theorem C32_lookup_by_index : forall n i, 0 <= i ->
  value_at n i = match nth_error (n_values n) (Z.to_nat i) with Some x => Ok x | None => Err end /\
  node_at n i = match nth_error (n_nodes n) (Z.to_nat i) with Some x => Ok x | None => Err end /\
  num_values n = Z.of_nat (length (n_values n)) /\ num_nodes n = Z.of_nat (length (n_nodes n)).
Proof.
  intros n i H. unfold value_at, node_at. rewrite !link_at_spec by exact H. repeat split; [destruct (nth_error (n_values n) (Z.to_nat i))|destruct (nth_error (n_nodes n) (Z.to_nat i))]; reflexivity.
Qed.
(** inserting appends; a node of another tree arrives unchanged *)
Theorem C32_insert_appends : forall n q k v c, names q k ->
  store_value n v q = Ok (mkNode (n_type n) (n_values n ++ [(k, v)]) (n_nodes n)) /\
  store_node n c q = Ok (mkNode (n_type n) (n_values n) (n_nodes n ++ [(k, c)])) /\
  store_foreign n c q = Ok (mkNode (n_type n) (n_values n) (n_nodes n ++ [(k, c)])).
Proof.
  intros n q k v c H. unfold store_value, store_node, store_foreign. rewrite (store_string_spec q k H). repeat split; try reflexivity.
  rewrite rebuild_id. cbn [rbind]. unfold store_node. rewrite (store_string_spec q k H). reflexivity.
Qed.
(** The hypothesis [names] cannot be dropped: a name that is malformed UTF-16 finds the field without a name. *)
Theorem C32_lookup_malformed_refuted : exists n q k v, n_values n = [(k, v)] /\ k = [] /\ fst q <> [] /\ snd q = EUTF16 /\
  (forall cs, Forall scalar cs -> fst q <> text EUTF16 cs) /\ get_named n q = Ok (UnValue k v) /\ has_value n q = Ok true /\ value_named n q = Err.
Proof.
  exists (mkNode TObject [([], val_int TI32 1)] []), ([0; 216], EUTF16), [], (val_int TI32 1). repeat split; try discriminate.
  intros cs F H. cbn [fst] in H.
  assert (E : to_utf8 [0; 216] EUTF16 = Err) by (vm_compute; reflexivity). rewrite H, (to_utf8_text EUTF16 cs) in E by (try discriminate; exact F). discriminate.
Qed.
Print Assumptions C32_lookup_by_name.
Print Assumptions C32_lookup_by_index.
Print Assumptions C32_insert_appends.
Print Assumptions C32_lookup_malformed_refuted.
Example C32_ex : names wide_b ($"b") /\ get_named ex_tree wide_b = Ok (UnValue ($"b") (val_int TI32 2)) /\
  value_named ex_tree ($"a", EUTF8) = Ok ($"a", val_int TI32 1) /\ value_named ex_tree ($"c", EUTF8) = Err /\ node_at ex_tree 2 = Err.
Proof.
  split; [|repeat split; vm_compute; reflexivity]. right. exists [98]. split; [constructor; [unfold scalar; lia|constructor]|].
  repeat split; try discriminate; vm_compute; reflexivity.
Qed.

(** * C33 get(index) out of range.
    Full statement: [length (n_nodes n) + length (n_values n) <= i -> get_at n i = Err].  False, a null pointer is
    dereferenced; the same in try_get: *)
Theorem C33_get_index_out_of_range_refuted : exists n i, 0 <= i /\ (length (n_nodes n) + length (n_values n) <= Z.to_nat i)%nat /\
  get_at n i = UB UbNull /\ try_get_at n i = UB UbNull.
Proof. exists (empty_node TObject), 0. repeat split; vm_compute; auto; discriminate. Qed.
(** what it does for every index: the node with this index, else the value with the same index *)
Theorem C33_get_index_partial : forall n i, 0 <= i -> get_at n i =
  match nth_error (n_nodes n) (Z.to_nat i) with
  | Some (k, c) => Ok (UnNode k c)
  | None => match nth_error (n_values n) (Z.to_nat i) with Some (k, v) => Ok (UnValue k v) | None => UB UbNull end
  end.
Proof. exact get_at_spec. Qed.
Print Assumptions C33_get_index_out_of_range_refuted.
Print Assumptions C33_get_index_partial.
(** two nodes, three values: index 2 is the third value, 3 is undefined although there are five fields *)
Example C33_ex : get_at ex_tree 2 = Ok (UnValue ($"a") (val_string ($"x") EUTF8)) /\ get_at ex_tree 3 = UB UbNull.
Proof. split; reflexivity. Qed.

(** * C34 saving and loading again.  A tree with text in any encoding is saved with p and loaded: this gives what the
    format delivers of the tree.  Saved again with q and loaded, the same remains. *)
Theorem C34_resave_stable : forall x p q k n u, utf8_doc (tree_doc k n) u -> carries x p u -> carries x q u -> (depth u <= 129)%nat ->
  exists bs1 k1 n1 bs2 k2 n2,
    saves_as x p k n bs1 /\ loads_as x p bs1 k1 n1 /\ mdoc_of (tree_doc k1 n1) = delivered p u /\
    saves_as x q k1 n1 bs2 /\ loads_as x q bs2 k2 n2 /\ mdoc_of (tree_doc k2 n2) = delivered q (tree_doc k1 n1) /\
    (is_json q = false \/ is_json p = true -> mdoc_of (tree_doc k2 n2) = mdoc_of (tree_doc k1 n1)).
Proof. exact resaved. Qed.
Print Assumptions C34_resave_stable.
Definition saved (p : parser) (k : bytes) (n : node) : bytes := match save_tree ex_fp p (heap_init (fun _ _ => 165)) k n with Ok (_, bs, _) => bs | _ => [] end.
Definition loaded (p : parser) (bs : bytes) : option (bytes * node) :=
  match run_block (load_tree ex_fp 1000 p) (set_block bs) with Ok (_, r, _) => Some r | _ => None end.
Example C34_ex :
  let p := PsrlP psrl_init in let q := JsonP (json_init true) in let m := MsgpP msgp_init in
  saved q [] ex_tree = $"{""a"":1,""b"":2,""a"":""x"",""b"":[3,4,{""k"":true}],""c"":{}}" /\
  match loaded p (saved p ($"n") ex_tree) with
  | Some (_, n1) => match loaded m (saved m ($"n") n1) with Some (_, n2) => Some (mdoc_of (tree_doc [] n2)) | None => None end
  | None => None end =
    Some (mdoc_of (tree_doc [] ex_tree)).
Proof. vm_compute. split; reflexivity. Qed.

(** * C35 array order.  Full statement: saving what was loaded from an array writes its elements in their order.
    False: in every scope the values come first. *)
Theorem C35_array_order_refuted : exists src, exists k n, loaded (JsonP (json_init true)) src = Some (k, n) /\
  src = $"[{},1]" /\ saved (JsonP (json_init true)) k n = $"[1,{}]".
Proof. exists ($"[{},1]"). eexists _, _. repeat split; vm_compute; reflexivity. Qed.
(** what is kept: the order among the values and the order among the scopes, everywhere in the document *)
Theorem C35_array_order_partial : forall x p u, carries x p u -> utf8_doc u u -> (depth u <= 129)%nat ->
  exists p' ops k' n', write_all x p (events u) = Ok (p', ops) /\ loads_as x p (spec_out ops) k' n' /\
    mdoc_of (tree_doc k' n') = delivered p (values_first u).
Proof. exact loaded_doc. Qed.
Print Assumptions C35_array_order_refuted.
Print Assumptions C35_array_order_partial.
Definition ex_mixed : doc := DScope [] TArray [DScope [] TObject []; DVal [] (val_int TI32 1); DScope [] TArray [DVal [] (val_bool true)]; DVal [] (val_int TI32 2)].
Example C35_ex : loaded (JsonP (json_init true)) ($"[{},1,[true],2]") <> None /\
  option_map (fun r => mdoc_of (tree_doc [] (snd r))) (loaded (JsonP (json_init true)) ($"[{},1,[true],2]")) = Some (mdoc_of (values_first ex_mixed)) /\
  values_first ex_mixed <> ex_mixed.
Proof. vm_compute. repeat split; discriminate. Qed.

(** * C36 nesting: [depth] counts the root, so 129 is 128 scopes below it *)
Theorem C36_depth_limit : forall x p u, carries x p u -> utf8_doc u u ->
  exists p' ops, write_all x p (events u) = Ok (p', ops) /\
    if Nat.leb (depth u) 129 then exists k' n', loads_as x p (spec_out ops) k' n' else rejected x p (spec_out ops).
Proof. exact depth_limit. Qed.
Print Assumptions C36_depth_limit.
Definition brackets (n : nat) : bytes := repeat 91 n ++ repeat 93 n.
Example C36_ex : run_block (load_tree ex_fp 1000 (JsonP (json_init true))) (set_block (brackets 130)) = Err /\
  match loaded (JsonP (json_init true)) (brackets 129) with Some (k, n) => depth (tree_doc k n) = 129%nat | None => False end.
Proof. vm_compute. split; reflexivity. Qed.

(** * C37 removal *)
Theorem C37_remove_named : forall n q k, names q k ->
  remove_value_named n q = Ok (mkNode (n_type n) (remove_first (fun f => bytes_eqb (fst f) k) (n_values n)) (n_nodes n)) /\
  remove_node_named n q = Ok (mkNode (n_type n) (n_values n) (remove_first (fun f => bytes_eqb (fst f) k) (n_nodes n))).
Proof.
  intros n q k H. unfold remove_value_named, remove_node_named.
  split; (erewrite remove_link_spec; [reflexivity|intros; now apply cmp_name_spec]).
Qed.
Theorem C37_remove_at : forall n i, 0 <= i ->
  remove_value_at n i = mkNode (n_type n) (firstn (Z.to_nat i) (n_values n) ++ skipn (S (Z.to_nat i)) (n_values n)) (n_nodes n) /\
  remove_node_at n i = mkNode (n_type n) (n_values n) (firstn (Z.to_nat i) (n_nodes n) ++ skipn (S (Z.to_nat i)) (n_nodes n)).
Proof. intros n i H. unfold remove_value_at, remove_node_at. now rewrite !remove_at_spec by exact H. Qed.
Print Assumptions C37_remove_named.
Print Assumptions C37_remove_at.
Example C37_ex : (let* n := remove_value_named ex_tree ($"a", EUTF8) in Ok (map fst (n_values n))) = Ok [$"b"; $"a"] /\
  map fst (n_nodes (remove_node_at ex_tree 0)) = [$"c"] /\ remove_node_at ex_tree 2 = ex_tree.
Proof. vm_compute. repeat split; reflexivity. Qed.

(** * C38 traversal: exactly the items of the tree, each once, a node before its content and its later siblings *)
Theorem C38_each_node : forall n,
  (forall p x, In (p, x) (each_node true n) <-> at_path n p = Some x) /\
  (forall p x, In (p, x) (each_node false n) <-> exists i, p = [i] /\ nth_error (n_nodes n) i = Some x) /\
  (forall recursive, StronglySorted before (map fst (each_node recursive n)) /\ NoDup (map fst (each_node recursive n))).
Proof.
  intros n. split; [apply each_node_in|]. split; [apply each_node_in_flat|]. intros rec. split; [apply each_node_sorted|].
  eapply sorted_nodup; [exact before_irrefl|apply each_node_sorted].
Qed.
Theorem C38_each_value : forall n,
  (forall p i x, In ((p, i), x) (each_value true n) <-> value_at_path n p i = Some x) /\
  (forall p i x, In ((p, i), x) (each_value false n) <-> p = [] /\ nth_error (n_values n) i = Some x) /\
  (forall recursive, StronglySorted vbefore (map fst (each_value recursive n)) /\ NoDup (map fst (each_value recursive n))).
Proof.
  intros n. split; [apply each_value_in|]. split; [apply each_value_in_flat|]. intros rec. split; [apply each_value_sorted|].
  eapply sorted_nodup; [exact vbefore_irrefl|apply each_value_sorted].
Qed.
(** [before] is a strict total order, so the order is determined *)
Theorem C38_order_total : forall p q, (before p q \/ p = q \/ before q p) /\ ~ before p p.
Proof. intros. split; [apply before_total|apply before_irrefl]. Qed.
Theorem C38_find : forall recursive n q k, names q k ->
  find_nodes recursive n q = Ok (filter (fun x => bytes_eqb (fst (snd x)) k) (each_node recursive n)) /\
  find_values recursive n q = Ok (filter (fun x => bytes_eqb (fst (snd x)) k) (each_value recursive n)).
Proof. intros. split; [now apply find_nodes_spec|now apply find_values_spec]. Qed.
Print Assumptions C38_each_node.
Print Assumptions C38_each_value.
Print Assumptions C38_order_total.
Print Assumptions C38_find.
Example C38_ex : map fst (each_node true ex_tree) = [[0]; [0; 0]; [1]]%nat /\
  map fst (each_value true ex_tree) = [([], 0); ([], 1); ([], 2); ([0], 0); ([0], 1); ([0; 0], 0)]%nat /\
  (let* l := find_values true ex_tree ($"k", EUTF8) in Ok (map fst l)) = Ok [([0; 0], 0)]%nat.
Proof. vm_compute. repeat split; reflexivity. Qed.

(** * C19, C20 loading any bytes into a tree: no loop bound is exhausted, the input is left by what [load_ub] names only *)
Theorem C19_load_terminates : forall x p F src, wf_bytes src -> (2 * length src < F)%nat ->
  run_block (load_tree x F p) (set_block src) <> Fuel.
Proof. intros x p F src W L E. pose proof (load_any x p F src W L) as T. unfold triple in T. rewrite E in T. exact T. Qed.
Theorem C20_load_partial : forall x p F src u, wf_bytes src -> (2 * length src < F)%nat ->
  run_block (load_tree x F p) (set_block src) = UB u -> load_ub p src u.
Proof. intros x p F src u W L E. pose proof (load_any x p F src W L) as T. unfold triple in T. rewrite E in T. exact T. Qed.
Print Assumptions C19_load_terminates.
Print Assumptions C20_load_partial.
Example C19_load_ex : run_block (load_tree ex_fp 100 (JsonP (json_init true))) (set_block ($"[[[1,{""")) = UB UbEnd /\
  run_block (load_tree ex_fp 100 (MsgpP msgp_init)) (set_block [221; 255; 255; 255; 255; 1]) = Err.
Proof. vm_compute. split; reflexivity. Qed.

(** * C31 whole trees from streams *)
Theorem C31_msgpack_load_stream : forall x F st src, wf_bytes src -> (2 * length src < F)%nat ->
  match run_block (load_tree x F (MsgpP st)) (set_block src) with
  | Ok (r, _) => exists s, run_stream (load_tree x F (MsgpP st)) (set_stream src) = Ok (r, s)
  | Err => run_stream (load_tree x F (MsgpP st)) (set_stream src) = Err
  | UB _ | Fuel => False
  end.
Proof. exact msgp_load_stream. Qed.
(** what was saved in any format loads from a stream as from memory; full statement for PSrl without [short_names]: false *)
Theorem C31_load_saved_stream_partial : forall x p k n u, utf8_doc (tree_doc k n) u -> carries x p u -> (depth u <= 129)%nat ->
  (match p with PsrlP _ => short_names u | _ => True end) ->
  exists bs k' n', saves_as x p k n bs /\ loads_as x p bs k' n' /\ mdoc_of (tree_doc k' n') = delivered p u /\
  exists size, forall q F rest, same_format p q -> (size <= F)%nat -> wf_bytes rest ->
  exists q' s, run_stream (load_tree x F q) (set_stream (bs ++ rest)) = Ok ((q', (k', n')), s).
Proof.
  intros x p k n u U C D Sn. destruct (saved_stream x p k n u U C D Sn) as (bs & S1 & L1 & R). exists bs, (doc_name (dnorm p u)), (doc_node (dnorm p u)).
  repeat split; auto. exact (eq_trans (f_equal mdoc_of (loaded_tree_doc p k n u U)) (dnorm_delivered x p u C)).
Qed.
Print Assumptions C31_msgpack_load_stream.
Print Assumptions C31_load_saved_stream_partial.
Example C31_load_ex :
  let p := MsgpP msgp_init in match run_stream (load_tree ex_fp 1000 p) (set_stream (saved p [] ex_tree)) with
  | Ok (_, r, _) => Some r = loaded p (saved p [] ex_tree) /\ loaded p (saved p [] ex_tree) <> None | _ => False end.
Proof. vm_compute. split; [reflexivity|discriminate]. Qed.

(** * C51 reuse of a parser.  Writing: the bytes and exceptions do not depend on the past of the parser. *)
Theorem C51_write_reuse : forall x p q es, same_kind p q -> outcome (write_all x p es) = outcome (write_all x q es).
Proof. exact write_reuse. Qed.
(** reading the two binary formats *)
Theorem C51_read_reuse : forall x F p q b, same_kind p q -> (match p with JsonP _ => False | _ => True end) ->
  run_block (load_tree x F p) b = run_block (load_tree x F q) b.
Proof. exact load_reuse. Qed.
(** reading JSON with escapes: a new parser writes outside of its buffer where a used one does not *)
Theorem C51_json_read_reuse_refuted : exists src p F k n,
  run_block (load_tree ex_fp F (JsonP (json_init true))) (set_block src) = UB UbHeap /\
  (exists src0 r b, run_block (load_tree ex_fp F (JsonP (json_init true))) (set_block src0) = Ok ((p, r), b)) /\
  loaded p src = Some (k, n).
Proof.
  exists ($"[""123456789" ++ 92 :: $"u2020""]"). eexists. exists 200%nat. eexists _, _. split; [vm_compute; reflexivity|]. split.
  - exists ($"[""aaaaaaaaaaaaaaaaaaaaaaaaaaaaaaaaaaaaaaaaaaaaaaaaaaaaaaaaaaaaaaaa""]"). eexists _, _. vm_compute. reflexivity.
  - vm_compute. reflexivity.
Qed.
Print Assumptions C51_write_reuse.
Print Assumptions C51_read_reuse.
Print Assumptions C51_json_read_reuse_refuted.
Example C51_ex : (* a parser in the middle of a document that failed *)
  let used := JsonP (mkPjson true [TObject; TArray] TArray true [1; 2] [3]) in
  outcome (write_all ex_fp used (node_events [] ex_tree)) = outcome (write_all ex_fp (JsonP (json_init true)) (node_events [] ex_tree)) /\
  outcome (write_all ex_fp used (node_events [] ex_tree)) <> Err.
Proof. vm_compute. split; [reflexivity|discriminate]. Qed.

(** * C55 conversion before writing *)
(** strings, for text and binary formats *)
Theorem C55_strings : forall text_format x v, v_type v = TString -> wf_value v -> v_enc v <> EUnknown ->
  (v_enc v = EUTF8 -> exists v', env_value text_format x v = Ok v' /\ v_type v' = TString /\ v_data v' = v_data v) /\
  (forall cs, Forall scalar cs -> v_data v = text (v_enc v) cs -> zlen (text EUTF8 cs) < 2 ^ 32 ->
     exists v', env_value text_format x v = Ok v' /\ v_type v' = TString /\ v_data v' = text EUTF8 cs) /\
  (v_enc v <> EUTF8 -> (forall cs, Forall scalar cs -> v_data v <> text (v_enc v) cs) -> env_value text_format x v = Err).
Proof. exact env_string. Qed.
Theorem C55_unknown_encoding : forall x v, v_type v = TString -> v_enc v = EUnknown -> v_data v <> [] -> forall text_format, env_value text_format x v = Err.
Proof. exact env_unknown. Qed.
Theorem C55_binary : forall x v, v_type v = TBinary -> wf_value v -> zlen (v_data v) < 3 * 2 ^ 30 - 3 ->
  exists v', env_value true x v = Ok v' /\ v_type v' = TBinary /\ v_data v' = b64_text (v_data v) /\ b64_ref (v_data v') = Some (v_data v).
Proof. exact env_binary. Qed.
(** numbers, booleans, null.  Full statement: without [json_value], false for INT64_MIN (C06) and +-2^63 as a double (C28);
    doubles that are not whole print as the parameter [x_dtoa] says. *)
Theorem C55_scalars_partial : forall x v, is_scalar (v_type v) = true -> wf_value v -> json_value x v ->
  exists v', env_value true x v = Ok v' /\ v_type v' = v_type v /\ v_data v' = value_text x (meaning_of v).
Proof. exact env_scalar. Qed.
Theorem C55_others_unchanged : forall x v text_format,
  (is_scope (v_type v) = true \/ v_type v = TScopeEnd) \/ (text_format = false /\ v_type v <> TString) -> env_value text_format x v = Ok v.
Proof. exact env_other. Qed.
Print Assumptions C55_strings.
Print Assumptions C55_unknown_encoding.
Print Assumptions C55_binary.
Print Assumptions C55_scalars_partial.
Print Assumptions C55_others_unchanged.
Example C55_ex : (* the euro sign in UTF-16 *)
  env_value true ex_fp (val_string [172; 32] EUTF16) = Ok (val_block [226; 130; 172] TString) /\
  env_value false ex_fp (val_string [0; 216] EUTF16) = Err /\
  env_value true ex_fp (val_int TI16 (-32768)) = Ok (val_block ($"-32768") TI16) /\
  env_value true ex_fp (val_block [255; 1] TBinary) = Ok (val_block ($"/wE=") TBinary).
Proof. vm_compute. repeat split; reflexivity. Qed.

(** * C59 saving a node that belongs to no tree yet.  Full statement: to_source writes the node.  False: its name
    pointer is null and is dereferenced. *)
Theorem C59_save_loose_node_refuted : exists n, to_source_events None n = UB UbNull.
Proof. exists ex_tree. reflexivity. Qed.
(** a node that was inserted or loaded, or is a root *)
Theorem C59_save_node_partial : forall x p k n u, utf8_doc (tree_doc k n) u -> carries x p u -> (depth u <= 129)%nat ->
  exists es p' ops k' n', to_source_events (Some k) n = Ok es /\ write_all x p es = Ok (p', ops) /\ loads_as x p (spec_out ops) k' n' /\
    mdoc_of (tree_doc k' n') = delivered p u.
Proof.
  intros x p k n u U C D. destruct (saved_loaded x p k n u U C) as (bs & (p' & ops & E & _ & O & _) & L1).
  replace (Nat.leb (depth u) 129) with true in L1 by (symmetry; now apply Nat.leb_le).
  exists (node_events k n), p', ops, (doc_name (dnorm p u)), (doc_node (dnorm p u)). subst bs. repeat split; auto.
  exact (eq_trans (f_equal mdoc_of (loaded_tree_doc p k n u U)) (dnorm_delivered x p u C)).
Qed.
Print Assumptions C59_save_loose_node_refuted.
Print Assumptions C59_save_node_partial.
Example C59_ex : to_source_events (Some ($"r")) (mkNode TArray [([], val_int TI32 1)] []) =
  Ok [($"r", val_type TArray); ([], val_int TI32 1); ($"r", val_type TScopeEnd)].
Proof. reflexivity. Qed.
