(** C77: documents put together by hand, in a tree and while they are written. *)
From Coq Require Import ZArith List Bool Lia.
From Verif Require Import Base Lemmas M_Types M_Conv M_TpTools M_In S_Doc M_Env M_Event M_Tree S_Tree M_TreeIO S_TreeIO M_PSrl M_MsgPack M_Json M_Heap M_Out M_Object S_Object S_ObjStore M_ObjIO S_ObjIO M_Pack S_Pack M_Insert S_Insert
  M_Build S_Build P_Build Properties_Object.
Import ListNotations.
Open Scope Z_scope.

(** * Full statement: insertions of objects, Values, Nodes, initializer lists and ScopeWraps (lists of insertions) make the same document whether they are made into a tree that is saved
    afterwards (Tree::root, Node::insert, Tree::to_source) or while the document is written (Tree::pack).  Not true. *)
Definition bu_packed (l : list ins) : res bytes := let* (_, bs, _) := pack_build ex_fp 50 ex_world [] json_p (heap_init no_mem) l in Ok bs.
Definition bu_saved (l : list ins) : res bytes := let* (n, _) := build 50 ex_world [] l (empty_node TObject) [] in let* (_, bs, _) := save_tree ex_fp json_p (heap_init no_mem) [] n in Ok bs.
(** the elements of an initializer list are written behind the list *)
Theorem C77_list_refuted : exists l, bu_saved l = Ok (js ($"{'a':[1,2],'p':{'x':5,'tag':'t'}}")) /\ bu_packed l = Ok (js ($"{'a':[],'':1,'':2,'p':{'x':5,'tag':'t'}}")).
Proof. exists [InList ($"a") (CNum TI32) [VNum 1; VNum 2]; InObj (mkItem ($"p") (CCls 0) (pt 5 ($"t")))]. split; vm_compute; reflexivity. Qed.
(** a tree writes values before objects *)
Theorem C77_order_refuted : exists l, bu_saved l = Ok (js ($"{'n':7,'s':{'x':1}}")) /\ bu_packed l = Ok (js ($"{'s':{'x':1},'n':7}")).
Proof. exists [InScope ($"s") TObject true [InValue ($"x") (val_int TI32 1)]; InValue ($"n") (val_int TI32 7)]. split; vm_compute; reflexivity. Qed.
(** a ScopeWrap made from a lambda and kept in a variable calls a function that does not exist any more *)
Theorem C77_wrap_refuted : exists k tp l, bu_saved [InScope k tp true l] = Ok (js ($"{'s':[1]}")) /\ bu_saved [InScope k tp false l] = UB UbDangling /\ bu_packed [InScope k tp false l] = UB UbDangling.
Proof. exists ($"s"), TArray, [InValue [] (val_int TI32 1)]. split; [|split]; vm_compute; reflexivity. Qed.

(** True without initializer lists: what is packed and what is saved load as the same tree, and this is the document that the insertions stand for, with the values first. *)
Theorem C77_same_partial : forall w hp p l ds tab u, all_stand w hp l [] ds tab -> Forall unlisted l -> utf8_doc (DScope [] TObject ds) u -> carries (w_fp w) p u -> (depth u <= 129)%nat ->
  exists bs bs' k' n n', hand_packs w hp p l bs /\ builds w hp l n /\ saves_as (w_fp w) p [] n bs' /\ loads_as (w_fp w) p bs k' n' /\ loads_as (w_fp w) p bs' k' n' /\
    mdoc_of (tree_doc k' n') = delivered p (values_first u).
Proof. exact packed_same. Qed.
(** ... and the bytes are the same if in every scope the values are inserted first *)
Theorem C77_bytes_partial : forall w hp p l ds tab u, all_stand w hp l [] ds tab -> Forall unlisted l -> utf8_doc (DScope [] TObject ds) u -> carries (w_fp w) p u -> values_first (DScope [] TObject ds) = DScope [] TObject ds ->
  exists bs n, hand_packs w hp p l bs /\ builds w hp l n /\ saves_as (w_fp w) p [] n bs.
Proof. exact packed_bytes. Qed.
(** With initializer lists: an initializer list is packed as an empty array, and its elements follow without names *)
Theorem C77_spilled : forall w hp p l ds tab u, all_stand w hp (flat_map spill l) [] ds tab -> utf8_doc (DScope [] TObject ds) u -> carries (w_fp w) p u -> (depth u <= 129)%nat ->
  exists bs bs' k' n n', hand_packs w hp p l bs /\ builds w hp (flat_map spill l) n /\ saves_as (w_fp w) p [] n bs' /\ loads_as (w_fp w) p bs k' n' /\ loads_as (w_fp w) p bs' k' n' /\
    mdoc_of (tree_doc k' n') = delivered p (values_first u).
Proof. exact packed. Qed.
(** In a tree, initializer lists included: the items are added behind those that the node has *)
Theorem C77_built : forall w hp n l tab ds tab', all_stand w hp l tab ds tab' -> exists size, forall F, (size <= F)%nat ->
  build F w hp l n tab = Ok (mkNode (n_type n) (n_values n ++ n_values (doc_node (DScope [] TObject ds))) (n_nodes n ++ n_nodes (doc_node (DScope [] TObject ds))), tab').
Proof. exact built_node. Qed.
(** The premise [all_stand] holds if the objects can be stored and the functions of the ScopeWraps exist *)
Theorem C77_stands : forall w hp lev n, S_ObjStore.heap_ok w hp lev any_value -> forall l, Forall callable l -> Forall (fun i => storable w hp lev any_value n (i_type i) (i_val i)) (flat_map objects l) ->
  forall tab, exists ds tab', all_stand w hp l tab ds tab'.
Proof. exact all_total. Qed.
(** Tree::pack of objects only is what C68 is about *)
Theorem C77_objects : forall x F w hp p h its, pack_build x F w hp p h (map InObj its) = pack_object x (S F) w hp p h its.
Proof. exact pack_objects. Qed.

(** * Examples: a part of another tree, a scope in a scope, an object, a number *)
Definition bu_node : node := mkNode TArray [([], val_string ($"q") EUTF8)] [([], mkNode TObject [($"y", val_int TUI8 2)] [])].
Definition bu_list : list ins :=
  [InScope ($"s") TArray true [InValue [] (val_int TI32 1); InScope [] TObject true [InNode ($"m") bu_node false]]; InObj (mkItem ($"p") (CCls 0) (pt 5 ($"t"))); InValue ($"n") (val_int TI32 7); InNode ($"o") bu_node true].
Definition bu_docs : list doc :=
  [DScope ($"s") TArray [DVal [] (val_int TI32 1); DScope [] TObject [tree_doc ($"m") bu_node]]; DScope ($"p") TObject [DVal ($"x") (val_int TI32 5); DVal ($"tag") (val_string ($"t") EUTF8)]; DVal ($"n") (val_int TI32 7); tree_doc ($"o") bu_node].
Lemma bu_stand : all_stand ex_world [] bu_list [] bu_docs [] /\ Forall unlisted bu_list.
Proof.
  split; [|repeat constructor]. apply (as_cons _ _ _ _ _ _ []); [apply sd_scope|apply (as_cons _ _ _ _ _ _ []); [apply sd_obj|apply (as_cons _ _ _ _ _ _ []); [apply sd_value|apply (as_cons _ _ _ _ _ _ []); [apply sd_node|apply as_nil]]]].
  - apply (as_cons _ _ _ _ _ _ []); [apply sd_value|apply (as_cons _ _ _ _ _ _ []); [apply sd_scope|apply as_nil]]. apply (as_cons _ _ _ _ _ _ []); [apply sd_node|apply as_nil].
  - exists 2%nat. intros [|[|F]] L; [lia|lia|]. vm_compute. reflexivity.
Qed.
Lemma bu_fits : utf8_doc (DScope [] TObject bu_docs) (DScope [] TObject bu_docs) /\ carries ex_fp (MsgpP msgp_init) (DScope [] TObject bu_docs) /\ carries ex_fp (PsrlP psrl_init) (DScope [] TObject bu_docs) /\ (depth (DScope [] TObject bu_docs) <= 129)%nat.
Proof.
  assert (U : forall v, (v_type v = TString -> v_enc v = EUTF8) -> forall k, utf8_doc (DVal k v) (DVal k v)) by (intros; constructor; now constructor).
  assert (W : wf_doc (DScope [] TObject bu_docs)).
  { cbn. repeat split; auto; try (intros ? [<-|[]]; lia); try lia; try (exists 1; split; [unfold in_range; cbn; lia|reflexivity]); try (exists 2; split; [unfold in_range; cbn; lia|reflexivity]); try (exists 5; split; [unfold in_range; cbn; lia|reflexivity]); try (exists 7; split; [unfold in_range; cbn; lia|reflexivity]); repeat constructor; try lia. }
  split; [|split; [|split]].
  - unfold bu_docs, bu_node. cbn [tree_doc map app fst snd]. repeat first [apply U; let E := fresh in intros E; first [reflexivity|discriminate E] | apply ud_scope | constructor].
  - split; [exact W|]. split; [exact I|]. cbn. repeat split; lia.
  - split; [exact W|]. split; [exact I|]. split; [|vm_compute; reflexivity]. cbn. repeat split; discriminate.
  - vm_compute. lia.
Qed.
Example C77_ex : bu_packed bu_list = Ok (js ($"{'s':[1,{'m':['q',{'y':2}]}],'p':{'x':5,'tag':'t'},'n':7,'o':['q',{'y':2}]}")) /\ bu_saved bu_list = Ok (js ($"{'n':7,'s':[1,{'m':['q',{'y':2}]}],'p':{'x':5,'tag':'t'},'o':['q',{'y':2}]}")).
Proof. split; vm_compute; reflexivity. Qed.
Example C77_premises_ex : exists bs bs' k' n n', hand_packs ex_world [] (MsgpP msgp_init) bu_list bs /\ builds ex_world [] bu_list n /\ saves_as ex_fp (MsgpP msgp_init) [] n bs' /\ loads_as ex_fp (MsgpP msgp_init) bs k' n' /\ loads_as ex_fp (MsgpP msgp_init) bs' k' n' /\
  mdoc_of (tree_doc k' n') = delivered (MsgpP msgp_init) (values_first (DScope [] TObject bu_docs)).
Proof. destruct bu_stand as [A U]. destruct bu_fits as (B & C & _ & D). exact (C77_same_partial ex_world [] (MsgpP msgp_init) bu_list bu_docs [] _ A U B C D). Qed.
(** an initializer list in a list: the elements land in the list around it *)
Example C77_ex_spilled : let l := [InScope ($"s") TArray true [InList [] (CNum TI32) [VNum 1; VNum 2]; InValue [] (val_int TI32 3)]] in
  bu_packed l = Ok (js ($"{'s':[[],1,2,3]}")) /\ bu_saved l = Ok (js ($"{'s':[3,[1,2]]}")) /\ bu_packed (flat_map spill l) = bu_packed l.
Proof. split; [|split]; vm_compute; reflexivity. Qed.
(** A new tree is an object or an array, as it was asked for *)
Theorem C77_new_tree : forall w hp p tp l ds tab u, tp = TObject \/ tp = TArray -> all_stand w hp l [] ds tab -> utf8_doc (DScope [] tp ds) u -> carries (w_fp w) p u -> (depth u <= 129)%nat ->
  exists size n bs k' n', (forall F, (size <= F)%nat -> build F w hp l (t_root (new_tree tp)) [] = Ok (n, tab)) /\ saves_as (w_fp w) p [] n bs /\ loads_as (w_fp w) p bs k' n' /\
    mdoc_of (tree_doc k' n') = delivered p (values_first u).
Proof. exact new_tree_saved. Qed.
Example C77_ex_new : (let* (n, _) := build 50 ex_world [] bu_list (t_root (new_tree TArray)) [] in let* (_, bs, _) := save_tree ex_fp json_p (heap_init no_mem) [] n in Ok bs) = Ok (js ($"[7,[1,{'m':['q',{'y':2}]}],{'x':5,'tag':'t'},['q',{'y':2}]]")).
Proof. vm_compute. reflexivity. Qed.
Print Assumptions C77_list_refuted.
Print Assumptions C77_new_tree.
Print Assumptions C77_order_refuted.
Print Assumptions C77_wrap_refuted.
Print Assumptions C77_same_partial.
Print Assumptions C77_bytes_partial.
Print Assumptions C77_spilled.
Print Assumptions C77_built.
Print Assumptions C77_stands.
Print Assumptions C77_objects.
