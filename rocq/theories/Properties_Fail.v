(** C73: what an object holds when restoring it has failed. *)
From Coq Require Import ZArith List Bool.
From Verif Require Import Base M_Types M_Conv M_TpTools M_In S_Doc M_Env M_Event M_Tree M_TreeIO M_PSrl M_MsgPack M_Json M_Object M_ObjIO S_ObjStore S_Over M_Fail S_Fail P_Fail Properties_Object.
Import ListNotations.
Open Scope Z_scope.

(** * C73.  [restore_over], [paste_over]: the outcome of Tree::restore and of Node::paste, and the object afterwards.  The outcome is
    the one of the other properties; if it is a success the object holds the result. *)
Theorem C73_outcome : forall x F w q t o v i, whole o = Some v -> formed w t v ->
  fst (restore_over (@run_block) x F w q t o i) = (let* (r, _) := run_block (restore_object x F w q t v) i in Ok (snd r)) /\
  forall v' s, fst (restore_over (@run_block) x F w q t o i) = Ok (v', s) -> whole (snd (restore_over (@run_block) x F w q t o i)) = Some v' /\ formed w t v'.
Proof. intros x F w q t o v i W Fm. destruct (restore_over_block_says x F w q t o v i W Fm) as [H1 H2]. split; [exact H1|]. intros v' s E. now rewrite E in H2. Qed.
Theorem C73_stream_outcome : forall x F w q t o v i, whole o = Some v -> formed w t v ->
  fst (restore_over (@run_stream) x F w q t o i) = (let* (r, _) := run_stream (restore_object x F w q t v) i in Ok (snd r)) /\
  forall v' s, fst (restore_over (@run_stream) x F w q t o i) = Ok (v', s) -> whole (snd (restore_over (@run_stream) x F w q t o i)) = Some v' /\ formed w t v'.
Proof. intros x F w q t o v i W Fm. destruct (restore_over_stream_says x F w q t o v i W Fm) as [H1 H2]. split; [exact H1|]. intros v' s E. now rewrite E in H2. Qed.
Theorem C73_tree_outcome : forall F w t o v n s, whole o = Some v -> formed w t v ->
  unwrap_prog F w t v n s = elift (fst (paste_over F w t o n s)) /\
  forall v' s', fst (paste_over F w t o n s) = Ok (v', s') -> whole (snd (paste_over F w t o n s)) = Some v' /\ formed w t v'.
Proof. intros F w t o v n s W Fm. destruct (paste_over_says F w t o v n s W Fm) as [H1 H2]. split; [exact H1|]. intros v' s' E. now rewrite E in H2. Qed.
(** after an exception *)
Theorem C73_torn : forall x F w q t o v i, whole o = Some v -> formed w t v -> fst (restore_over (@run_block) x F w q t o i) = Err -> torn w t o (snd (restore_over (@run_block) x F w q t o i)).
Proof. intros x F w q t o v i W Fm E. destruct (restore_over_block_says x F w q t o v i W Fm) as [_ H2]. now rewrite E in H2. Qed.
Theorem C73_stream_torn : forall x F w q t o v i, whole o = Some v -> formed w t v -> fst (restore_over (@run_stream) x F w q t o i) = Err -> torn w t o (snd (restore_over (@run_stream) x F w q t o i)).
Proof. intros x F w q t o v i W Fm E. destruct (restore_over_stream_says x F w q t o v i W Fm) as [_ H2]. now rewrite E in H2. Qed.
Theorem C73_tree_torn : forall F w t o v n s, whole o = Some v -> formed w t v -> fst (paste_over F w t o n s) = Err -> torn w t o (snd (paste_over F w t o n s)).
Proof. intros F w t o v n s W Fm E. destruct (paste_over_says F w t o v n s W Fm) as [_ H2]. now rewrite E in H2. Qed.

(** Full statement: after an exception the object is unchanged.  Not true of classes, arrays, pairs and tuples, of HTable, Bytes
    and raw pointers. *)
Definition fl_cls (c : nat) : list field :=
  match c with 0%nat => pt_fields | 1%nat => [mkField ($"p") false (CPtr (CCls 0)); mkField ($"n") false (CNum TI32)] | _ => [mkField ($"l") false (CSeq (CNum TI32)); mkField ($"b") false CBits; mkField ($"a") false (CArr 2 (CCls 0))] end.
Definition fl_new (t : ct) : cv := match t with CCls 0%nat => pt 0 [] | _ => ex_new t end.
Definition fl_world : world := mkWorld ex_fp fl_cls (fun _ => []) (fun _ _ => Ok None) fl_new ex_lt.
Definition fl_run (bs : bytes) (t : ct) (o : obj) : res cv * obj := let (r, o') := restore_over (@run_block) ex_fp 400 fl_world json_p t o (mkBlk [] bs) in (let* x := r in Ok (fst x), o').
Definition fl_tree (bs : bytes) (t : ct) (o : obj) : res cv * obj :=
  match run_block (load_tree ex_fp 400 json_p) (mkBlk [] bs) with
  | Ok (r, _) => let (r, o') := paste_over 400 fl_world t o (snd (snd r)) rs_new in (let* x := r in Ok (fst x), o')
  | _ => (Fuel, o)
  end.
Theorem C73_class_refuted : exists bs a b, fl_run bs (CCls 0) (OVal a) = (Err, b) /\ fl_tree bs (CCls 0) (OVal a) = (Err, b) /\ whole b = Some (pt 7 ($"old")) /\ a = pt 1 ($"old").
Proof. exists (js ($"{'x':7,'tag':[]}")), (pt 1 ($"old")), (OMem [OVal (VNum 7); OVal (VStr ($"old"))]). repeat split; vm_compute; reflexivity. Qed.
Theorem C73_table_refuted : exists bs a b, fl_run bs (CTab (CNum TI32)) (OVal a) = (Err, b) /\ fl_tree bs (CTab (CNum TI32)) (OVal a) = (Err, b) /\ whole b = Some (VTab [($"new", VNum 5)]) /\ a = VTab [($"old", VNum 1)].
Proof. exists (js ($"{'new':5,'bad':'?'}")), (VTab [($"old", VNum 1)]), (OVal (VTab [($"new", VNum 5)])). repeat split; vm_compute; reflexivity. Qed.
(** Full statement: after an exception the object can be used, destroyed and restored again.  Not true of raw pointers and of
    pointers to registered classes: the old object was deleted, the pointer still refers to it *)
Theorem C73_pointer_refuted : exists bs p, fl_run bs (CPtr (CCls 0)) (OVal (VSome p)) = (Err, ODead (VSome p)) /\ fl_tree bs (CPtr (CCls 0)) (OVal (VSome p)) = (Err, ODead (VSome p)) /\
  fst (fl_run (js ($"{'x':7,'tag':'new'}")) (CPtr (CCls 0)) (ODead (VSome p))) = UB UbHeap.
Proof. exists (js ($"{'x':7}")), (pt 1 ($"old")). repeat split; vm_compute; reflexivity. Qed.
Theorem C73_pointer_again : forall F w e v n s, v <> VNone -> scoped (CPtr e) = true -> paste_over (S F) w (CPtr e) (ODead v) n s = (UB UbHeap, ODead v).
Proof. exact dead_again. Qed.
(** True of everything else: unchanged *)
Theorem C73_unchanged_partial : forall w t x o, torn w t x o -> assigned w t -> o = x.
Proof. exact torn_assigned. Qed.
(** without raw pointers: a complete object *)
Theorem C73_complete_partial : forall w t x o, torn w t x o -> owned w t -> complete w t x -> complete w t o.
Proof. exact torn_complete. Qed.
(** and restoring once more gives what it gives with a new object [b] (C69 says which types are [rewritten]) *)
Theorem C73_again_partial : forall strs F w q t x o v b i, rewritten strs w t -> owned w t -> complete w t x -> torn w t x o -> shape w t b -> (strs = true -> block_without_null (w_fp w) F q i) ->
  run_block (restore_object (w_fp w) F w q t b) i = Ok v ->
  exists s, fst (restore_over (@run_block) (w_fp w) F w q t o i) = Ok (fst (snd (fst v)), s) /\ whole (snd (restore_over (@run_block) (w_fp w) F w q t o i)) = Some (fst (snd (fst v))).
Proof. exact again_block. Qed.
Theorem C73_stream_again_partial : forall strs F w q t x o v b i, rewritten strs w t -> owned w t -> complete w t x -> torn w t x o -> shape w t b -> (strs = true -> stream_without_null (w_fp w) F q i) ->
  run_stream (restore_object (w_fp w) F w q t b) i = Ok v ->
  exists s, fst (restore_over (@run_stream) (w_fp w) F w q t o i) = Ok (fst (snd (fst v)), s) /\ whole (snd (restore_over (@run_stream) (w_fp w) F w q t o i)) = Some (fst (snd (fst v))).
Proof. exact again_stream. Qed.
Print Assumptions C73_outcome.
Print Assumptions C73_stream_outcome.
Print Assumptions C73_tree_outcome.
Print Assumptions C73_torn.
Print Assumptions C73_stream_torn.
Print Assumptions C73_tree_torn.
Print Assumptions C73_class_refuted.
Print Assumptions C73_table_refuted.
Print Assumptions C73_pointer_refuted.
Print Assumptions C73_pointer_again.
Print Assumptions C73_unchanged_partial.
Print Assumptions C73_complete_partial.
Print Assumptions C73_again_partial.
Print Assumptions C73_stream_again_partial.

(** fails inside of the second element of the array; then once more; a vector that fails; a pointer as a member *)
Definition fl_old : cv := VList [VList [VNum 1]; VStr [1; 2]; VList [pt 1 ($"a"); pt 2 ($"b")]].
Definition fl_bad : bytes := js ($"{'l':[4,5],'b':'AAEC','a':[{'x':8,'tag':'c'},{'x':9,'tag':{}}]}").
Definition fl_good : bytes := js ($"{'l':[],'b':'AAEC','a':[{'x':8,'tag':'c'},{'x':9,'tag':'d'}]}").
Definition fl_left : cv := VList [VList [VNum 4; VNum 5]; VStr [0; 1; 2]; VList [pt 8 ($"c"); pt 9 ($"b")]].
Example C73_ex : whole (snd (fl_run fl_bad (CCls 2) (OVal fl_old))) = Some fl_left /\ fst (fl_run fl_bad (CCls 2) (OVal fl_old)) = Err /\
  fst (fl_run fl_good (CCls 2) (snd (fl_run fl_bad (CCls 2) (OVal fl_old)))) = Ok (VList [VList []; VStr [0; 1; 2]; VList [pt 8 ($"c"); pt 9 ($"d")]]) /\
  fl_run (js ($"[1,2,'x']")) (CSeq (CNum TI32)) (OVal (VList [VNum 5])) = (Err, OVal (VList [VNum 5])) /\
  fl_run (js ($"{'p':{'x':7},'n':1}")) (CCls 1) (OVal (VList [VSome (pt 1 ($"o")); VNum 5])) = (Err, OMem [ODead (VSome (pt 1 ($"o"))); OVal (VNum 5)]) /\
  fl_run (js ($"{'p':{'x':7,'tag':'n'},'n':[]}")) (CCls 1) (OVal (VList [VSome (pt 1 ($"o")); VNum 5])) = (Err, OMem [OVal (VSome (pt 7 ($"n"))); OVal (VNum 5)]).
Proof. split; [vm_compute; reflexivity|]. split; [vm_compute; reflexivity|]. split; [vm_compute; reflexivity|]. split; [vm_compute; reflexivity|]. split; vm_compute; reflexivity. Qed.
Lemma fl_formed : formed fl_world (CCls 2) fl_old.
Proof.
  assert (P : forall n s, formed fl_world (CCls 0) (pt n s)) by (intros n s; eapply fm_mem; [reflexivity|]; repeat (apply Forall2_cons; [apply fm_any; [reflexivity|discriminate]|]); apply Forall2_nil).
  eapply fm_mem; [reflexivity|]. cbn [fl_world w_cls fl_cls map f_type]. apply Forall2_cons; [apply fm_any; [reflexivity|discriminate]|]. apply Forall2_cons; [apply fm_any; [reflexivity|eauto]|]. apply Forall2_cons; [|apply Forall2_nil].
  eapply fm_mem; [reflexivity|]. repeat (apply Forall2_cons; [apply P|]). apply Forall2_nil.
Qed.
Example C73_premises_ex : formed fl_world (CCls 2) fl_old /\ owned fl_world (CCls 2) /\ ~ owned fl_world (CCls 1) /\ assigned fl_world (CUniq (CCls 1)) /\ rewritten true fl_world (CCls 2) /\
  torn fl_world (CCls 2) (OVal fl_old) (snd (fl_run fl_bad (CCls 2) (OVal fl_old))).
Proof.
  split; [exact fl_formed|]. split; [|split; [|split; [|split]]].
  - eapply ow_mem; [reflexivity|]. cbn [fl_world w_cls fl_cls map f_type]. repeat apply Forall_cons; try apply Forall_nil; [apply ow_any; [reflexivity|exact I]..|]. eapply ow_mem; [reflexivity|]. cbn [repeat].
    assert (O : owned fl_world (CCls 0)) by (eapply ow_mem; [reflexivity|]; repeat (apply Forall_cons; [apply ow_any; [reflexivity|exact I]|]); apply Forall_nil). auto.
  - intros O. inversion O as [? M|? ts M H]; subst; [discriminate|]. injection M as <-. inversion H as [|? ? P]; subst. inversion P as [? _ B|? ? M]; [destruct B|discriminate].
  - split; [reflexivity|exact I].
  - apply rw_cls. cbn [fl_world w_cls fl_cls]. repeat (apply Forall_cons; [split; [reflexivity|]|]); try apply Forall_nil; try (apply rw_new; exact I). cbn [f_type]. apply rw_arr, rw_cls. cbn [fl_world w_cls fl_cls pt_fields].
    repeat (apply Forall_cons; [split; [reflexivity|]|]); try apply Forall_nil; apply rw_new; exact I || reflexivity.
  - unfold fl_run. pose proof (C73_torn ex_fp 400 fl_world json_p (CCls 2) (OVal fl_old) fl_old (mkBlk [] fl_bad) eq_refl fl_formed) as T.
    destruct (restore_over _ _ _ _ _ _ _ _) as [r o] eqn:E. cbn [fst snd] in *. apply T.
    assert (X : fst (restore_over (@run_block) ex_fp 400 fl_world json_p (CCls 2) (OVal fl_old) (mkBlk [] fl_bad)) = Err) by (vm_compute; reflexivity). now rewrite E in X.
Qed.
