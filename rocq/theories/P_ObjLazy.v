(** Restoring from events is what the document says, if it is accepted strictly. *)
From Coq Require Import ZArith List Bool Lia ZifyBool ZifyNat.
From Verif Require Import Base Lemmas M_Types M_Conv M_TpTools M_Charset M_In S_Conv S_Charset S_Doc P_Text M_Env M_Tree S_Tree P_Doc P_Tree P_TreeOps M_Object S_Object P_ObjEager.
Import ListNotations.
Open Scope Z_scope.

(** * Strictly accepted documents are accepted, with the same result *)
Section Weaken.
Variable w : world.
Variables b1 b2 : bool.
Hypothesis Hb : b2 = true -> b1 = true.
Variables dt df : ct -> cv -> doc -> rstate -> res (cv * rstate * nat).
Hypothesis W : forall t old d s r, dt t old d s = Ok r -> df t old d s = Ok r.
Lemma weak_quiet its u : quiet b1 its u = true -> quiet b2 its u = true.
Proof. unfold quiet. destruct b2; [rewrite Hb by reflexivity; auto|reflexivity]. Qed.
Lemma weak_child t old d s r : dchild w b1 dt t old d s = Ok r -> dchild w b2 df t old d s = Ok r.
Proof.
  destruct d as [k v|k ty its]; [exact (fun H => H)|]. unfold dchild.
  destruct (dt t old (DScope k ty its) s) as [[[v s'] u]| | |] eqn:E; cbn [rbind]; try discriminate. rewrite (W _ _ _ _ _ E). cbn [rbind].
  destruct (quiet b1 its u) eqn:Q; [|discriminate]. rewrite (weak_quiet _ _ Q). exact (fun H => H).
Qed.
Lemma weak_field t id old its s r : dfield w b1 dt t id old its s = Ok r -> dfield w b2 df t id old its s = Ok r.
Proof.
  unfold dfield. destruct (select (scoped t) id its) as [[j d]|]; [|discriminate].
  destruct (dchild w b1 dt t old d s) as [[v s']| | |] eqn:E; cbn [rbind]; try discriminate. now rewrite (weak_child _ _ _ _ _ E).
Qed.
Lemma weak_fields its : forall fs olds s vi ni r, dfields w b1 dt fs olds its s vi ni = Ok r -> dfields w b2 df fs olds its s vi ni = Ok r.
Proof.
  induction fs as [|f fs IH]; intros olds s vi ni r; [exact (fun H => H)|]. destruct olds as [|old olds]; [discriminate|].
  cbn [dfields]. destruct (f_opt f && b1 && existsb (of_name (negb (scoped (f_type f))) (f_name f)) its) eqn:O1; [discriminate|].
  assert (O2 : f_opt f && b2 && existsb (of_name (negb (scoped (f_type f))) (f_name f)) its = false).
  { destruct b2; [rewrite Hb in O1 by reflexivity; exact O1|]. now rewrite andb_false_r. }
  rewrite O2.
  destruct (f_opt f && negb (existsb (of_name (scoped (f_type f)) (f_name f)) its)).
  - destruct (dfields w b1 dt fs olds its s vi ni) as [[[vs s'] u]| | |] eqn:E; cbn [rbind]; try discriminate. now rewrite (IH _ _ _ _ _ E).
  - destruct (dfield w b1 dt (f_type f) _ old its s) as [[[v s1] u1]| | |] eqn:E; cbn [rbind]; try discriminate. rewrite (weak_field _ _ _ _ _ _ E). cbn [rbind].
    destruct (dfields w b1 dt fs olds its s1 _ _) as [[[vs s'] u]| | |] eqn:E2; cbn [rbind]; try discriminate. now rewrite (IH _ _ _ _ _ E2).
Qed.
Lemma weak_each {B} (f g : doc -> B -> rstate -> res (B * rstate)) : (forall d a s r, f d a s = Ok r -> g d a s = Ok r) ->
  forall l acc s r, deach f l acc s = Ok r -> deach g l acc s = Ok r.
Proof.
  intros H. induction l as [|d l IH]; intros acc s r; [exact (fun H => H)|]. cbn [deach]. destruct (f d acc s) as [[a s']| | |] eqn:E; cbn [rbind]; try discriminate.
  rewrite (H _ _ _ _ E). cbn [rbind]. apply IH.
Qed.
Lemma weak_array e : forall olds l s r, darray w b1 dt e olds l s = Ok r -> darray w b2 df e olds l s = Ok r.
Proof.
  induction olds as [|old olds IH]; intros l s r; [exact (fun H => H)|]. destruct l as [|d l]; [exact (fun H => H)|]. cbn [darray].
  destruct (dchild w b1 dt e old d s) as [[v s1]| | |] eqn:E; cbn [rbind]; try discriminate. rewrite (weak_child _ _ _ _ _ E). cbn [rbind].
  destruct (darray w b1 dt e olds l s1) as [[vs s2]| | |] eqn:E2; cbn [rbind]; try discriminate. now rewrite (IH _ _ _ E2).
Qed.
Lemma weak_elem {B} (add : cv -> B -> B) e d acc s r : delem w b1 dt add e d acc s = Ok r -> delem w b2 df add e d acc s = Ok r.
Proof. unfold delem. destruct (dchild w b1 dt e (w_new w e) d s) as [[v s1]| | |] eqn:E; cbn [rbind]; try discriminate. now rewrite (weak_child _ _ _ _ _ E). Qed.
Lemma weak_tab e d acc s r : dtab w b1 dt e d acc s = Ok r -> dtab w b2 df e d acc s = Ok r.
Proof. unfold dtab. destruct (dchild w b1 dt e (w_new w e) d s) as [[v s1]| | |] eqn:E; cbn [rbind]; try discriminate. now rewrite (weak_child _ _ _ _ _ E). Qed.
Lemma weak_entry k e d acc s r : dentry w b1 dt k e d acc s = Ok r -> dentry w b2 df k e d acc s = Ok r.
Proof.
  unfold dentry. destruct (dfield w b1 dt k _ _ _ s) as [[[x s1] u1]| | |] eqn:E; cbn [rbind]; try discriminate. rewrite (weak_field _ _ _ _ _ _ E). cbn [rbind].
  destruct (dfield w b1 dt e _ _ _ s1) as [[[y s2] u2]| | |] eqn:E2; cbn [rbind]; try discriminate. rewrite (weak_field _ _ _ _ _ _ E2). cbn [rbind].
  destruct (quiet b1 _ _) eqn:Q; [|discriminate]. rewrite (weak_quiet _ _ Q). exact (fun H => H).
Qed.
Lemma weak_step t old k ty its s r : dstep w b1 dt t old k ty its s = Ok r -> dstep w b2 df t old k ty its s = Ok r.
Proof.
  unfold dstep. cbv zeta.
  assert (FS : forall fs old vi (u0 : nat) (mk : list cv -> cv),
     match old with VList olds => let* (vs, s', u) := dfields w b1 dt fs olds its s vi 0 in Ok (mk vs, s', Nat.max u0 u) | _ => Err end = Ok r ->
     match old with VList olds => let* (vs, s', u) := dfields w b2 df fs olds its s vi 0 in Ok (mk vs, s', Nat.max u0 u) | _ => Err end = Ok r).
  { intros fs [] vi u0 mk; try discriminate. destruct (dfields w b1 dt fs vs its s vi 0) as [[[x s'] u]| | |] eqn:E; cbn [rbind]; try discriminate. now rewrite (weak_fields _ _ _ _ _ _ _ E). }
  destruct t; try discriminate.
  - destruct (negb _); [discriminate|apply FS].
  - destruct (negb _); [discriminate|]. destruct (deach _ _ [] s) as [[? ?]| | |] eqn:E; cbn [rbind]; try discriminate. now rewrite (weak_each _ (delem w b2 df _ t) (fun d a s r => weak_elem _ t d a s r) _ _ _ _ E).
  - destruct (negb _); [discriminate|]. destruct (deach _ _ [] s) as [[? ?]| | |] eqn:E; cbn [rbind]; try discriminate. now rewrite (weak_each _ (delem w b2 df _ t) (fun d a s r => weak_elem _ t d a s r) _ _ _ _ E).
  - destruct (negb _); [discriminate|]. destruct (deach _ _ [] s) as [[? ?]| | |] eqn:E; cbn [rbind]; try discriminate. now rewrite (weak_each _ (dentry w b2 df t1 t2) (fun d a s r => weak_entry t1 t2 d a s r) _ _ _ _ E).
  - destruct (negb _); [discriminate|]. destruct (deach _ _ [] s) as [[? ?]| | |] eqn:E; cbn [rbind]; try discriminate. now rewrite (weak_each _ (dtab w b2 df t) (fun d a s r => weak_tab t d a s r) _ _ _ _ E).
  - destruct (negb _); [discriminate|]. destruct old; try discriminate. destruct (negb _); [discriminate|]. destruct (negb _); [discriminate|].
    destruct (darray w b1 dt t vs _ s) as [[? ?]| | |] eqn:E; cbn [rbind]; try discriminate. now rewrite (weak_array _ _ _ _ _ E).
  - destruct (negb _); [discriminate|]. destruct old as [| |[|oa [|ob [|? ?]]]| | | | | |]; try discriminate.
    destruct (dfield w b1 dt t1 _ _ _ s) as [[[x s1] u1]| | |] eqn:E; cbn [rbind]; try discriminate. rewrite (weak_field _ _ _ _ _ _ E). cbn [rbind].
    destruct (dfield w b1 dt t2 _ _ _ s1) as [[[y s2] u2]| | |] eqn:E2; cbn [rbind]; try discriminate. now rewrite (weak_field _ _ _ _ _ _ E2).
  - destruct (negb _); [discriminate|apply FS].
  - destruct (dt t _ _ s) as [[[x s'] u]| | |] eqn:E; cbn [rbind]; try discriminate. now rewrite (W _ _ _ _ _ E).
  - destruct (dt t _ _ s) as [[[x s'] u]| | |] eqn:E; cbn [rbind]; try discriminate. now rewrite (W _ _ _ _ _ E).
  - destruct (dfield w b1 dt _ _ _ _ s) as [[[x s1] u1]| | |] eqn:E; cbn [rbind]; try discriminate. rewrite (weak_field _ _ _ _ _ _ E). cbn [rbind].
    destruct x; try discriminate. destruct (find_key n (r_tab s1)); [exact (fun H => H)|].
    destruct (dfield w b1 dt t _ _ _ s1) as [[[y s2] u2]| | |] eqn:E2; cbn [rbind]; try discriminate. now rewrite (weak_field _ _ _ _ _ _ E2).
  - destruct (dfield w b1 dt _ _ _ _ s) as [[[x s1] u1]| | |] eqn:E; cbn [rbind]; try discriminate. rewrite (weak_field _ _ _ _ _ _ E). cbn [rbind].
    destruct x; try discriminate. destruct (find_key n (r_tab s1)); [exact (fun H => H)|].
    destruct (dfield w b1 dt t _ _ _ s1) as [[[y s2] u2]| | |] eqn:E2; cbn [rbind]; try discriminate. now rewrite (weak_field _ _ _ _ _ _ E2).
  - destruct (negb _); [discriminate|]. destruct (select false (IdName str_type_id) its) as [[j [kk v|]]|]; try discriminate.
    destruct (_ && _); [discriminate|]. destruct (w_reg w _ (v_data v, v_enc v)) as [[c|]| | |]; cbn [rbind]; try discriminate. apply FS.
Qed.
End Weaken.
Theorem said_more : forall F G w (b1 b2 : bool) t old d s r, (b2 = true -> b1 = true) -> (F <= G)%nat -> said F w b1 t old d s = Ok r -> said G w b2 t old d s = Ok r.
Proof.
  induction F as [|f IH]; intros G w b1 b2 t old d s r Hb L; [discriminate|]. destruct G as [|g]; [lia|]. cbn [said]. destruct d as [|k ty its]; [discriminate|].
  apply weak_step; [exact Hb|]. intros. eapply IH; eauto. lia.
Qed.

(** * Reading *)
Definition unode (t : ty) (its : list doc) : lnode := mkL false (mkNode t (vals_of its) (subs_of its)).
Definition matches (sc : bool) (id : fid) (d : doc) : bool := Bool.eqb (is_sc d) sc && id_matches id (doc_name d).
Lemma bytes_eqb_sym a b : bytes_eqb a b = bytes_eqb b a.
Proof. destruct (bytes_eqb_spec a b) as [->|N]; [now rewrite bytes_eqb_refl|]. symmetry. apply bytes_eqb_neq. congruence. Qed.
Lemma matches_name sc k d : matches sc (IdName k) d = of_name sc k d.
Proof. unfold matches, of_name, id_matches. now rewrite bytes_eqb_sym. Qed.
Lemma matches_pos sc i d : matches sc (IdPos i) d = of_kind sc d.
Proof. unfold matches, of_kind, id_matches. now rewrite andb_true_r. Qed.
Lemma matches_kind sc id d : matches sc id d = true -> is_sc d = sc.
Proof. unfold matches. intros H. apply andb_prop in H. now apply eqb_prop. Qed.

Definition head_event (d : doc) : event := match d with DVal k v => (k, v) | DScope k t _ => (k, val_type t) end.
Definition content (d : doc) : list event := match d with DVal _ _ => [] | DScope _ _ its => flat_map events its ++ [ev_end] end.
Lemma events_head d : events d = head_event d :: content d.
Proof. now destruct d. Qed.
Definition deep (d : doc) : nat := match d with DVal _ _ => O | DScope _ _ its => deepest its end.
Definition fine (d : doc) : Prop := shaped d /\ Z.of_nat (deep d) <= 128.
Lemma head_type d : shaped d -> ty_eqb (v_type (snd (head_event d))) TScopeEnd = false /\ is_scope (v_type (snd (head_event d))) = is_sc d.
Proof.
  destruct d as [k v|k t its]; intros Sh.
  - destruct Sh as [A B]. cbn [head_event snd is_sc]. split; [destruct (v_type v); cbn; congruence|exact A].
  - apply shaped_scope in Sh. destruct Sh as [A B]. cbn [head_event snd is_sc]. change (v_type (val_type t)) with t. split; [now apply scope_not_end|exact A].
Qed.

Lemma add_items_node t L its : add_items (mkNode t (vals_of L) (subs_of L)) its = mkNode t (vals_of (L ++ its)) (subs_of (L ++ its)).
Proof. unfold add_items. cbn [n_type n_values n_nodes]. unfold vals_of, subs_of. now rewrite !flat_map_app. Qed.
Lemma keep_item_run {R} f b t L d es (k : lnode -> eprog R) : fine d -> (length (content d) <= f)%nat ->
  erun (ebind (keep_item f (mkL b (mkNode t (vals_of L) (subs_of L))) (fst (head_event d)) (snd (head_event d))) k) (content d ++ es) =
  erun (k (mkL b (mkNode t (vals_of (L ++ [d])) (subs_of (L ++ [d]))))) es.
Proof.
  intros [Sh D] H. unfold keep_item. destruct (head_type d Sh) as [_ ->]. destruct d as [k' v|k' ty its]; cbn [is_sc head_event fst snd content app].
  - cbn [l_node l_parsed]. rewrite store_value_utf8. cbn [elift ebind n_type n_values n_nodes]. do 3 f_equal; unfold vals_of, subs_of; rewrite !flat_map_app; cbn [flat_map app]; now rewrite ?app_nil_r.
  - cbn [content] in H. rewrite app_length in H. cbn [length] in H. apply shaped_scope in Sh. destruct Sh as [T Sub]. cbn [l_node l_parsed deep] in *.
    rewrite erun_bind, erun_bind. rewrite <- app_assoc. cbn [app]. unfold ev_end. rewrite read_items by (auto; unfold max_depth; lia).
    replace (0 + Z.of_nat (deepest its) <=? max_depth) with true by (unfold max_depth; lia). rewrite store_node_utf8. cbn [elift ebind erun n_type n_values n_nodes].
    assert (V : vals_of (L ++ [DScope k' ty its]) = vals_of L) by (unfold vals_of; rewrite flat_map_app; cbn [flat_map]; apply app_nil_r).
    assert (X : subs_of (L ++ [DScope k' ty its]) = subs_of L ++ [(k', doc_node (DScope k' ty its))]) by (unfold subs_of; rewrite flat_map_app; reflexivity).
    rewrite V, X, doc_node_eq. reflexivity.
Qed.

Lemma scan_stop want id t d es : forall r1 f L, Forall fine r1 -> Forall (fun x => matches want id x = false) r1 -> shaped d -> matches want id d = true ->
  (length (flat_map events r1) < f)%nat ->
  erun (scan f want (id_matches id) (unode t L)) (flat_map events r1 ++ events d ++ es) = Some (Ok ((Some (head_event d), unode t (L ++ r1)), content d ++ es)).
Proof.
  induction r1 as [|x r1 IH]; intros f L Fi Nm Sh M Hf; (destruct f as [|f]; [cbn in Hf; lia|]).
  - cbn [flat_map app]. rewrite events_head. cbn [scan unode l_parsed app erun]. destruct (head_event d) as [kk vv] eqn:E. destruct (head_type d Sh) as [T1 T2].
    rewrite E in T1, T2. cbn [snd] in T1, T2. rewrite T1, T2. unfold matches in M.
    replace (doc_name d) with kk in M by (destruct d; cbn in E |- *; congruence). rewrite M. rewrite app_nil_r. reflexivity.
  - inversion Fi as [|? ? Fx Fi']; inversion Nm as [|? ? Nx Nm']; subst. cbn [flat_map] in *. rewrite (events_head x) in Hf |- *. cbn [app length] in *. rewrite app_length in Hf.
    cbn [scan unode l_parsed erun]. pose proof (@keep_item_run (option (bytes * value) * lnode) f false t L x) as K. destruct (head_event x) as [kk vv] eqn:E. destruct Fx as [Sx Dx]. destruct (head_type x Sx) as [T1 T2].
    rewrite E in T1, T2. cbn [fst snd] in T1, T2, K. rewrite T1, T2. unfold matches in Nx.
    replace (doc_name x) with kk in Nx by (destruct x; cbn in E |- *; congruence). rewrite Nx. cbn [app]. rewrite <- app_assoc. rewrite K by (try (split; assumption); lia).
    change (mkL false (mkNode t (vals_of (L ++ [x])) (subs_of (L ++ [x])))) with (unode t (L ++ [x])). rewrite IH by (auto; lia). rewrite <- app_assoc. reflexivity.
Qed.
Lemma scan_end want id t es : forall r1 f L, Forall fine r1 -> Forall (fun x => matches want id x = false) r1 -> (length (flat_map events r1) < f)%nat ->
  erun (scan f want (id_matches id) (unode t L)) (flat_map events r1 ++ ev_end :: es) = Some (Ok ((None, pnode t (L ++ r1)), es)).
Proof.
  induction r1 as [|x r1 IH]; intros f L Fi Nm Hf; (destruct f as [|f]; [cbn in Hf; lia|]).
  - cbn [flat_map app scan unode l_parsed erun]. unfold ev_end. change (v_type (val_type TScopeEnd)) with TScopeEnd. cbn [ty_eqb]. rewrite app_nil_r. reflexivity.
  - inversion Fi as [|? ? Fx Fi']; inversion Nm as [|? ? Nx Nm']; subst. cbn [flat_map] in *. rewrite (events_head x) in Hf |- *. cbn [app length] in *. rewrite app_length in Hf.
    cbn [scan unode l_parsed erun]. pose proof (@keep_item_run (option (bytes * value) * lnode) f false t L x) as K. destruct (head_event x) as [kk vv] eqn:E. destruct Fx as [Sx Dx]. destruct (head_type x Sx) as [T1 T2].
    rewrite E in T1, T2. cbn [fst snd] in T1, T2, K. rewrite T1, T2. unfold matches in Nx.
    replace (doc_name x) with kk in Nx by (destruct x; cbn in E |- *; congruence). rewrite Nx. rewrite <- app_assoc. rewrite K by (try (split; assumption); lia).
    change (mkL false (mkNode t (vals_of (L ++ [x])) (subs_of (L ++ [x])))) with (unode t (L ++ [x])). rewrite IH by (auto; lia). rewrite <- app_assoc. reflexivity.
Qed.

(** * Stored items *)
Lemma stored_index {A} id (l : list (bytes * A)) : stored_at id l = Ok (index_of (fun q => id_matches id (fst q)) l).
Proof.
  destruct id as [k|i]; cbn [stored_at id_matches].
  - unfold find_stored, hash_string. rewrite (name_env _ _ (utf8_names k)). cbn [rbind]. rewrite fnv1a_correct. cbn [rbind].
    rewrite (find_loop_index (named_b k)) by (intros; apply cmp_hash_spec; apply utf8_names). cbn [Nat.add].
    assert (X : index_of (named_b k) l = index_of (fun q : bytes * A => bytes_eqb k (fst q)) l).
    { induction l as [|x l IH]; [reflexivity|]. cbn [index_of]. unfold named_b at 1. rewrite bytes_eqb_sym. now rewrite IH. }
    rewrite X. destruct (index_of (fun q : bytes * A => bytes_eqb k (fst q)) l); reflexivity.
  - now destruct l.
Qed.
Lemma index_at {A} (p : A -> bool) l1 x l2 : Forall (fun y => p y = false) l1 -> p x = true -> index_of p (l1 ++ x :: l2) = Some (length l1).
Proof. induction 1 as [|y l1 H _ IH]; intros Px; cbn [app index_of length]; [now rewrite Px|]. rewrite H, (IH Px). reflexivity. Qed.
Lemma index_nil {A} (p : A -> bool) l : Forall (fun y => p y = false) l -> index_of p l = None.
Proof. induction 1 as [|y l1 H _ IH]; cbn [index_of]; [reflexivity|]. now rewrite H, IH. Qed.
Lemma pick_at {A} (l1 : list A) x l2 : pick (l1 ++ x :: l2) (Some (length l1)) = Some x.
Proof. cbn [pick]. rewrite nth_error_app2 by lia. now rewrite Nat.sub_diag. Qed.
Lemma erase_at {A} (l1 : list A) x l2 : erase (length l1) (l1 ++ x :: l2) = l1 ++ l2.
Proof. induction l1 as [|y l1 IH]; cbn [app length erase]; [reflexivity|]. now rewrite IH. Qed.
Lemma vals_no_match id L : Forall (fun x => matches false id x = false) L -> Forall (fun q => id_matches id (fst q) = false) (vals_of L).
Proof.
  induction 1 as [|[k v|k t its] L H _ IH]; unfold vals_of in *; cbn [flat_map app]; [constructor| |exact IH].
  constructor; [exact H|exact IH].
Qed.
Lemma subs_no_match id L : Forall (fun x => matches true id x = false) L -> Forall (fun q => id_matches id (fst q) = false) (subs_of L).
Proof.
  induction 1 as [|[k v|k t its] L H _ IH]; unfold subs_of in *; cbn [flat_map app]; [constructor|exact IH|].
  constructor; [exact H|exact IH].
Qed.
Lemma vals_app a b : vals_of (a ++ b) = vals_of a ++ vals_of b. Proof. unfold vals_of. apply flat_map_app. Qed.
Lemma subs_app a b : subs_of (a ++ b) = subs_of a ++ subs_of b. Proof. unfold subs_of. apply flat_map_app. Qed.

Lemma take_stored_node F id t a k ty its b : Forall (fun x => matches true id x = false) a -> matches true id (DScope k ty its) = true ->
  consume_node F id (unode t (a ++ DScope k ty its :: b)) = ERet (Some (k, pnode ty its), unode t (a ++ b)).
Proof.
  intros Na M. unfold consume_node, unode. cbn [l_node]. rewrite stored_index. cbn [elift ebind]. rewrite subs_app.
  change (subs_of (DScope k ty its :: b)) with ((k, doc_node (DScope k ty its)) :: subs_of b).
  assert (I : index_of (fun q => id_matches id (fst q)) (subs_of a ++ (k, doc_node (DScope k ty its)) :: subs_of b) = Some (length (subs_of a))) by (apply index_at; [now apply subs_no_match|exact M]).
  rewrite I, pick_at, erase_at, doc_pnode, !vals_app, subs_app. reflexivity.
Qed.
Lemma take_stored_value F id t a k v b : Forall (fun x => matches false id x = false) a -> matches false id (DVal k v) = true ->
  consume_value F id (unode t (a ++ DVal k v :: b)) = ERet (Some (k, v, true), unode t (a ++ b)).
Proof.
  intros Na M. unfold consume_value, unode. cbn [l_node]. rewrite stored_index. cbn [elift ebind]. rewrite vals_app.
  change (vals_of (DVal k v :: b)) with ((k, v) :: vals_of b).
  assert (I : index_of (fun q => id_matches id (fst q)) (vals_of a ++ (k, v) :: vals_of b) = Some (length (vals_of a))) by (apply index_at; [now apply vals_no_match|exact M]).
  rewrite I, pick_at, erase_at, !vals_app, !subs_app. reflexivity.
Qed.
Lemma take_read_node F id t L : Forall (fun x => matches true id x = false) L ->
  consume_node F id (unode t L) = ebind (scan F true (id_matches id) (unode t L)) (fun r => let (o, n') := r in
    ERet (match o with Some (k, v) => Some (k, mkL false (empty_node (v_type v))) | None => None end, n')).
Proof.
  intros Na. unfold consume_node, unode. cbn [l_node]. rewrite stored_index. cbn [elift ebind]. rewrite index_nil by now apply subs_no_match. reflexivity.
Qed.
Lemma take_read_value F id t L : Forall (fun x => matches false id x = false) L ->
  consume_value F id (unode t L) = ebind (scan F false (id_matches id) (unode t L)) (fun r => let (o, n') := r in
    ERet (match o with Some (k, v) => Some (k, v, false) | None => None end, n')).
Proof.
  intros Na. unfold consume_value, unode. cbn [l_node]. rewrite stored_index. cbn [elift ebind]. rewrite index_nil by now apply vals_no_match. reflexivity.
Qed.

(** * Items that were not taken yet *)
Fixpoint keep (al : nat -> bool) (i : nat) (l : list doc) : list doc :=
  match l with [] => [] | d :: l' => if al i then d :: keep al (S i) l' else keep al (S i) l' end.
Definition less (al : nat -> bool) (j : nat) : nat -> bool := fun i => al i && negb (Nat.eqb i j).
Lemma keep_app al a b : forall i, keep al i (a ++ b) = keep al i a ++ keep al (i + length a) b.
Proof.
  induction a as [|x a IH]; intros i; cbn [app keep length]; [now rewrite Nat.add_0_r|]. rewrite IH. replace (S i + length a)%nat with (i + S (length a))%nat by lia. now destruct (al i).
Qed.
Lemma keep_ext al be l : forall i, (forall x, (i <= x < i + length l)%nat -> al x = be x) -> keep al i l = keep be i l.
Proof. induction l as [|d l IH]; intros i H; cbn [keep length] in *; [reflexivity|]. rewrite H by lia. rewrite (IH (S i)); [reflexivity|]. intros x Hx. apply H. lia. Qed.
Lemma keep_all al l : forall i, (forall x, (i <= x)%nat -> al x = true) -> keep al i l = l.
Proof. induction l as [|d l IH]; intros i H; cbn [keep]; [reflexivity|]. rewrite H by lia. rewrite IH; [reflexivity|]. intros x Hx. apply H. lia. Qed.
Lemma keep_forall (P : doc -> Prop) al l : forall i, (forall x d, al (i + x)%nat = true -> nth_error l x = Some d -> P d) -> Forall P (keep al i l).
Proof.
  induction l as [|d l IH]; intros i H; cbn [keep]; [constructor|].
  assert (R : Forall P (keep al (S i) l)). { apply IH. intros x e A E. apply (H (S x) e); [replace (i + S x)%nat with (S i + x)%nat by lia; exact A|exact E]. }
  destruct (al i) eqn:A; [|exact R]. constructor; [|exact R]. apply (H O d); [now rewrite Nat.add_0_r|reflexivity].
Qed.
Lemma keep_in al l x : forall i, In x (keep al i l) -> In x l.
Proof. induction l as [|d l IH]; intros i; cbn [keep]; [intros []|]. destruct (al i); cbn [In]; intros H; [destruct H as [<-|H]; [now left|right; eapply IH; eauto]|right; eapply IH; eauto]. Qed.
Lemma split_nth {A} (l : list A) j d : nth_error l j = Some d -> l = firstn j l ++ d :: skipn (S j) l /\ length (firstn j l) = j.
Proof.
  intros H. assert (Hj : (j < length l)%nat) by (apply nth_error_Some; congruence). split; [|apply firstn_length_le; lia].
  rewrite <- (firstn_skipn j l) at 1. f_equal. clear Hj. revert j H. induction l as [|x l IH]; intros [|j] H; cbn in *; try discriminate; [congruence|]. now apply IH.
Qed.
Lemma nth_firstn {A} (l : list A) p j : (j < p)%nat -> nth_error (firstn p l) j = nth_error l j.
Proof. revert p j. induction l as [|x l IH]; intros [|p] [|j] H; cbn; try reflexivity; try lia. apply IH. lia. Qed.
Lemma nth_skipn {A} (l : list A) p j : nth_error (skipn p l) j = nth_error l (p + j).
Proof. revert p. induction l as [|x l IH]; intros [|p]; cbn; try reflexivity; [now destruct j|]. apply IH. Qed.
Lemma skipn_add {A} (l : list A) p q : skipn p (skipn q l) = skipn (q + p) l.
Proof. revert q. induction l as [|x l IH]; intros [|q]; cbn; try reflexivity; [now rewrite skipn_nil|]. apply IH. Qed.
Lemma keep_less al j l : forall i, keep (less al j) i l = keep (less al j) i l.
Proof. reflexivity. Qed.
(** taking an item that is stored *)
Lemma keep_take al l j d : nth_error l j = Some d -> al j = true ->
  keep al 0 l = keep al 0 (firstn j l) ++ d :: keep al (S j) (skipn (S j) l) /\
  keep (less al j) 0 l = keep al 0 (firstn j l) ++ keep al (S j) (skipn (S j) l).
Proof.
  intros H A. destruct (split_nth l j d H) as [E Lj]. split.
  - rewrite E at 1. rewrite keep_app, Lj. cbn [keep Nat.add]. now rewrite A.
  - rewrite E at 1. rewrite keep_app, Lj. cbn [keep Nat.add]. unfold less at 2. rewrite Nat.eqb_refl, andb_false_r. f_equal.
    + apply keep_ext. rewrite Lj. intros x Hx. unfold less. replace (Nat.eqb x j) with false by lia. now rewrite andb_true_r.
    + apply keep_ext. intros x Hx. unfold less. replace (Nat.eqb x j) with false by lia. now rewrite andb_true_r.
Qed.
Lemma fine_in its : Forall fine its <-> all_shaped its /\ Forall (fun d => Z.of_nat (deep d) <= 128) its.
Proof. unfold all_shaped. rewrite !Forall_forall. unfold fine. firstorder. Qed.

(** * Leaving a scope *)
Definition ends (its : list doc) (u : nat) (rest : list event) (n : lnode) (tail : list event) : Prop :=
  (l_parsed n = true /\ tail = rest) \/ (l_parsed n = false /\ tail = flat_map events (skipn u its) ++ ev_end :: rest).
Lemma skip_rest rest : forall r f, Forall fine r -> forallb (fun d => negb (is_sc d)) r = true -> (length (flat_map events r) < f)%nat ->
  erun (consume_scope_loop f 0) (flat_map events r ++ ev_end :: rest) = Some (Ok (tt, rest)).
Proof.
  induction r as [|d r IH]; intros f Fi Q Hf; (destruct f as [|f]; [cbn in Hf; lia|]).
  - reflexivity.
  - inversion Fi as [|? ? [Sd _] Fi']; subst. cbn [forallb] in Q. apply andb_prop in Q. destruct Q as [Q1 Q2]. destruct d as [k v|]; [|discriminate].
    cbn [flat_map events app length] in *. cbn [consume_scope_loop erun snd]. destruct (head_type _ Sd) as [T1 T2]. cbn [head_event snd is_sc] in T1, T2. rewrite T1, T2. apply IH; auto; lia.
Qed.
Lemma firstn_in {A} (l : list A) p x : In x (firstn p l) -> In x l.
Proof. intros H. rewrite <- (firstn_skipn p l). apply in_or_app. now left. Qed.
Lemma skipn_in {A} (l : list A) p x : In x (skipn p l) -> In x l.
Proof. intros H. rewrite <- (firstn_skipn p l). apply in_or_app. now right. Qed.
Lemma forall_skipn {A} (P : A -> Prop) p l : Forall P l -> Forall P (skipn p l).
Proof. rewrite !Forall_forall. intros H x I. apply H. eapply skipn_in; eauto. Qed.
Lemma forall_firstn {A} (P : A -> Prop) p l : Forall P l -> Forall P (firstn p l).
Proof. rewrite !Forall_forall. intros H x I. apply H. eapply firstn_in; eauto. Qed.
Lemma events_split p its : length (flat_map events its) = (length (flat_map events (firstn p its)) + length (flat_map events (skipn p its)))%nat.
Proof. rewrite <- (firstn_skipn p its) at 1. rewrite flat_map_app, app_length. reflexivity. Qed.
Lemma leave {R} F its u rest n tail (k : unit -> eprog R) : ends its u rest n tail -> Forall fine its -> forallb (fun d => negb (is_sc d)) (skipn u its) = true ->
  (length (flat_map events its) < F)%nat -> erun (ebind (consume_scope F n) k) tail = erun (k tt) rest.
Proof.
  intros [[P ->]|[P ->]] Fi Q Hf; unfold consume_scope; rewrite P; [reflexivity|].
  rewrite erun_bind, skip_rest; [reflexivity|now apply forall_skipn|exact Q|]. pose proof (events_split u its). lia.
Qed.

(** * One scope *)
Definition good (G : nat) (its : list doc) : Prop := Forall fine its /\ (length (flat_map events its) < G)%nat.
Lemma good_sub G its k ty sub : good G its -> In (DScope k ty sub) its -> good G sub.
Proof.
  intros [Fi Hf] I. split.
  - rewrite Forall_forall in Fi. destruct (Fi _ I) as [Sh D]. apply shaped_scope in Sh. destruct Sh as [_ Sh]. apply fine_in. split; [exact Sh|].
    cbn [deep] in D. clear - D. induction sub as [|d sub IH]; [constructor|]. cbn [deepest fold_right] in D. change (fold_right _ 0%nat sub) with (deepest sub) in D.
    constructor; [|apply IH; lia]. destruct d as [|? ? l]; cbn [deep]; [lia|]. cbn [depth] in D. change (fold_right _ 0%nat l) with (deepest l) in D. lia.
  - apply in_split in I. destruct I as (a & b & ->). rewrite flat_map_app in Hf. cbn [flat_map events] in Hf. rewrite app_length in Hf. cbn [app length] in Hf. rewrite !app_length in Hf. lia.
Qed.

(** * Looking whether there is an item *)
Lemma scan_item_stop k t d es : forall r1 f L, Forall fine r1 -> Forall (fun x => bytes_eqb (doc_name x) k = false) r1 -> fine d -> bytes_eqb (doc_name d) k = true ->
  (length (flat_map events (r1 ++ [d])) < f)%nat ->
  erun (scan_item f (fnv1a_ref k) k (unode t L)) (flat_map events r1 ++ events d ++ es) = Some (Ok ((Some (is_sc d), unode t (L ++ r1 ++ [d])), es)).
Proof.
  induction r1 as [|x r1 IH]; intros f L Fi Nm Fd M Hf; (destruct f as [|f]; [cbn in Hf; lia|]).
  - cbn [flat_map app] in *. rewrite app_nil_r in Hf. rewrite events_head in Hf |- *. cbn [scan_item unode l_parsed app erun length] in *.
    pose proof (@keep_item_run (option bool * lnode) f false t L d) as K. destruct (head_event d) as [kk vv] eqn:E. pose proof Fd as [Sd Dd]. destruct (head_type d Sd) as [T1 T2].
    rewrite E in T1, T2. cbn [fst snd] in T1, T2, K. rewrite T1. rewrite K by (auto; lia). rewrite (cmp_hash_spec _ k) by apply utf8_names. cbn [elift ebind].
    unfold named_b. cbn [fst]. replace (doc_name d) with kk in M by (destruct d; cbn in E |- *; congruence). rewrite M. cbn [erun]. rewrite T2. reflexivity.
  - inversion Fi as [|? ? Fx Fi']; inversion Nm as [|? ? Nx Nm']; subst. cbn [flat_map app] in *. rewrite (events_head x) in Hf |- *. cbn [app length] in *. rewrite app_length in Hf.
    cbn [scan_item unode l_parsed erun].
    pose proof (@keep_item_run (option bool * lnode) f false t L x) as K. destruct (head_event x) as [kk vv] eqn:E. pose proof Fx as [Sx Dx]. destruct (head_type x Sx) as [T1 T2].
    rewrite E in T1, T2. cbn [fst snd] in T1, T2, K. rewrite T1. rewrite <- app_assoc. rewrite K by (auto; lia). rewrite (cmp_hash_spec _ k) by apply utf8_names. cbn [elift ebind].
    unfold named_b. cbn [fst]. replace (doc_name x) with kk in Nx by (destruct x; cbn in E |- *; congruence). rewrite Nx.
    change (mkL false (mkNode t (vals_of (L ++ [x])) (subs_of (L ++ [x])))) with (unode t (L ++ [x])). rewrite IH by (auto; lia). rewrite <- app_assoc. reflexivity.
Qed.
Lemma scan_item_end k t es : forall r1 f L, Forall fine r1 -> Forall (fun x => bytes_eqb (doc_name x) k = false) r1 -> (length (flat_map events r1) < f)%nat ->
  erun (scan_item f (fnv1a_ref k) k (unode t L)) (flat_map events r1 ++ ev_end :: es) = Some (Ok ((None, pnode t (L ++ r1)), es)).
Proof.
  induction r1 as [|x r1 IH]; intros f L Fi Nm Hf; (destruct f as [|f]; [cbn in Hf; lia|]).
  - cbn [flat_map app scan_item unode l_parsed erun]. unfold ev_end. change (v_type (val_type TScopeEnd)) with TScopeEnd. cbn [ty_eqb]. rewrite app_nil_r. reflexivity.
  - inversion Fi as [|? ? Fx Fi']; inversion Nm as [|? ? Nx Nm']; subst. cbn [flat_map app] in *. rewrite (events_head x) in Hf |- *. cbn [app length] in *. rewrite app_length in Hf.
    cbn [scan_item unode l_parsed erun].
    pose proof (@keep_item_run (option bool * lnode) f false t L x) as K. destruct (head_event x) as [kk vv] eqn:E. pose proof Fx as [Sx Dx]. destruct (head_type x Sx) as [T1 T2].
    rewrite E in T1, T2. cbn [fst snd] in T1, T2, K. rewrite T1. rewrite <- app_assoc. rewrite K by (auto; lia). rewrite (cmp_hash_spec _ k) by apply utf8_names. cbn [elift ebind].
    unfold named_b. cbn [fst]. replace (doc_name x) with kk in Nx by (destruct x; cbn in E |- *; congruence). rewrite Nx.
    change (mkL false (mkNode t (vals_of (L ++ [x])) (subs_of (L ++ [x])))) with (unode t (L ++ [x])). rewrite IH by (auto; lia). rewrite <- app_assoc. reflexivity.
Qed.
Lemma nth_match_0 p its j d : nth_match p 0 its = Some (j, d) ->
  nth_error its j = Some d /\ p d = true /\ (forall i x, (i < j)%nat -> nth_error its i = Some x -> p x = false).
Proof.
  revert j. induction its as [|x its IH]; intros j H; cbn [nth_match] in H; [discriminate|]. destruct (p x) eqn:E.
  - injection H as <- <-. repeat split; auto. intros i y Hi. lia.
  - destruct (nth_match p 0 its) as [[j' e]|] eqn:M; [|discriminate]. injection H as <- <-. destruct (IH _ eq_refl) as (A & B & C). repeat split; auto.
    intros [|i] y Hi Hy; cbn in Hy; [congruence|]. apply (C i); auto. lia.
Qed.
Lemma nth_match_none p its : nth_match p 0 its = None -> Forall (fun x => p x = false) its.
Proof.
  induction its as [|x its IH]; cbn [nth_match]; [constructor|]. destruct (p x) eqn:E; [discriminate|]. destruct (nth_match p 0 its) as [[? ?]|]; [discriminate|]. auto.
Qed.
Lemma index_in {A} (p : A -> bool) l x : In x l -> p x = true -> exists i, index_of p l = Some i.
Proof.
  induction l as [|y l IH]; [intros []|]. intros [<-|I] H; cbn [index_of].
  - rewrite H. eauto.
  - destruct (p y); [eauto|]. destruct (IH I H) as [i ->]. cbn. eauto.
Qed.
Lemma in_subs k t its L : In (DScope k t its) L -> In (k, doc_node (DScope k t its)) (subs_of L).
Proof. intros H. unfold subs_of. apply in_flat_map. exists (DScope k t its). split; [exact H|now left]. Qed.
Lemma in_vals k v L : In (DVal k v) L -> In (k, v) (vals_of L).
Proof. intros H. unfold vals_of. apply in_flat_map. exists (DVal k v). split; [exact H|now left]. Qed.
Lemma no_name_subs k L : Forall (fun x => is_sc x = true -> bytes_eqb (doc_name x) k = false) L -> index_of (named_b k) (subs_of L) = None.
Proof.
  intros H. apply index_nil. induction H as [|[k' v|k' t its] L H _ IH]; unfold subs_of in *; cbn [flat_map app]; [constructor|exact IH|]. constructor; [now apply H|exact IH].
Qed.
Lemma no_name_vals k L : Forall (fun x => is_sc x = false -> bytes_eqb (doc_name x) k = false) L -> index_of (named_b k) (vals_of L) = None.
Proof.
  intros H. apply index_nil. induction H as [|[k' v|k' t its] L H _ IH]; unfold vals_of in *; cbn [flat_map app]; [constructor| |exact IH]. constructor; [now apply H|exact IH].
Qed.
Lemma in_keep al l j d : forall i, nth_error l j = Some d -> al (i + j)%nat = true -> In d (keep al i l).
Proof.
  revert j. induction l as [|x l IH]; intros [|j] i H A; cbn in H; try discriminate; cbn [keep].
  - injection H as ->. rewrite Nat.add_0_r in A. rewrite A. now left.
  - assert (In d (keep al (S i) l)) by (apply (IH j); [exact H|replace (S i + j)%nat with (i + S j)%nat by lia; exact A]). destruct (al i); [now right|assumption].
Qed.

Section Lazy.
Variables (w : world) (G Fu : nat).
Hypothesis FG : (G <= Fu)%nat.
Variable pn : ct -> cv -> lnode -> rstate -> eprog (cv * lnode * rstate).
Variables dn df : ct -> cv -> doc -> rstate -> res (cv * rstate * nat).
Hypothesis PN : forall t old k ty its s, pn t old (pnode ty its) s = to_prog (pnode ty its) (df t old (DScope k ty its) s).
Hypothesis W : forall t old d s r, dn t old d s = Ok r -> df t old d s = Ok r.
Hypothesis LZ : forall t old k ty its s v s' u rest, dn t old (DScope k ty its) s = Ok (v, s', u) -> good G its ->
  exists n' tail, erun (pn t old (unode ty []) s) (flat_map events its ++ ev_end :: rest) = Some (Ok ((v, n', s'), tail)) /\ ends its u rest n' tail.

(** a nested scope that is being read *)
Lemma lazy_child {R} t old k ty its s v s' rest (kk : cv * lnode * rstate -> eprog R) (c : cv -> rstate -> unit -> eprog R) :
  dchild w true dn t old (DScope k ty its) s = Ok (v, s') -> good G its ->
  (forall x n y, kk (x, n, y) = ebind (consume_scope Fu n) (c x y)) ->
  erun (ebind (pn t old (unode ty []) s) kk) (flat_map events its ++ ev_end :: rest) = erun (c v s' tt) rest.
Proof.
  unfold dchild, quiet. cbn [negb orb]. destruct (dn t old (DScope k ty its) s) as [[[v0 s0] u]| | |] eqn:E; cbn [rbind]; try discriminate.
  destruct (forallb _ (skipn u its)) eqn:Q; [|discriminate]. intros H Gd Hk. injection H as -> ->.
  destruct (LZ _ _ _ _ _ _ _ _ _ rest E Gd) as (n' & tail & R1 & R2). rewrite erun_bind, R1, Hk. destruct Gd as [Fi Hf].
  eapply leave; eauto. lia.
Qed.

Lemma lazy_field t id old ty its al p s j d v s' rest :
  good G its -> nth_error its j = Some d -> al j = true -> matches (scoped t) id d = true ->
  (forall i x, (i < j)%nat -> al i = true -> nth_error its i = Some x -> matches (scoped t) id x = false) ->
  (forall i, (p <= i)%nat -> al i = true) -> (p <= length its)%nat -> dchild w true dn t old d s = Ok (v, s') ->
  erun (paste_field w pn Fu t id old (unode ty (keep al 0 (firstn p its))) s) (flat_map events (skipn p its) ++ ev_end :: rest) =
  Some (Ok ((v, unode ty (keep (less al j) 0 (firstn (Nat.max p (S j)) its)), s'), flat_map events (skipn (Nat.max p (S j)) its) ++ ev_end :: rest)).
Proof.
  intros Gd Nj Aj M Before Al Lp Ch. pose proof Gd as [Fi Hf].
  assert (Fd : fine d) by (rewrite Forall_forall in Fi; apply Fi; eapply nth_error_In; eauto).
  assert (Kd : is_sc d = scoped t) by now apply matches_kind in M.
  destruct (Nat.lt_ge_cases j p) as [Hj|Hj].
  - (* stored *)
    rewrite Nat.max_l by lia. assert (Nj' : nth_error (firstn p its) j = Some d) by (rewrite nth_firstn by lia; exact Nj).
    destruct (keep_take al _ j d Nj' Aj) as [E1 E2]. rewrite E1, E2.
    assert (Na : Forall (fun x => matches (scoped t) id x = false) (keep al 0 (firstn j (firstn p its)))).
    { apply keep_forall. intros x e Ax Ex. cbn [Nat.add] in Ax.
      assert (Hx : (x < j)%nat). { apply Nat.nlt_ge. intros C. assert (nth_error (firstn j (firstn p its)) x = None); [|congruence]. apply nth_error_None. rewrite !firstn_length. lia. }
      rewrite !nth_firstn in Ex by lia. eapply Before; eauto. }
    unfold paste_field. destruct (scoped t).
    + destruct d as [|k ty' sub]; [discriminate|]. unfold field_node. change (l_parsed (unode ty (keep al 0 (firstn j (firstn p its)) ++ DScope k ty' sub :: keep al (S j) (skipn (S j) (firstn p its))))) with false. cbv iota.
      rewrite take_stored_node by assumption. cbn [ebind fst snd need]. rewrite (PN _ _ k). pose proof (weak_child w true false ltac:(discriminate) dn df W _ _ _ _ _ Ch) as Ch'.
      unfold dchild, quiet in Ch'. cbn [negb orb] in Ch'. destruct (df t old (DScope k ty' sub) s) as [[[v0 s0] u]| | |]; try discriminate. cbn [rbind] in Ch'. injection Ch' as -> ->. reflexivity.
    + destruct d as [k v0|]; [|discriminate]. unfold field_value. change (l_parsed (unode ty (keep al 0 (firstn j (firstn p its)) ++ DVal k v0 :: keep al (S j) (skipn (S j) (firstn p its))))) with false. cbv iota.
      rewrite take_stored_value by assumption. cbn [ebind fst snd need]. unfold dchild in Ch. destruct (paste_value w t old v0); try discriminate. cbn [rbind] in Ch. injection Ch as -> ->. reflexivity.
  - (* read *)
    rewrite Nat.max_r by lia.
    assert (Na : Forall (fun x => matches (scoped t) id x = false) (keep al 0 (firstn p its))).
    { apply keep_forall. intros x e Ax Ex. cbn [Nat.add] in Ax.
      assert (Hx : (x < p)%nat). { apply Nat.nlt_ge. intros C. assert (nth_error (firstn p its) x = None); [|congruence]. apply nth_error_None. rewrite !firstn_length. lia. }
      rewrite nth_firstn in Ex by lia. apply (Before x); auto. lia. }
    assert (Nj' : nth_error (skipn p its) (j - p) = Some d) by (rewrite nth_skipn; replace (p + (j - p))%nat with j by lia; exact Nj).
    destruct (split_nth _ _ _ Nj') as [E1 E2]. set (r1 := firstn (j - p) (skipn p its)) in *. rewrite skipn_add in E1. replace (p + S (j - p))%nat with (S j) in E1 by lia.
    assert (Nr : Forall (fun x => matches (scoped t) id x = false) r1).
    { apply Forall_forall. intros x I. apply In_nth_error in I. destruct I as [i I].
      assert (Hi : (i < j - p)%nat) by (rewrite <- E2; apply nth_error_Some; congruence). unfold r1 in I. rewrite nth_firstn, nth_skipn in I by lia. apply (Before (p + i)%nat); auto; [lia|apply Al; lia]. }
    assert (Fr : Forall fine r1) by (unfold r1; apply forall_firstn, forall_skipn; exact Fi).
    assert (El : keep al 0 (firstn p its) ++ r1 = keep (less al j) 0 (firstn (S j) its)).
    { assert (E3 : firstn (S j) its = firstn p its ++ r1 ++ [d]).
      { assert (Hj' : (j < length its)%nat) by (apply nth_error_Some; congruence).
        rewrite <- (firstn_skipn p its) at 1. rewrite E1, firstn_app, firstn_length, Nat.min_l by lia.
        rewrite firstn_all2 by (rewrite firstn_length; lia). f_equal. rewrite firstn_app, E2. replace (S j - p - (j - p))%nat with 1%nat by lia. cbn [firstn].
        rewrite firstn_all2 by (rewrite E2; lia). reflexivity. }
      rewrite E3, !keep_app, firstn_length, Nat.min_l, E2 by lia. cbn [Nat.add keep]. unfold less at 3. replace (p + (j - p))%nat with j by lia. rewrite Nat.eqb_refl, andb_false_r, app_nil_r.
      f_equal.
      - apply keep_ext. intros x Hx. rewrite firstn_length in Hx. unfold less. replace (Nat.eqb x j) with false by lia. now rewrite andb_true_r.
      - symmetry. rewrite <- (keep_all (fun _ => true) r1 p) at 2 by reflexivity. apply keep_ext. intros x Hx. rewrite E2 in Hx. unfold less. rewrite Al by lia. replace (Nat.eqb x j) with false by lia. reflexivity. }
    rewrite E1, flat_map_app. cbn [flat_map]. rewrite <- !app_assoc.
    assert (Lr : (length (flat_map events r1) < Fu)%nat).
    { pose proof (events_split p its) as E. rewrite E1, flat_map_app, app_length in E. lia. }
    unfold paste_field. destruct (scoped t).
    + destruct d as [|k ty' sub]; [discriminate|]. unfold field_node. change (l_parsed (unode ty (keep al 0 (firstn p its)))) with false. cbv iota.
      rewrite take_read_node by assumption. rewrite erun_bind, erun_bind, erun_bind. rewrite scan_stop by (auto; apply Fd). rewrite El.
      cbn [erun fst snd need ebind head_event content]. rewrite <- app_assoc. cbn [app].
      rewrite (lazy_child t old k ty' sub s v s' _ _ (fun v s' _ => ERet (v, unode ty (keep (less al j) 0 (firstn (S j) its)), s'))); [reflexivity|exact Ch| |intros; reflexivity].
      eapply good_sub; [exact Gd|]. eapply nth_error_In; eauto.
    + destruct d as [k v0|]; [|discriminate]. unfold field_value. change (l_parsed (unode ty (keep al 0 (firstn p its)))) with false. cbv iota.
      rewrite take_read_value by assumption. rewrite erun_bind, erun_bind, erun_bind. rewrite scan_stop by (auto; apply Fd). rewrite El.
      cbn [erun fst snd need ebind head_event content app]. unfold dchild in Ch. destruct (paste_value w t old v0); try discriminate. cbn [rbind] in Ch. injection Ch as -> ->. reflexivity.
Qed.

Lemma lazy_has sc k ty its al p rest :
  good G its -> existsb (of_name (negb sc) k) its = false -> (forall i x, al i = false -> nth_error its i = Some x -> doc_name x <> k) ->
  (forall i, (p <= i)%nat -> al i = true) -> (p <= length its)%nat ->
  erun (has_field Fu sc k (unode ty (keep al 0 (firstn p its)))) (flat_map events (skipn p its) ++ ev_end :: rest) =
  Some (Ok (match nth_match (of_name sc k) 0 its with
            | Some (j, _) => ((true, unode ty (keep al 0 (firstn (Nat.max p (S j)) its))), flat_map events (skipn (Nat.max p (S j)) its) ++ ev_end :: rest)
            | None => ((false, pnode ty (keep al 0 its)), rest) end)).
Proof.
  intros Gd Other Al Alp Lp. pose proof Gd as [Fi Hf].
  assert (On : forall x, In x its -> bytes_eqb (doc_name x) k = of_name sc k x).
  { intros x I. unfold of_name. destruct (bytes_eqb (doc_name x) k) eqn:E; [|now rewrite andb_false_r]. rewrite andb_true_r.
    destruct (Bool.eqb (is_sc x) sc) eqn:E2; [reflexivity|]. exfalso. assert (existsb (of_name (negb sc) k) its = true); [|congruence].
    apply existsb_exists. exists x. split; [exact I|]. unfold of_name. rewrite E, andb_true_r. destruct (is_sc x), sc; cbn in *; congruence. }
  unfold has_field. change (l_parsed (unode ty (keep al 0 (firstn p its)))) with false. cbv iota. unfold consume_item.
  set (L := keep al 0 (firstn p its)) in *.
  assert (InL : forall x, In x L -> In x its) by (intros x I; eapply firstn_in, keep_in; exact I).
  change (n_nodes (l_node (unode ty L))) with (subs_of L). change (n_values (l_node (unode ty L))) with (vals_of L).
  rewrite (find_link_spec false _ (named_b k)) by (intros; apply cmp_name_spec, utf8_names).
  rewrite (find_link_spec false _ (named_b k) (vals_of L)) by (intros; apply cmp_name_spec, utf8_names).
  assert (Hh : hash_string (k, EUTF8) = Ok (fnv1a_ref k)).
  { unfold hash_string. rewrite (name_env _ _ (utf8_names k)). cbn [rbind]. now rewrite fnv1a_correct. }
  destruct (nth_match (of_name sc k) 0 its) as [[j d]|] eqn:M.
  - apply nth_match_0 in M. destruct M as (Nj & Md & Bj). pose proof (of_name_sc _ _ _ Md) as Kd.
    assert (Nd : bytes_eqb (doc_name d) k = true) by (rewrite On; [exact Md|eapply nth_error_In; eauto]).
    assert (Aj : al j = true). { destruct (al j) eqn:A; [reflexivity|]. exfalso. apply (Al _ _ A Nj). now apply bytes_eqb_eq. }
    destruct (Nat.lt_ge_cases j p) as [Hj|Hj].
    + rewrite Nat.max_l by lia. assert (Id : In d L) by (apply (in_keep _ _ j); [rewrite nth_firstn by lia; exact Nj|exact Aj]).
      destruct d as [k' v|k' t' sub]; cbn [is_sc] in Kd; subst sc.
      * rewrite no_name_subs.
        2:{ apply Forall_forall. intros x I S. rewrite On by auto. unfold of_name. now rewrite S. }
        cbn [elift ebind]. destruct (index_in (named_b k) (vals_of L) (k', v)) as [i ->]; [now apply in_vals|exact Nd|]. reflexivity.
      * destruct (index_in (named_b k) (subs_of L) (k', doc_node (DScope k' t' sub))) as [i ->]; [now apply in_subs|exact Nd|]. reflexivity.
    + rewrite Nat.max_r by lia.
      assert (Na : Forall (fun x => bytes_eqb (doc_name x) k = false) L).
      { apply keep_forall. intros x e Ax Ex.
        assert (Hx : (x < p)%nat). { apply Nat.nlt_ge. intros C. assert (nth_error (firstn p its) x = None); [|congruence]. apply nth_error_None. rewrite firstn_length. lia. }
        rewrite nth_firstn in Ex by lia. rewrite On by (eapply nth_error_In; eauto). apply (Bj x); auto. lia. }
      rewrite no_name_subs by (eapply Forall_impl; [|exact Na]; auto). cbn [elift ebind]. rewrite no_name_vals by (eapply Forall_impl; [|exact Na]; auto). cbn [elift ebind].
      rewrite Hh. cbn [elift ebind].
      assert (Nj' : nth_error (skipn p its) (j - p) = Some d) by (rewrite nth_skipn; replace (p + (j - p))%nat with j by lia; exact Nj).
      destruct (split_nth _ _ _ Nj') as [E1 E2]. set (r1 := firstn (j - p) (skipn p its)) in *. rewrite skipn_add in E1. replace (p + S (j - p))%nat with (S j) in E1 by lia.
      assert (E3 : firstn (S j) its = firstn p its ++ r1 ++ [d]).
      { assert (Hj' : (j < length its)%nat) by (apply nth_error_Some; congruence).
        rewrite <- (firstn_skipn p its) at 1. rewrite E1, firstn_app, firstn_length, Nat.min_l by lia.
        rewrite firstn_all2 by (rewrite firstn_length; lia). f_equal. rewrite firstn_app, E2. replace (S j - p - (j - p))%nat with 1%nat by lia. cbn [firstn].
        rewrite firstn_all2 by (rewrite E2; lia). reflexivity. }
      assert (El : L ++ r1 ++ [d] = keep al 0 (firstn (S j) its)).
      { rewrite E3, keep_app. unfold L. f_equal. symmetry. apply keep_all. intros x Hx. rewrite firstn_length in Hx. apply Alp. lia. }
      rewrite erun_bind. rewrite E1, flat_map_app. cbn [flat_map]. rewrite <- !app_assoc. rewrite scan_item_stop.
      * rewrite El, Kd. cbn [erun]. rewrite Bool.eqb_reflx. reflexivity.
      * unfold r1. apply forall_firstn, forall_skipn. exact Fi.
      * apply Forall_forall. intros x I. apply In_nth_error in I. destruct I as [i I].
        assert (Hi : (i < j - p)%nat) by (rewrite <- E2; apply nth_error_Some; congruence). unfold r1 in I. rewrite nth_firstn, nth_skipn in I by lia.
        rewrite On by (eapply nth_error_In; eauto). apply (Bj (p + i)%nat); auto. lia.
      * rewrite Forall_forall in Fi. apply Fi. eapply nth_error_In; eauto.
      * exact Nd.
      * pose proof (events_split p its) as E. rewrite E1 in E. rewrite flat_map_app in *. cbn [flat_map] in *. rewrite !app_length in *. cbn [length]. lia.
  - apply nth_match_none in M.
    assert (Na : Forall (fun x => bytes_eqb (doc_name x) k = false) its).
    { apply Forall_forall. intros x I. rewrite On by exact I. rewrite Forall_forall in M. now apply M. }
    assert (NL : Forall (fun x => bytes_eqb (doc_name x) k = false) L) by (rewrite Forall_forall in *; auto).
    rewrite no_name_subs by (eapply Forall_impl; [|exact NL]; auto). cbn [elift ebind]. rewrite no_name_vals by (eapply Forall_impl; [|exact NL]; auto). cbn [elift ebind].
    rewrite Hh. cbn [elift ebind]. rewrite erun_bind. rewrite scan_item_end.
    + cbn [erun]. replace (L ++ skipn p its) with (keep al 0 its); [reflexivity|]. rewrite <- (firstn_skipn p its) at 1. rewrite keep_app. unfold L. f_equal.
      apply keep_all. intros x Hx. rewrite firstn_length in Hx. apply Alp. lia.
    + now apply forall_skipn.
    + now apply forall_skipn.
    + pose proof (events_split p its). lia.
Qed.

(** * Named members *)
Lemma match_keep q j d : forall its al i, nth_match q 0 its = Some (j, d) -> al (i + j)%nat = true -> exists j', nth_match q 0 (keep al i its) = Some (j', d).
Proof.
  intros its. revert j. induction its as [|x its IH]; intros j al i H A; cbn [nth_match] in H; [discriminate|]. cbn [keep]. destruct (q x) eqn:E.
  - injection H as <- <-. rewrite Nat.add_0_r in A. rewrite A. cbn [nth_match]. rewrite E. eauto.
  - destruct (nth_match q 0 its) as [[j0 e]|] eqn:M; [|discriminate]. injection H as <- <-.
    destruct (IH j0 al (S i) eq_refl) as [j' J]; [replace (S i + j0)%nat with (i + S j0)%nat by lia; exact A|]. destruct (al i); cbn [nth_match]; [rewrite E|]; rewrite J; eauto.
Qed.
Lemma existsb_match q its : existsb q its = match nth_match q 0 its with Some _ => true | None => false end.
Proof. induction its as [|x its IH]; cbn [existsb nth_match]; [reflexivity|]. destruct (q x); [reflexivity|]. rewrite IH. cbn [orb]. now destruct (nth_match q 0 its) as [[? ?]|]. Qed.
Lemma existsb_keep q its al : (forall i x, al i = false -> nth_error its i = Some x -> q x = false) -> existsb q (keep al 0 its) = existsb q its.
Proof.
  intros H. rewrite !existsb_match. destruct (nth_match q 0 its) as [[j d]|] eqn:M.
  - destruct (al j) eqn:A; [destruct (match_keep _ _ _ _ al 0 M A) as [j' ->]; reflexivity|]. apply nth_match_0 in M. destruct M as (Nj & Mj & _). rewrite (H _ _ A Nj) in Mj. discriminate.
  - apply nth_match_none in M. destruct (nth_match q 0 (keep al 0 its)) as [[j d]|] eqn:M2; [|reflexivity]. apply nth_match_0 in M2. destruct M2 as (N2 & Q2 & _).
    rewrite Forall_forall in M. apply nth_error_In, keep_in in N2. rewrite (M _ N2) in Q2. discriminate.
Qed.
Lemma kept_fields its al : forall fs olds s vi ni vs s2 u, Forall (fun f => 0 < zlen (f_name f)) fs ->
  (forall i x, al i = false -> nth_error its i = Some x -> ~ In (doc_name x) (map f_name fs)) ->
  dfields w true dn fs olds its s vi ni = Ok (vs, s2, u) -> exists u', dfields w false df fs olds (keep al 0 its) s vi ni = Ok (vs, s2, u').
Proof.
  induction fs as [|f fs IH]; intros olds s vi ni vs s2 u Nm Al H; cbn [dfields] in *; [injection H as <- <- <-; eauto|].
  destruct olds as [|old olds]; [discriminate|]. inversion Nm as [|? ? N1 N2]; subst. rewrite andb_true_r in H. rewrite andb_false_r. cbn [andb].
  destruct (f_opt f && existsb (of_name (negb (scoped (f_type f))) (f_name f)) its); [discriminate|].
  rewrite existsb_keep.
  2:{ intros i x A Nx. unfold of_name. destruct (bytes_eqb (doc_name x) (f_name f)) eqn:E; [|now rewrite andb_false_r]. apply bytes_eqb_eq in E. destruct (Al _ _ A Nx). left. now rewrite E. }
  assert (Al' : forall i x, al i = false -> nth_error its i = Some x -> ~ In (doc_name x) (map f_name fs)) by (intros i x A Nx C; apply (Al _ _ A Nx); now right).
  destruct (f_opt f && negb (existsb (of_name (scoped (f_type f)) (f_name f)) its)).
  - destruct (dfields w true dn fs olds its s vi ni) as [[[vs' s'] u']| | |] eqn:E; cbn [rbind] in H; try discriminate. injection H as <- <- <-.
    destruct (IH _ _ _ _ _ _ _ N2 Al' E) as [u2 ->]. cbn [rbind]. eauto.
  - replace (0 <? zlen (f_name f)) with true in * by lia. unfold dfield, select in *.
    destruct (nth_match (of_name (scoped (f_type f)) (f_name f)) 0 its) as [[j d]|] eqn:M; [|discriminate].
    destruct (al j) eqn:A.
    2:{ pose proof (nth_match_0 _ _ _ _ M) as (Nj & Mj & _). exfalso. apply (Al _ _ A Nj). left. unfold of_name in Mj. apply andb_prop in Mj. destruct Mj as [_ Mj]. apply bytes_eqb_eq in Mj. congruence. }
    destruct (match_keep _ _ _ _ al 0 M A) as [j' ->].
    destruct (dchild w true dn (f_type f) old d s) as [[v s1]| | |] eqn:Ch; cbn [rbind] in H; try discriminate. rewrite (weak_child w true false ltac:(discriminate) dn df W _ _ _ _ _ Ch). cbn [rbind].
    destruct (dfields w true dn fs olds its s1 _ _) as [[[vs' s'] u']| | |] eqn:E; cbn [rbind] in H; try discriminate. injection H as <- <- <-.
    destruct (IH _ _ _ _ _ _ _ N2 Al' E) as [u2 ->]. cbn [rbind]. eauto.
Qed.

Lemma lazy_named ty its rest : good G its -> forall fs olds s vi ni vs s2 u al p, Forall (fun f => 0 < zlen (f_name f)) fs -> NoDup (map f_name fs) ->
  (forall i x, al i = false -> nth_error its i = Some x -> ~ In (doc_name x) (map f_name fs)) -> (forall i, (p <= i)%nat -> al i = true) -> (p <= length its)%nat ->
  dfields w true dn fs olds its s vi ni = Ok (vs, s2, u) ->
  exists n' tail, erun (paste_fields w pn Fu fs olds (unode ty (keep al 0 (firstn p its))) s vi ni) (flat_map events (skipn p its) ++ ev_end :: rest) =
     Some (Ok ((vs, n', s2), tail)) /\ ends its (Nat.max p u) rest n' tail.
Proof.
  intros Gd. induction fs as [|f fs IH]; intros olds s vi ni vs s2 u al p Nm Nd Al Alp Lp H; cbn [dfields paste_fields] in *.
  { injection H as <- <- <-. do 2 eexists. split; [reflexivity|]. right. rewrite Nat.max_0_r. split; reflexivity. }
  destruct olds as [|old olds]; [discriminate|]. inversion Nm as [|? ? N1 N2]; subst. cbn [map] in Nd. inversion Nd as [|? ? Nd1 Nd2]; subst. rewrite andb_true_r in H.
  set (sc := scoped (f_type f)) in *. set (k := f_name f) in *.
  destruct (f_opt f && existsb (of_name (negb sc) k) its) eqn:Ot; [discriminate|].
  assert (Al' : forall i x, al i = false -> nth_error its i = Some x -> ~ In (doc_name x) (map f_name fs)) by (intros i x A Nx C; apply (Al _ _ A Nx); now right).
  replace (0 <? zlen k) with true in * by lia.
  (* the member is there *)
  assert (There : forall q j d v s1 vs' s' u', (p <= q <= length its)%nat -> nth_match (of_name sc k) 0 its = Some (j, d) ->
    dchild w true dn (f_type f) old d s = Ok (v, s1) -> dfields w true dn fs olds its s1 (if sc then vi else vi + 1) (if sc then ni + 1 else ni) = Ok (vs', s', u') ->
    exists n' tail, erun (ebind (paste_field w pn Fu (f_type f) (IdName k) old (unode ty (keep al 0 (firstn q its))) s) (fun r =>
              let '(v, n1, s1) := r in
              ebind (paste_fields w pn Fu fs olds n1 s1 (if sc then vi else vi + 1) (if sc then ni + 1 else ni)) (fun r =>
                let '(vs, n', s') := r in ERet (v :: vs, n', s')))) (flat_map events (skipn q its) ++ ev_end :: rest) = Some (Ok ((v :: vs', n', s'), tail)) /\
      ends its (Nat.max q (Nat.max (S j) u')) rest n' tail).
  { intros q j d v s1 vs' s' u' Hq M Ch E. pose proof (nth_match_0 _ _ _ _ M) as (Nj & Mj & Bj).
    assert (Aj : al j = true). { destruct (al j) eqn:A; [reflexivity|]. exfalso. apply (Al _ _ A Nj). left. unfold of_name in Mj. apply andb_prop in Mj. destruct Mj as [_ Mj]. apply bytes_eqb_eq in Mj. symmetry. exact Mj. }
    rewrite erun_bind. rewrite (lazy_field (f_type f) (IdName k) old ty its al q s j d v s1 rest Gd Nj Aj).
    2:{ rewrite matches_name. exact Mj. }
    2:{ intros i x Hi _ Nx. rewrite matches_name. eapply Bj; eauto. }
    2:{ intros i Hi. apply Alp. lia. }
    2:{ lia. }
    2:{ exact Ch. }
    assert (Hj : (j < length its)%nat) by (apply nth_error_Some; congruence).
    destruct (fun A B C => IH _ _ _ _ _ _ _ (less al j) (Nat.max q (S j)) N2 Nd2 A B C E) as (n' & tail & R1 & R2).
    - intros i x A Nx. unfold less in A. destruct (al i) eqn:A2; [|now apply (Al' _ _ A2)]. cbn [andb] in A.
      assert (i = j) by (destruct (Nat.eqb_spec i j); [assumption|discriminate]). subst i. assert (x = d) by congruence. subst x. unfold of_name in Mj. apply andb_prop in Mj. destruct Mj as [_ Mj]. apply bytes_eqb_eq in Mj. rewrite Mj. exact Nd1.
    - intros i Hi. unfold less. rewrite Alp by lia. replace (Nat.eqb i j) with false by lia. reflexivity.
    - lia.
    - exists n', tail. split; [rewrite erun_bind, R1; reflexivity|]. rewrite Nat.max_assoc. exact R2. }
  destruct (f_opt f) eqn:Op; cbn [andb] in *.
  - rewrite erun_bind. rewrite lazy_has; auto.
    2:{ intros i x A Nx C. apply (Al _ _ A Nx). left. symmetry. exact C. }
    rewrite existsb_match in H. destruct (nth_match (of_name sc k) 0 its) as [[j d]|] eqn:M; cbn [negb] in H.
    + cbn [fst snd negb]. unfold dfield, select in H. fold sc k in H. rewrite M in H. destruct (dchild w true dn (f_type f) old d s) as [[v s1]| | |] eqn:Ch; cbn [rbind] in H; try discriminate.
      destruct (dfields w true dn fs olds its s1 _ _) as [[[vs' s'] u']| | |] eqn:E; cbn [rbind] in H; try discriminate. injection H as <- <- <-.
      assert (Hj : (j < length its)%nat) by (apply nth_error_Some; apply nth_match_0 in M; destruct M; congruence).
      destruct (There (Nat.max p (S j)) j d v s1 vs' s' u') as (n' & tail & R1 & R2); auto; [lia|]. exists n', tail. split; [exact R1|].
      replace (Nat.max (Nat.max p (S j)) (Nat.max (S j) u')) with (Nat.max p (Nat.max (S j) u')) in R2 by lia. exact R2.
    + destruct (dfields w true dn fs olds its s vi ni) as [[[vs' s'] u']| | |] eqn:E; cbn [rbind] in H; try discriminate. injection H as <- <- <-.
      cbn [fst snd negb]. rewrite (eager_fields w Fu pn df PN). destruct (kept_fields its al _ _ _ _ _ _ _ _ N2 Al' E) as [u2 ->].
      cbn [to_prog ebind erun]. do 2 eexists. split; [reflexivity|]. left. split; reflexivity.
  - cbn [ebind fst snd negb]. unfold dfield, select in H. fold sc k in H. destruct (nth_match (of_name sc k) 0 its) as [[j d]|] eqn:M; [|discriminate].
    destruct (dchild w true dn (f_type f) old d s) as [[v s1]| | |] eqn:Ch; cbn [rbind] in H; try discriminate.
    destruct (dfields w true dn fs olds its s1 _ _) as [[[vs' s'] u']| | |] eqn:E; cbn [rbind] in H; try discriminate. injection H as <- <- <-.
    eapply There; eauto.
Qed.

(** * Members without names, arrays *)
Definition count (sc : bool) (l : list doc) : nat := length (kind_items sc l).
Lemma count_snoc sc l d : count sc (l ++ [d]) = (count sc l + if of_kind sc d then 1 else 0)%nat.
Proof. unfold count, kind_items. rewrite filter_app, app_length. cbn [filter]. now destruct (of_kind sc d). Qed.
Lemma count_mono sc l a b : (a <= b)%nat -> (count sc (firstn a l) <= count sc (firstn b l))%nat.
Proof.
  intros H. rewrite <- (firstn_skipn a (firstn b l)). rewrite firstn_firstn, Nat.min_l by lia. unfold count, kind_items. rewrite filter_app, app_length. lia.
Qed.
Lemma firstn_S {A} (l : list A) j d : nth_error l j = Some d -> firstn (S j) l = firstn j l ++ [d].
Proof.
  revert j. induction l as [|x l IH]; intros [|j] H; cbn in H; try discriminate; [injection H as ->; reflexivity|]. cbn [firstn app]. f_equal. now apply IH.
Qed.
Lemma count_lt sc l i j d : (i < j)%nat -> nth_error l i = Some d -> of_kind sc d = true -> (count sc (firstn i l) < count sc (firstn j l))%nat.
Proof. intros H N K. pose proof (count_mono sc l (S i) j H) as M. rewrite (firstn_S _ _ _ N), count_snoc, K in M. lia. Qed.
Lemma nth_match_i sc its : forall i j d, nth_match (of_kind sc) i its = Some (j, d) -> nth_error its j = Some d /\ of_kind sc d = true /\ count sc (firstn j its) = i.
Proof.
  induction its as [|x its IH]; intros i j d H; cbn [nth_match] in H; [discriminate|]. destruct (of_kind sc x) eqn:K.
  - destruct i as [|i]; [injection H as <- <-; repeat split; auto|]. destruct (nth_match (of_kind sc) i its) as [[j' e]|] eqn:M; [|discriminate]. injection H as <- <-.
    destruct (IH _ _ _ M) as (A & B & C). repeat split; auto. unfold count, kind_items in *. cbn [firstn filter]. rewrite K. cbn [length]. now rewrite C.
  - destruct (nth_match (of_kind sc) i its) as [[j' e]|] eqn:M; [|discriminate]. injection H as <- <-.
    destruct (IH _ _ _ M) as (A & B & C). repeat split; auto. unfold count, kind_items in *. cbn [firstn filter]. rewrite K. exact C.
Qed.
(** the first [vi] values and the first [ni] scopes are taken *)
Definition taken (its : list doc) (al : nat -> bool) (vi ni : Z) : Prop :=
  forall j d, nth_error its j = Some d -> al j = ((if is_sc d then ni else vi) <=? Z.of_nat (count (is_sc d) (firstn j its))).
Lemma of_kind_eq sc d : of_kind sc d = true <-> is_sc d = sc.
Proof. unfold of_kind. split; [apply eqb_prop|intros ->; apply eqb_reflx]. Qed.
Lemma taken_step its al vi ni sc j d : 0 <= vi -> 0 <= ni -> taken its al vi ni -> nth_match (of_kind sc) (Z.to_nat (if sc then ni else vi)) its = Some (j, d) ->
  nth_error its j = Some d /\ al j = true /\ of_kind sc d = true /\
  (forall i x, (i < j)%nat -> al i = true -> nth_error its i = Some x -> of_kind sc x = false) /\
  taken its (less al j) (if sc then vi else vi + 1) (if sc then ni + 1 else ni).
Proof.
  intros V0 N0 T M. destruct (nth_match_i _ _ _ _ _ M) as (Nj & Kj & Cj). split; [exact Nj|]. pose proof (proj1 (of_kind_eq sc d) Kj) as Sj. split; [|split; [exact Kj|split]].
  - rewrite (T _ _ Nj), Sj, Cj. destruct sc; lia.
  - intros i x Hi Ai Nx. destruct (of_kind sc x) eqn:Kx; [|reflexivity]. exfalso. pose proof (proj1 (of_kind_eq sc x) Kx) as Sx. rewrite (T _ _ Nx), Sx in Ai.
    pose proof (count_lt sc its i j x Hi Nx Kx) as L. rewrite Cj in L. destruct sc; lia.
  - intros i x Nx. unfold less. rewrite (T _ _ Nx). destruct (Bool.eqb (is_sc x) sc) eqn:Ex.
    + pose proof (eqb_prop _ _ Ex) as Sx. rewrite Sx. assert (Kx : of_kind sc x = true) by (now apply of_kind_eq).
      destruct (Nat.eqb_spec i j) as [->|Nij]; cbn [negb]; [rewrite Cj; destruct sc; lia|].
      destruct (Nat.lt_ge_cases i j) as [Lt|Ge].
      * pose proof (count_lt sc its i j x Lt Nx Kx) as L. rewrite Cj in L. destruct sc; lia.
      * assert (Lt : (j < i)%nat) by lia. pose proof (count_lt sc its j i d Lt Nj Kj) as L. rewrite Cj in L. destruct sc; lia.
    + assert (Nij : i <> j) by (intros ->; rewrite Nj in Nx; injection Nx as <-; rewrite Sj, eqb_reflx in Ex; discriminate).
      replace (Nat.eqb i j) with false by lia. cbn [negb]. rewrite andb_true_r. destruct (is_sc x), sc; cbn in Ex; congruence || reflexivity.
Qed.

Lemma lazy_unnamed ty its rest : good G its -> forall fs olds s vi ni vs s2 u al p, Forall (fun f => f_name f = [] /\ f_opt f = false) fs -> 0 <= vi -> 0 <= ni ->
  taken its al vi ni -> (forall i, (p <= i)%nat -> al i = true) -> (p <= length its)%nat -> dfields w true dn fs olds its s vi ni = Ok (vs, s2, u) ->
  exists n' tail, erun (paste_fields w pn Fu fs olds (unode ty (keep al 0 (firstn p its))) s vi ni) (flat_map events (skipn p its) ++ ev_end :: rest) =
     Some (Ok ((vs, n', s2), tail)) /\ ends its (Nat.max p u) rest n' tail.
Proof.
  intros Gd. induction fs as [|f fs IH]; intros olds s vi ni vs s2 u al p Nm V0 N0 T Alp Lp H; cbn [dfields paste_fields] in *.
  { injection H as <- <- <-. do 2 eexists. split; [reflexivity|]. right. rewrite Nat.max_0_r. split; reflexivity. }
  destruct olds as [|old olds]; [discriminate|]. inversion Nm as [|? ? [N1 O1] N2]; subst. rewrite O1, N1 in *. cbn [andb ebind fst snd negb] in *. change (0 <? zlen []) with false in *. cbv iota in *.
  set (sc := scoped (f_type f)) in *. unfold dfield at 1 in H. fold sc in H. unfold select in H.
  replace ((if sc then ni else vi) <? 0) with false in H by (destruct sc; lia).
  destruct (nth_match (of_kind sc) (Z.to_nat (if sc then ni else vi)) its) as [[j d]|] eqn:M; [|discriminate].
  destruct (dchild w true dn (f_type f) old d s) as [[v s1]| | |] eqn:Ch; cbn [rbind] in H; try discriminate.
  destruct (dfields w true dn fs olds its s1 _ _) as [[[vs' s'] u']| | |] eqn:E; cbn [rbind] in H; try discriminate. injection H as <- <- <-.
  destruct (taken_step _ _ _ _ _ _ _ V0 N0 T M) as (Nj & Aj & Kj & Bj & T').
  assert (Hj : (j < length its)%nat) by (apply nth_error_Some; congruence).
  rewrite erun_bind. rewrite (lazy_field (f_type f) (IdPos (if sc then ni else vi)) old ty its al p s j d v s1 rest Gd Nj Aj); auto.
  2:{ rewrite matches_pos. exact Kj. }
  2:{ intros i x Hi Ai Nx. rewrite matches_pos. eapply Bj; eauto. }
  destruct (fun A B C D F => IH _ _ _ _ _ _ _ (less al j) (Nat.max p (S j)) N2 A B C D F E) as (n' & tail & R1 & R2); try lia; auto.
  - destruct sc; lia.
  - destruct sc; lia.
  - intros i Hi. unfold less. rewrite Alp by lia. replace (Nat.eqb i j) with false by lia. reflexivity.
  - exists n', tail. split; [rewrite erun_bind, R1; reflexivity|]. assert (X : ends its (Nat.max p (Nat.max (S j) u')) rest n' tail) by (rewrite Nat.max_assoc; exact R2). exact X.
Qed.
Lemma kind_nth sc its i d : nth_error (kind_items sc its) i = Some d -> exists j, nth_match (of_kind sc) i its = Some (j, d).
Proof. unfold kind_items. rewrite <- nth_match_filter. destruct (nth_match (of_kind sc) i its) as [[j e]|]; [|discriminate]. intros H. injection H as ->. eauto. Qed.
Lemma upto_0 sc its : upto sc 0 its = O. Proof. now destruct its. Qed.
Lemma upto_mono sc its : forall i, (upto sc i its <= upto sc (S i) its)%nat.
Proof.
  induction its as [|x its IH]; intros [|i]; cbn [upto]; try lia. destruct (of_kind sc x); [destruct i; [rewrite upto_0; lia|]; pose proof (IH (S i)); lia|]. pose proof (IH (S i)). lia.
Qed.
Lemma upto_match sc its : forall i j d, nth_match (of_kind sc) i its = Some (j, d) -> upto sc (S i) its = S j /\ (upto sc i its <= S j)%nat.
Proof.
  assert (E : forall i j d, nth_match (of_kind sc) i its = Some (j, d) -> upto sc (S i) its = S j).
  { induction its as [|x its IH]; intros i j d H; cbn [nth_match] in H; [discriminate|]. cbn [upto]. destruct (of_kind sc x) eqn:K.
    - destruct i as [|i]; [injection H as <- <-; now rewrite upto_0|]. destruct (nth_match (of_kind sc) i its) as [[j' e]|] eqn:M; [|discriminate]. injection H as <- <-. f_equal. eapply IH; eauto.
    - destruct (nth_match (of_kind sc) i its) as [[j' e]|] eqn:M; [|discriminate]. injection H as <- <-. f_equal. eapply IH; eauto. }
  intros i j d H. pose proof (E _ _ _ H) as E1. split; [exact E1|]. rewrite <- E1. apply upto_mono.
Qed.
Lemma upto_len sc its : forall i, (upto sc i its <= length its)%nat.
Proof. induction its as [|x its IH]; intros [|i]; cbn [upto length]; try lia. pose proof (IH i); pose proof (IH (S i)). destruct (of_kind sc x); lia. Qed.
Lemma lazy_array e ty its rest : good G its -> forall olds i s vs s2 al, (i + length olds <= count (scoped e) its)%nat ->
  taken its al (if scoped e then 0 else Z.of_nat i) (if scoped e then Z.of_nat i else 0) -> (forall x, (upto (scoped e) i its <= x)%nat -> al x = true) ->
  darray w true dn e olds (skipn i (kind_items (scoped e) its)) s = Ok (vs, s2) ->
  exists al', erun (array_read w pn Fu e (Z.of_nat i) olds (unode ty (keep al 0 (firstn (upto (scoped e) i its) its))) s)
      (flat_map events (skipn (upto (scoped e) i its) its) ++ ev_end :: rest) =
    Some (Ok ((vs, unode ty (keep al' 0 (firstn (upto (scoped e) (i + length olds) its) its)), s2), flat_map events (skipn (upto (scoped e) (i + length olds) its) its) ++ ev_end :: rest)).
Proof.
  intros Gd. set (sc := scoped e) in *. induction olds as [|old olds IH]; intros i s vs s2 al Hn T Alp H.
  { cbn [darray] in H. assert (vs = [] /\ s2 = s) as [-> ->] by (now destruct (skipn i (kind_items sc its)); injection H). exists al. cbn [array_read erun length]. rewrite Nat.add_0_r. reflexivity. }
  cbn [length] in Hn. destruct (nth_error (kind_items sc its) i) as [d|] eqn:Nd.
  2:{ apply nth_error_None in Nd. unfold count in Hn. lia. }
  destruct (split_nth _ _ _ Nd) as [_ _].
  assert (Es : skipn i (kind_items sc its) = d :: skipn (S i) (kind_items sc its)).
  { clear - Nd. revert i Nd. induction (kind_items sc its) as [|x l IHl]; intros [|i] Nd; cbn in *; try discriminate; [congruence|]. now apply IHl. }
  rewrite Es in H. cbn [darray] in H. destruct (dchild w true dn e old d s) as [[v s1]| | |] eqn:Ch; cbn [rbind] in H; try discriminate.
  destruct (darray w true dn e olds (skipn (S i) (kind_items sc its)) s1) as [[vs' s']| | |] eqn:E; cbn [rbind] in H; try discriminate. injection H as <- <-.
  destruct (kind_nth _ _ _ _ Nd) as [j M]. destruct (upto_match _ _ _ _ _ M) as [U1 U2].
  assert (M' : nth_match (of_kind sc) (Z.to_nat (if sc then (if sc then Z.of_nat i else 0) else (if sc then 0 else Z.of_nat i))) its = Some (j, d)) by (destruct sc; rewrite Nat2Z.id; exact M).
  destruct (taken_step its al (if sc then 0 else Z.of_nat i) (if sc then Z.of_nat i else 0) sc j d ltac:(destruct sc; lia) ltac:(destruct sc; lia) T M') as (Nj & Aj & Kj & Bj & T').
  assert (Hj : (j < length its)%nat) by (apply nth_error_Some; congruence).
  cbn [array_read length]. change (l_parsed (unode ty (keep al 0 (firstn (upto sc i its) its)))) with false. cbv iota. rewrite erun_bind.
  rewrite (lazy_field e (IdPos (Z.of_nat i)) old ty its al (upto sc i its) s j d v s1 rest Gd Nj Aj); auto.
  2:{ rewrite matches_pos. exact Kj. }
  2:{ intros x y Hx Ax Nx. rewrite matches_pos. eapply Bj; eauto. }
  2:{ apply upto_len. }
  rewrite Nat.max_r by exact U2. rewrite <- U1. destruct (IH (S i) s1 vs' s' (less al j)) as [al' R]; auto.
  - lia.
  - destruct sc; cbn iota in T'; [replace (Z.of_nat (S i)) with (Z.of_nat i + 1) by lia|replace (Z.of_nat (S i)) with (Z.of_nat i + 1) by lia]; exact T'.
  - intros x Hx. rewrite U1 in Hx. unfold less. rewrite Alp by lia. replace (Nat.eqb x j) with false by lia. reflexivity.
  - exists al'. rewrite erun_bind. replace (Z.of_nat i + 1) with (Z.of_nat (S i)) by lia. rewrite R. cbn [erun]. replace (i + S (length olds))%nat with (S i + length olds)%nat by lia. reflexivity.
Qed.

(** * Elements *)
Lemma split_kind sc its d l : kind_items sc its = d :: l -> exists r1 r2, its = r1 ++ d :: r2 /\ Forall (fun x => of_kind sc x = false) r1 /\ kind_items sc r2 = l.
Proof.
  induction its as [|x its IH]; unfold kind_items in *; cbn [filter]; [discriminate|]. destruct (of_kind sc x) eqn:K.
  - intros H. injection H as -> <-. exists [], its. repeat split; auto.
  - intros H. destruct (IH H) as (r1 & r2 & -> & A & B). exists (x :: r1), r2. repeat split; auto.
Qed.
Lemma kind_none sc its : kind_items sc its = [] -> Forall (fun x => of_kind sc x = false) its.
Proof. unfold kind_items. induction its as [|x its IH]; cbn [filter]; [constructor|]. destruct (of_kind sc x) eqn:K; [discriminate|]. auto. Qed.
Lemma not_kind sc id L : Forall (fun x => of_kind sc x = false) L -> Forall (fun x => matches sc id x = false) L.
Proof. intros H. eapply Forall_impl; [|exact H]. intros x K. unfold matches, of_kind in *. now rewrite K. Qed.
Lemma lazy_values {B} ty (fv : bytes * value -> B -> rstate -> eprog (B * rstate)) (h : doc -> B -> rstate -> res (B * rstate)) rest :
  (forall k v acc s r, h (DVal k v) acc s = Ok r -> fv (k, v) acc s = ERet r) ->
  forall fuel its L acc s acc' s', good G its -> Forall (fun x => of_kind false x = false) L -> (length (kind_items false its) < fuel)%nat ->
  deach h (kind_items false its) acc s = Ok (acc', s') ->
  exists M, erun (each_value_read Fu fv fuel acc (unode ty L) s) (flat_map events its ++ ev_end :: rest) = Some (Ok ((acc', pnode ty M, s'), rest)).
Proof.
  intros HV. induction fuel as [|fuel IH]; intros its L acc s acc' s' [Fi Hf] NL Hn H; [lia|]. cbn [each_value_read].
  rewrite take_read_value by now apply not_kind. rewrite erun_bind, erun_bind. destruct (kind_items false its) as [|d l] eqn:K.
  - cbn [deach] in H. injection H as <- <-. apply kind_none in K. rewrite (scan_end false (IdPos 0)); [|exact Fi|now apply not_kind|lia]. cbn [erun fst snd]. eauto.
  - destruct (split_kind _ _ _ _ K) as (r1 & r2 & -> & N1 & K2). cbn [deach] in H. destruct (h d acc s) as [[a1 s1]| | |] eqn:Hd; cbn [rbind] in H; try discriminate.
    assert (Kd : of_kind false d = true) by (pose proof (kind_forall false (r1 ++ d :: r2)) as X; rewrite K in X; inversion X; subst; now apply of_kind_eq).
    apply Forall_app in Fi. destruct Fi as [Fi1 Fi2]. inversion Fi2 as [|? ? Fd Fi3]; subst. rewrite flat_map_app in Hf |- *. cbn [flat_map] in Hf |- *. rewrite !app_length in Hf. rewrite <- !app_assoc.
    rewrite (scan_stop false (IdPos 0)); [|exact Fi1|now apply not_kind|apply Fd|rewrite matches_pos; exact Kd|lia].
    destruct d as [k v|]; [|discriminate]. cbn [erun fst snd head_event content app]. change (l_parsed (unode ty (L ++ r1))) with false. cbv iota.
    rewrite (HV _ _ _ _ _ Hd). cbn [ebind fst snd]. apply IH; auto.
    + split; [exact Fi3|lia].
    + apply Forall_app. now split.
    + cbn [length] in Hn. lia.
Qed.
Lemma lazy_nodes {B} ty (fn : bytes * lnode -> B -> rstate -> eprog (B * lnode * rstate)) (h : doc -> B -> rstate -> res (B * rstate)) rest :
  (forall k t l acc s a s' rest, good G l -> h (DScope k t l) acc s = Ok (a, s') ->
     exists n' tail u, erun (fn (k, unode t []) acc s) (flat_map events l ++ ev_end :: rest) = Some (Ok ((a, n', s'), tail)) /\ ends l u rest n' tail /\ forallb (fun d => negb (is_sc d)) (skipn u l) = true) ->
  forall fuel its L acc s acc' s', good G its -> Forall (fun x => of_kind true x = false) L -> (length (kind_items true its) < fuel)%nat ->
  deach h (kind_items true its) acc s = Ok (acc', s') ->
  exists M, erun (each_node_read Fu fn fuel acc (unode ty L) s) (flat_map events its ++ ev_end :: rest) = Some (Ok ((acc', pnode ty M, s'), rest)).
Proof.
  intros HN. induction fuel as [|fuel IH]; intros its L acc s acc' s' Gd NL Hn H; [lia|]. pose proof Gd as [Fi Hf]. cbn [each_node_read].
  rewrite take_read_node by now apply not_kind. rewrite erun_bind, erun_bind. destruct (kind_items true its) as [|d l] eqn:K.
  - cbn [deach] in H. injection H as <- <-. apply kind_none in K. rewrite (scan_end true (IdPos 0)); [|exact Fi|now apply not_kind|lia]. cbn [erun fst snd]. eauto.
  - destruct (split_kind _ _ _ _ K) as (r1 & r2 & -> & N1 & K2). cbn [deach] in H. destruct (h d acc s) as [[a1 s1]| | |] eqn:Hd; cbn [rbind] in H; try discriminate.
    assert (Kd : of_kind true d = true) by (pose proof (kind_forall true (r1 ++ d :: r2)) as X; rewrite K in X; inversion X; subst; now apply of_kind_eq).
    apply Forall_app in Fi. destruct Fi as [Fi1 Fi2]. inversion Fi2 as [|? ? Fd Fi3]; subst. rewrite flat_map_app in Hf |- *. cbn [flat_map] in Hf |- *. rewrite !app_length in Hf. rewrite <- !app_assoc.
    rewrite (scan_stop true (IdPos 0)); [|exact Fi1|now apply not_kind|apply Fd|rewrite matches_pos; exact Kd|lia].
    destruct d as [|k t sub]; [discriminate|]. cbn [erun fst snd head_event content app]. change (l_parsed (unode ty (L ++ r1))) with false. cbv iota.
    change (mkL false (empty_node (v_type (val_type t)))) with (unode t []). rewrite <- app_assoc. cbn [app].
    assert (Gs : good G sub) by (eapply good_sub; [exact Gd|apply in_or_app; right; now left]).
    destruct (HN _ _ _ _ _ _ _ (flat_map events r2 ++ ev_end :: rest) Gs Hd) as (n' & tail & u & R1 & R2 & R3). rewrite erun_bind, R1.
    rewrite (leave Fu sub u (flat_map events r2 ++ ev_end :: rest)); [|exact R2|apply Gs|exact R3|destruct Gs; lia]. apply IH; auto.
    + split; [exact Fi3|lia].
    + apply Forall_app. now split.
    + cbn [length] in Hn. lia.
Qed.
Lemma lazy_node_end {A} t old k ty its s (mk : cv -> A) : good G its -> forall rest v s', dchild w true dn t old (DScope k ty its) s = Ok (v, s') ->
  exists n' tail u, erun (ebind (pn t old (unode ty []) s) (fun r => let '(v, c', s') := r in ERet (mk v, c', s'))) (flat_map events its ++ ev_end :: rest) = Some (Ok ((mk v, n', s'), tail)) /\
    ends its u rest n' tail /\ forallb (fun d => negb (is_sc d)) (skipn u its) = true.
Proof.
  intros Gd rest v s' H. unfold dchild, quiet in H. cbn [negb orb] in H. destruct (dn t old (DScope k ty its) s) as [[[v0 s0] u]| | |] eqn:E; cbn [rbind] in H; try discriminate.
  destruct (forallb _ (skipn u its)) eqn:Q; [|discriminate]. injection H as -> ->.
  destruct (LZ _ _ _ _ _ _ _ _ _ rest E Gd) as (n' & tail & R1 & R2). exists n', tail, u. rewrite erun_bind, R1. auto.
Qed.
Lemma kind_len sc its : (length (kind_items sc its) <= length (flat_map events its))%nat.
Proof.
  induction its as [|d its IH]; unfold kind_items in *; cbn [filter flat_map]; [cbn; lia|]. rewrite app_length, events_head. cbn [length]. destruct (of_kind sc d); cbn [length]; lia.
Qed.
Lemma lazy_items {B} ty sc (fv : bytes * value -> B -> rstate -> eprog (B * rstate)) (fn : bytes * lnode -> B -> rstate -> eprog (B * lnode * rstate))
   (h : doc -> B -> rstate -> res (B * rstate)) rest :
  (sc = false -> forall k v acc s r, h (DVal k v) acc s = Ok r -> fv (k, v) acc s = ERet r) ->
  (sc = true -> forall k t l acc s a s' rest, good G l -> h (DScope k t l) acc s = Ok (a, s') ->
     exists n' tail u, erun (fn (k, unode t []) acc s) (flat_map events l ++ ev_end :: rest) = Some (Ok ((a, n', s'), tail)) /\ ends l u rest n' tail /\ forallb (fun d => negb (is_sc d)) (skipn u l) = true) ->
  forall its acc s acc' s', good G its -> deach h (kind_items sc its) acc s = Ok (acc', s') ->
  exists M, erun (each_item Fu sc fv fn acc (unode ty []) s) (flat_map events its ++ ev_end :: rest) = Some (Ok ((acc', pnode ty M, s'), rest)).
Proof.
  intros HV HN its acc s acc' s' Gd H. unfold each_item. change (l_parsed (unode ty [])) with false. cbv iota. pose proof (kind_len sc its). destruct Gd as [Fi Hf].
  destruct sc; [eapply lazy_nodes|eapply lazy_values]; eauto; try (split; assumption); lia.
Qed.

(** * A scope *)
Definition all_there : nat -> bool := fun _ => true.
Lemma start its : unode TObject (keep all_there 0 (firstn 0 its)) = unode TObject [].
Proof. reflexivity. Qed.
Lemma one_named t k old ty its al p s v s' u rest : good G its -> (forall i x, al i = false -> nth_error its i = Some x -> doc_name x <> k) ->
  (forall i, (p <= i)%nat -> al i = true) -> (p <= length its)%nat -> dfield w true dn t (IdName k) old its s = Ok (v, s', u) ->
  exists j d, u = S j /\ nth_error its j = Some d /\ doc_name d = k /\ (u <= length its)%nat /\
  erun (paste_field w pn Fu t (IdName k) old (unode ty (keep al 0 (firstn p its))) s) (flat_map events (skipn p its) ++ ev_end :: rest) =
  Some (Ok ((v, unode ty (keep (less al j) 0 (firstn (Nat.max p u) its)), s'), flat_map events (skipn (Nat.max p u) its) ++ ev_end :: rest)).
Proof.
  intros Gd Al Alp Lp H. unfold dfield, select in H. destruct (nth_match (of_name (scoped t) k) 0 its) as [[j d]|] eqn:M; [|discriminate].
  destruct (dchild w true dn t old d s) as [[v0 s0]| | |] eqn:Ch; cbn [rbind] in H; try discriminate. injection H as -> -> <-.
  pose proof (nth_match_0 _ _ _ _ M) as (Nj & Mj & Bj). assert (Hj : (j < length its)%nat) by (apply nth_error_Some; congruence).
  assert (Nd : doc_name d = k) by (unfold of_name in Mj; apply andb_prop in Mj; destruct Mj as [_ Mj]; now apply bytes_eqb_eq in Mj).
  exists j, d. repeat split; auto. apply lazy_field with (d := d); auto.
  - destruct (al j) eqn:A; [reflexivity|]. destruct (Al _ _ A Nj Nd).
  - rewrite matches_name. exact Mj.
  - intros i x Hi _ Nx. rewrite matches_name. eapply Bj; eauto.
Qed.
Lemma less_other al j (its : list doc) d p : nth_error its j = Some d -> (forall i, (p <= i)%nat -> al i = true) ->
  (forall i, (Nat.max p (S j) <= i)%nat -> less al j i = true).
Proof. intros _ A i Hi. unfold less. rewrite A by lia. replace (Nat.eqb i j) with false by lia. reflexivity. Qed.
Lemma less_all j i : less all_there j i = false -> i = j.
Proof. unfold less, all_there. cbn [andb]. destruct (Nat.eqb_spec i j); [auto|discriminate]. Qed.
(** two members with names *)
Lemma two_named ta tb ka kb oa ob ty its s x y s1 s2 u1 u2 rest : good G its -> ka <> kb ->
  dfield w true dn ta (IdName ka) oa its s = Ok (x, s1, u1) -> dfield w true dn tb (IdName kb) ob its s1 = Ok (y, s2, u2) ->
  exists n1 n2, erun (paste_field w pn Fu ta (IdName ka) oa (unode ty []) s) (flat_map events its ++ ev_end :: rest) =
      Some (Ok ((x, n1, s1), flat_map events (skipn u1 its) ++ ev_end :: rest)) /\ l_parsed n1 = false /\
    erun (paste_field w pn Fu tb (IdName kb) ob n1 s1) (flat_map events (skipn u1 its) ++ ev_end :: rest) =
      Some (Ok ((y, n2, s2), flat_map events (skipn (Nat.max u1 u2) its) ++ ev_end :: rest)) /\ l_parsed n2 = false.
Proof.
  intros Gd Ne H1 H2.
  destruct (one_named ta ka oa ty its all_there 0 s x s1 u1 rest) as (j & d & -> & Nj & Dj & Lu & R1); auto; [discriminate|lia|].
  rewrite Nat.max_0_l in R1. cbn [firstn keep skipn] in R1.
  destruct (one_named tb kb ob ty its (less all_there j) (S j) s1 y s2 u2 rest) as (j2 & d2 & Eu & Nj2 & Dj2 & Lu2 & R2); auto.
  - intros i z A Nz C. apply less_all in A. subst i. assert (z = d) by congruence. subst z. apply Ne. congruence.
  - intros i Hi. unfold less, all_there. replace (Nat.eqb i j) with false by lia. reflexivity.
  - do 2 eexists. split; [exact R1|]. split; [reflexivity|]. split; [exact R2|reflexivity].
Qed.
Lemma lazy_elem {B} (add : cv -> B -> B) e ty its acc s acc' s' rest : good G its -> deach (delem w true dn add e) (kind_items (scoped e) its) acc s = Ok (acc', s') ->
  exists M, erun (each_item Fu (scoped e) (elem_value w add e) (elem_node w pn add e) acc (unode ty []) s) (flat_map events its ++ ev_end :: rest) = Some (Ok ((acc', pnode ty M, s'), rest)).
Proof.
  intros Gd H. eapply lazy_items; eauto.
  - intros _ k v a s0 r. unfold delem, dchild, elem_value. cbn [snd]. destruct (paste_value w e (w_new w e) v); cbn [rbind]; try discriminate. intros X. injection X as <-. reflexivity.
  - intros _ k t l a s0 a' s0' rest0 Gl X. unfold delem in X. destruct (dchild w true dn e (w_new w e) (DScope k t l) s0) as [[v s1]| | |] eqn:Ch; cbn [rbind] in X; try discriminate. injection X as <- <-.
    unfold elem_node. cbn [snd]. apply (lazy_node_end e (w_new w e) k t l s0 (fun v => add v a) Gl rest0 v s1 Ch).
Qed.
Lemma lazy_tab e ty its acc s acc' s' rest : good G its -> deach (dtab w true dn e) (kind_items (scoped e) its) acc s = Ok (acc', s') ->
  exists M, erun (each_item Fu (scoped e) (entry_value w e) (entry_node w pn e) acc (unode ty []) s) (flat_map events its ++ ev_end :: rest) = Some (Ok ((acc', pnode ty M, s'), rest)).
Proof.
  intros Gd H. eapply lazy_items; eauto.
  - intros _ k v a s0 r. unfold dtab, dchild, entry_value. cbn [fst snd doc_name]. destruct (paste_value w e (w_new w e) v); cbn [rbind]; try discriminate. intros X. injection X as <-. reflexivity.
  - intros _ k t l a s0 a' s0' rest0 Gl X. unfold dtab in X. destruct (dchild w true dn e (w_new w e) (DScope k t l) s0) as [[v s1]| | |] eqn:Ch; cbn [rbind] in X; try discriminate. injection X as <- <-.
    unfold entry_node. cbn [fst snd doc_name]. apply (lazy_node_end e (w_new w e) k t l s0 (fun v => tab_insert k v a) Gl rest0 v s1 Ch).
Qed.
Lemma lazy_map k e ty its acc s acc' s' rest : good G its -> deach (dentry w true dn k e) (kind_items true its) acc s = Ok (acc', s') ->
  exists M, erun (each_item Fu true (fun _ _ _ => EThrow) (elem_entry w pn Fu k e) acc (unode ty []) s) (flat_map events its ++ ev_end :: rest) = Some (Ok ((acc', pnode ty M, s'), rest)).
Proof.
  intros Gd H. eapply lazy_items; eauto; [discriminate|].
  intros _ k' t l a s0 a' s0' rest0 Gl X. unfold dentry in X. cbn [items] in X.
  destruct (dfield w true dn k (IdName str_key) (w_new w k) l s0) as [[[key s1] u1]| | |] eqn:H1; cbn [rbind] in X; try discriminate.
  destruct (dfield w true dn e (IdName str_value) (w_new w e) l s1) as [[[val s2] u2]| | |] eqn:H2; cbn [rbind] in X; try discriminate.
  unfold quiet in X. cbn [negb orb] in X. destruct (forallb _ _) eqn:Q; [|discriminate]. injection X as <- <-.
  destruct (two_named k e str_key str_value _ _ t l s0 _ _ _ _ _ _ rest0 Gl ltac:(discriminate) H1 H2) as (n1 & n2 & R1 & P1 & R2 & P2).
  exists n2, (flat_map events (skipn (Nat.max u1 u2) l) ++ ev_end :: rest0), (Nat.max u1 u2). unfold elem_entry. cbn [snd]. rewrite erun_bind, R1, erun_bind, R2. cbn [erun].
  split; [reflexivity|]. split; [right; now split|exact Q].
Qed.

Hypothesis Rg : regular w.
Lemma lazy_step t old k ty its s v s' u rest : dstep w true dn t old k ty its s = Ok (v, s', u) -> good G its ->
  exists n' tail, erun (paste_step w pn Fu t old (unode ty []) s) (flat_map events its ++ ev_end :: rest) = Some (Ok ((v, n', s'), tail)) /\ ends its u rest n' tail.
Proof.
  intros H Gd. unfold dstep in H. cbv zeta in H. unfold paste_step. change (n_type (l_node (unode ty []))) with ty. change (l_parsed (unode ty [])) with false. cbv beta zeta iota.
  assert (FS : forall fs olds vi u0 al p (mk : list cv -> cv) vs s2 u2,
     (named_class fs /\ (forall i x, al i = false -> nth_error its i = Some x -> ~ In (doc_name x) (map f_name fs)) \/ unnamed_class fs /\ vi = 0 /\ al = all_there) ->
     (forall i, (p <= i)%nat -> al i = true) -> (p <= length its)%nat -> u0 = p ->
     dfields w true dn fs olds its s vi 0 = Ok (vs, s2, u2) ->
     exists n' tail, erun (ebind (paste_fields w pn Fu fs olds (unode ty (keep al 0 (firstn p its))) s vi 0) (fun r => let '(vs, n', s') := r in ERet (mk vs, n', s')))
         (flat_map events (skipn p its) ++ ev_end :: rest) = Some (Ok ((mk vs, n', s2), tail)) /\ ends its (Nat.max u0 u2) rest n' tail).
  { intros fs olds vi u0 al p mk vs s2 u2 Hc Alp Lp -> Hd.
    assert (X : exists n' tail, erun (paste_fields w pn Fu fs olds (unode ty (keep al 0 (firstn p its))) s vi 0) (flat_map events (skipn p its) ++ ev_end :: rest) =
       Some (Ok ((vs, n', s2), tail)) /\ ends its (Nat.max p u2) rest n' tail).
    { destruct Hc as [[[N1 N2] A]|[U [-> ->]]].
      - eapply lazy_named; eauto.
      - eapply lazy_unnamed; eauto; try lia. intros j d Nj. unfold all_there. destruct (is_sc d); lia. }
    destruct X as (n' & tail & R1 & R2). exists n', tail. split; [|exact R2]. rewrite erun_bind, R1. reflexivity. }
  assert (K0 : forall ty, unode ty (keep all_there 0 (firstn 0 its)) = unode ty []) by reflexivity.
  assert (S0 : flat_map events (skipn 0 its) = flat_map events its) by reflexivity.
  destruct t; try discriminate.
  - (* class *) destruct (is_scope ty); [|discriminate]. cbn [negb] in *. destruct old; try discriminate.
    destruct (dfields w true dn (w_cls w c) vs its s 0 0) as [[[vs' s2] u2]| | |] eqn:E; cbn [rbind] in H; try discriminate. injection H as <- <- <-.
    rewrite <- (K0 ty), <- S0. eapply (FS _ _ _ O all_there O VList); eauto; try lia.
    destruct Rg as [R1 _]. destruct (R1 c) as [A|B]; [left; split; [exact A|discriminate]|right; auto].
  - (* sequence *) destruct (is_scope ty); [|discriminate]. cbn [negb] in *. destruct (deach _ _ [] s) as [[vs s2]| | |] eqn:E; cbn [rbind] in H; try discriminate. injection H as <- <- <-.
    destruct (lazy_elem _ _ ty _ _ _ _ _ rest Gd E) as [M R]. do 2 eexists. rewrite erun_bind, R. split; [reflexivity|]. left. split; reflexivity.
  - (* set *) destruct (is_scope ty); [|discriminate]. cbn [negb] in *. destruct (deach _ _ [] s) as [[vs s2]| | |] eqn:E; cbn [rbind] in H; try discriminate. injection H as <- <- <-.
    destruct (lazy_elem _ _ ty _ _ _ _ _ rest Gd E) as [M R]. do 2 eexists. rewrite erun_bind, R. split; [reflexivity|]. left. split; reflexivity.
  - (* map *) destruct (is_scope ty); [|discriminate]. cbn [negb] in *. destruct (deach _ _ [] s) as [[vs s2]| | |] eqn:E; cbn [rbind] in H; try discriminate. injection H as <- <- <-.
    destruct (lazy_map _ _ ty _ _ _ _ _ rest Gd E) as [M R]. do 2 eexists. rewrite erun_bind, R. split; [reflexivity|]. left. split; reflexivity.
  - (* table *) destruct (ty_eqb ty TObject); [|discriminate]. cbn [negb] in *. destruct (deach _ _ [] s) as [[vs s2]| | |] eqn:E; cbn [rbind] in H; try discriminate. injection H as <- <- <-.
    destruct (lazy_tab _ ty _ _ _ _ _ rest Gd E) as [M R]. do 2 eexists. rewrite erun_bind, R. split; [reflexivity|]. left. split; reflexivity.
  - (* array *) destruct (is_scope ty); [|discriminate]. cbn [negb] in *. destruct old; try discriminate. destruct (Nat.eqb_spec (length vs) n) as [Ln|]; [|discriminate]. cbn [negb] in *.
    destruct (Nat.eqb_spec (length (kind_items (scoped t) its)) n) as [Lk|]; [|discriminate]. cbn [negb] in *.
    destruct (darray w true dn t vs (kind_items (scoped t) its) s) as [[vs' s2]| | |] eqn:E; cbn [rbind] in H; try discriminate. injection H as <- <- <-.
    destruct (lazy_array t ty its rest Gd vs 0 s vs' s2 all_there) as [al' R]; auto.
    + unfold count. lia.
    + intros j d Nj. unfold all_there. destruct (is_sc d), (scoped t); lia.
    + rewrite upto_0 in R. cbn [Z.of_nat firstn skipn keep Nat.add] in R. rewrite Ln in R. do 2 eexists. rewrite erun_bind, R. split; [reflexivity|]. right. split; reflexivity.
  - (* pair *) destruct (ty_eqb ty TObject); [|discriminate]. cbn [negb] in *. destruct old as [| |[|oa [|ob [|? ?]]]| | | | | |]; try discriminate.
    destruct (dfield w true dn t1 (IdName str_first) oa its s) as [[[x s1] u1]| | |] eqn:H1; cbn [rbind] in H; try discriminate.
    destruct (dfield w true dn t2 (IdName str_second) ob its s1) as [[[y s2] u2]| | |] eqn:H2; cbn [rbind] in H; try discriminate. injection H as <- <- <-.
    destruct (two_named t1 t2 str_first str_second _ _ ty its s _ _ _ _ _ _ rest Gd ltac:(discriminate) H1 H2) as (n1 & n2 & R1 & P1 & R2 & P2).
    do 2 eexists. rewrite erun_bind, R1, erun_bind, R2. split; [reflexivity|]. right. split; [exact P2|reflexivity].
  - (* tuple *) destruct (is_scope ty); [|discriminate]. cbn [negb] in *. destruct old; try discriminate.
    destruct (dfields w true dn _ vs its s 0 0) as [[[vs' s2] u2]| | |] eqn:E; cbn [rbind] in H; try discriminate. injection H as <- <- <-.
    rewrite <- (K0 ty), <- S0. eapply (FS _ _ _ O all_there O VList); eauto; try lia.
    right. split; [|auto]. unfold unnamed_class. apply Forall_forall. intros f I. apply in_map_iff in I. destruct I as (g & <- & _). split; reflexivity.
  - (* pointer *) destruct (dn t _ _ s) as [[[x s1] u1]| | |] eqn:E; cbn [rbind] in H; try discriminate. injection H as <- <- <-.
    destruct (LZ _ _ _ _ _ _ _ _ _ rest E Gd) as (n' & tail & R1 & R2). exists n', tail. rewrite erun_bind, R1. split; [reflexivity|exact R2].
  - (* unique_ptr *) destruct (dn t _ _ s) as [[[x s1] u1]| | |] eqn:E; cbn [rbind] in H; try discriminate. injection H as <- <- <-.
    destruct (LZ _ _ _ _ _ _ _ _ _ rest E Gd) as (n' & tail & R1 & R2). exists n', tail. rewrite erun_bind, R1. split; [reflexivity|exact R2].
  - (* shared_ptr *) destruct (dfield w true dn (CNum TUI64) (IdName str_shared_key) (VNum 0) its s) as [[[key s1] u1]| | |] eqn:H1; cbn [rbind] in H; try discriminate. destruct key; try discriminate.
    destruct (find_key n (r_tab s1)) as [a|] eqn:Fk.
    + destruct (nth_error (r_heap s1) a) as [[uu y]|] eqn:Na; [|discriminate]. destruct (ct_eqb uu t) eqn:Ct; [|discriminate]. injection H as <- <- <-.
      destruct (fun A B C => one_named (CNum TUI64) str_shared_key (VNum 0) ty its all_there 0 s _ _ _ rest Gd A B C H1) as (j & d & -> & Nj & Dj & Lu & R1); auto; try lia; [discriminate|].
      rewrite Nat.max_0_l in R1. cbn [firstn keep skipn] in R1. do 2 eexists. rewrite erun_bind, R1, Fk, Na, Ct. split; [reflexivity|]. right. split; reflexivity.
    + destruct (dfield w true dn t (IdName str_shared_value) (w_new w t) its s1) as [[[x s2] u2]| | |] eqn:H2; cbn [rbind] in H; try discriminate. injection H as <- <- <-.
      destruct (two_named (CNum TUI64) t str_shared_key str_shared_value _ _ ty its s _ _ _ _ _ _ rest Gd ltac:(discriminate) H1 H2) as (n1 & n2 & R1 & P1 & R2 & P2).
      do 2 eexists. rewrite erun_bind, R1, Fk, erun_bind, R2. split; [reflexivity|]. right. split; [exact P2|reflexivity].
  - (* weak_ptr *) destruct (dfield w true dn (CNum TUI64) (IdName str_shared_key) (VNum 0) its s) as [[[key s1] u1]| | |] eqn:H1; cbn [rbind] in H; try discriminate. destruct key; try discriminate.
    destruct (find_key n (r_tab s1)) as [a|] eqn:Fk.
    + destruct (nth_error (r_heap s1) a) as [[uu y]|] eqn:Na; [|discriminate]. destruct (ct_eqb uu t) eqn:Ct; [|discriminate]. injection H as <- <- <-.
      destruct (fun A B C => one_named (CNum TUI64) str_shared_key (VNum 0) ty its all_there 0 s _ _ _ rest Gd A B C H1) as (j & d & -> & Nj & Dj & Lu & R1); auto; try lia; [discriminate|].
      rewrite Nat.max_0_l in R1. cbn [firstn keep skipn] in R1. do 2 eexists. rewrite erun_bind, R1, Fk, Na, Ct. split; [reflexivity|]. right. split; reflexivity.
    + destruct (dfield w true dn t (IdName str_shared_value) (w_new w t) its s1) as [[[x s2] u2]| | |] eqn:H2; cbn [rbind] in H; try discriminate. injection H as <- <- <-.
      destruct (two_named (CNum TUI64) t str_shared_key str_shared_value _ _ ty its s _ _ _ _ _ _ rest Gd ltac:(discriminate) H1 H2) as (n1 & n2 & R1 & P1 & R2 & P2).
      do 2 eexists. rewrite erun_bind, R1, Fk, erun_bind, R2. split; [reflexivity|]. right. split; [exact P2|reflexivity].
  - (* polymorphic *) destruct (is_scope ty); [|discriminate]. cbn [negb] in *. destruct (select false (IdName str_type_id) its) as [[j [kk vv|]]|] eqn:M; try discriminate.
    unfold select in M. pose proof (nth_match_0 _ _ _ _ M) as (Nj & Mj & Bj). assert (Hj : (j < length its)%nat) by (apply nth_error_Some; congruence).
    destruct (negb (ty_eqb (v_type vv) TString) && negb (ty_eqb (v_type vv) TBinary)) eqn:Tv; [discriminate|].
    destruct (w_reg w _ (v_data vv, v_enc vv)) as [[c|]| | |] eqn:Rc; cbn [rbind] in H; try discriminate. destruct (w_new w (CCls c)) eqn:Nc; try discriminate.
    destruct (dfields w true dn (w_cls w c) vs its s 1 0) as [[[vs' s2] u2]| | |] eqn:E; cbn [rbind] in H; try discriminate. injection H as <- <- <-.
    destruct Rg as [_ R2]. destruct (R2 _ _ _ Rc) as [Nm Nt]. pose proof Gd as [Fi Hf].
    unfold field_value. change (l_parsed (unode ty [])) with false. cbv iota. rewrite take_read_value by constructor. rewrite erun_bind, erun_bind, erun_bind.
    destruct (split_nth _ _ _ Nj) as [E1 E2].
    assert (Ev : flat_map events its ++ ev_end :: rest = flat_map events (firstn j its) ++ events (DVal kk vv) ++ flat_map events (skipn (S j) its) ++ ev_end :: rest).
    { rewrite E1 at 1. rewrite flat_map_app. cbn [flat_map]. now rewrite <- !app_assoc. }
    rewrite Ev. clear Ev.
    rewrite (scan_stop false (IdName str_type_id)).
    2:{ now apply forall_firstn. }
    2:{ apply Forall_forall. intros x I. apply In_nth_error in I. destruct I as [i I]. assert (Hi : (i < j)%nat) by (rewrite <- E2; apply nth_error_Some; congruence).
        rewrite nth_firstn in I by lia. rewrite matches_name. eapply Bj; eauto. }
    2:{ rewrite Forall_forall in Fi. apply Fi. eapply nth_error_In; eauto. }
    2:{ rewrite matches_name. exact Mj. }
    2:{ pose proof (events_split j its). lia. }
    cbn [erun fst snd need ebind head_event content app]. rewrite Tv. cbn [andb]. cbv iota. rewrite Rc. cbn [elift ebind].
    assert (Kj : firstn j its = keep (less all_there j) 0 (firstn (S j) its)).
    { rewrite (firstn_S _ _ _ Nj), keep_app, E2. cbn [keep Nat.add]. unfold less at 2. rewrite Nat.eqb_refl, andb_false_r, app_nil_r. symmetry.
      rewrite <- (keep_all all_there (firstn j its) 0) at 2 by reflexivity. apply keep_ext. rewrite E2. intros x Hx. unfold less, all_there. replace (Nat.eqb x j) with false by lia. reflexivity. }
    rewrite Kj, Nc. eapply (FS _ _ _ (S j) (less all_there j) (S j) (VPoly c)); eauto.
    left. split; [exact Nm|]. intros i x A Nx. apply less_all in A. subst i. rewrite Nj in Nx. injection Nx as <-.
    unfold of_name in Mj. apply andb_prop in Mj. destruct Mj as [_ Mj]. apply bytes_eqb_eq in Mj. cbn [doc_name] in *. rewrite Mj. exact Nt.
    intros i Hi. unfold less, all_there. replace (Nat.eqb i j) with false by lia. reflexivity.
Qed.
End Lazy.

Theorem lazy_said : forall F G w t old k ty its s v s' u rest, regular w -> said F w true t old (DScope k ty its) s = Ok (v, s', u) -> good G its ->
  exists n' tail, erun (paste_node (F + G) w t old (mkL false (empty_node ty)) s) (flat_map events its ++ ev_end :: rest) = Some (Ok ((v, n', s'), tail)) /\ ends its u rest n' tail.
Proof.
  induction F as [|f IH]; intros G w t old k ty its s v s' u rest Rg H Gd; [discriminate|]. cbn [said] in H. cbn [Nat.add paste_node].
  change (mkL false (empty_node ty)) with (unode ty []).
  refine (lazy_step w G (f + G) _ (paste_node (f + G) w) (said f w true) (said (f + G) w false) _ _ _ Rg t old k ty its s v s' u rest H Gd).
  - lia.
  - intros. apply (eager_said (f + G)).
  - intros. eapply said_more; [| |eassumption]; [discriminate|lia].
  - intros. eapply IH; eauto.
Qed.

(** * Restoring and pasting *)
Lemma good_doc k ty its : deep_enough (DScope k ty its) -> good (length (events (DScope k ty its))) its.
Proof.
  intros (Sh & _ & D). apply shaped_scope in Sh. destruct Sh as [_ Sh]. split.
  - apply fine_in. split; [exact Sh|]. rewrite depth_scope in D. clear Sh. induction its as [|d its IH]; [constructor|].
    cbn [deepest fold_right] in D. change (fold_right _ 0%nat its) with (deepest its) in D. constructor; [|apply IH; lia]. destruct d as [|? ? l]; cbn [deep]; [lia|]. cbn [depth] in D. change (fold_right _ 0%nat l) with (deepest l) in D. lia.
  - cbn [events length]. rewrite app_length. lia.
Qed.
Theorem restore_says F w t old d v s : regular w -> deep_enough d -> says F w true t old d rs_new = Ok (v, s) ->
  forall G, (F + length (events d) <= G)%nat -> exists tail, erun (restore_prog G w t old) (events d) = Some (Ok ((v, s), tail)).
Proof.
  intros Rg De H G HG. destruct d as [|k ty its]; [destruct De as (_ & De & _); discriminate|]. pose proof (good_doc _ _ _ De) as Gd. destruct De as (Sh & _ & D).
  apply shaped_scope in Sh. destruct Sh as [T Sh]. set (n := length (events (DScope k ty its))) in *.
  replace G with ((F + (G - F - n)) + n)%nat by lia.
  unfold restore_prog. cbn [events erun]. change (v_type (val_type ty)) with ty. rewrite T. cbn [negb]. unfold says in H. rewrite erun_bind. destruct (scoped t) eqn:St.
  - destruct (said F w true t old (DScope k ty its) rs_new) as [[[v0 s0] u]| | |] eqn:E; cbn [rbind] in H; try discriminate. injection H as -> ->.
    destruct (lazy_said (F + (G - F - n)) n w t old k ty its rs_new v s u [] Rg) as (n' & tail & R & _); [|exact Gd|].
    + eapply said_more; [| |exact E]; [auto|lia].
    + rewrite R. cbn [erun fst snd]. eauto.
  - destruct (dfield w true (said F w true) t (IdPos 0) old its rs_new) as [[[v0 s0] u]| | |] eqn:E; cbn [rbind items] in H; rewrite E in H; cbn [rbind] in H; try discriminate. injection H as -> ->.
    unfold dfield, select in E. change (0 <? 0) with false in E. cbv iota in E. destruct (nth_match (of_kind (scoped t)) (Z.to_nat 0) its) as [[j d]|] eqn:M; [|discriminate].
    destruct (dchild w true (said F w true) t old d rs_new) as [[v1 s1]| | |] eqn:Ch; cbn [rbind] in E; try discriminate. injection E as -> -> <-.
    change (mkL false (empty_node ty)) with (unode ty (keep (fun _ => true) 0 (firstn 0 its))). change (flat_map events its ++ [ev_end]) with (flat_map events (skipn 0 its) ++ [ev_end]).
    destruct (taken_step n n (le_n n) its (fun _ => true) 0 0 (scoped t) j d) as (Nj & _ & Kj & Bj & _); [lia|lia| |destruct (scoped t); exact M|].
    { intros i x Nx. destruct (is_sc x); lia. }
    rewrite (lazy_field w n (F + (G - F - n) + n) ltac:(lia) _ (said F w true) (said (F + (G - F - n) + n) w false)) with (j := j) (d := d) (v := v) (s' := s); auto.
    + cbn [erun fst snd]. eauto.
    + intros. apply eager_said.
    + intros. eapply said_more; [| |eassumption]; [discriminate|lia].
    + intros. eapply lazy_said; eauto. eapply said_more; [| |eassumption]; [auto|lia].
    + rewrite matches_pos. exact Kj.
    + intros i x Hi Ai Nx. rewrite matches_pos. eapply Bj; eauto.
    + lia.
Qed.
Theorem unwrap_says F w t old k ty its v s s' : says F w false t old (DScope k ty its) s = Ok (v, s') ->
  unwrap_prog F w t old (mkNode ty (vals_of its) (subs_of its)) s = ERet (v, s').
Proof. intros H. rewrite (eager_says F w t old k). now rewrite H. Qed.
Theorem says_more F G w (b1 b2 : bool) t old d s r : (b2 = true -> b1 = true) -> (F <= G)%nat -> says F w b1 t old d s = Ok r -> says G w b2 t old d s = Ok r.
Proof.
  intros Hb L H. unfold says in *. destruct (scoped t).
  - destruct (said F w b1 t old d s) as [[[v s'] u]| | |] eqn:E; try discriminate. now rewrite (said_more F G w b1 b2 t old d s _ Hb L E).
  - destruct (dfield w b1 (said F w b1) t (IdPos 0) old (items d) s) as [[[v s'] u]| | |] eqn:E; try discriminate.
    assert (E' : dfield w b2 (said G w b2) t (IdPos 0) old (items d) s = Ok (v, s', u)).
    { eapply weak_field; [exact Hb| |exact E]. intros. eapply said_more; eauto. }
    now rewrite E'.
Qed.
