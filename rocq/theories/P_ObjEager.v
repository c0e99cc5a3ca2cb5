(** Pasting from a tree that was loaded is what the document says. *)
From Coq Require Import ZArith List Bool Lia ZifyBool ZifyNat.
From Verif Require Import Base Lemmas M_Types M_Conv M_TpTools M_Charset M_In S_Charset S_Doc M_Env M_Tree S_Tree P_Doc P_Tree P_TreeOps M_Object S_Object.
Import ListNotations.
Open Scope Z_scope.

Definition to_prog {A} (n : lnode) (r : res (A * rstate * nat)) : eprog (A * lnode * rstate) :=
  match r with Ok (v, s, _) => ERet (v, n, s) | Err => EThrow | UB u => EUndef u | Fuel => EFuel end.
Definition to_prog2 {A} (r : res (A * rstate)) : eprog (A * rstate) := elift r.

(** * Selecting an item *)
Lemma match_kind sc p i its j d : (forall x, p x = true -> is_sc x = sc) -> nth_match p i its = Some (j, d) -> is_sc d = sc.
Proof.
  intros H. revert i j. induction its as [|x its IH]; intros i j E; cbn [nth_match] in E; [discriminate|].
  destruct (p x) eqn:Px.
  - destruct i as [|i]; [injection E as <- <-; now apply H|]. destruct (nth_match p i its) as [[j' e]|] eqn:M; [|discriminate]. injection E as <- <-. eapply IH; eauto.
  - destruct (nth_match p i its) as [[j' e]|] eqn:M; [|discriminate]. injection E as <- <-. eapply IH; eauto.
Qed.
Lemma of_kind_sc sc x : of_kind sc x = true -> is_sc x = sc.
Proof. unfold of_kind. intros H. now apply eqb_prop in H. Qed.
Lemma of_name_sc sc k x : of_name sc k x = true -> is_sc x = sc.
Proof. unfold of_name. intros H. apply andb_prop in H. destruct H as [H _]. now apply eqb_prop in H. Qed.
Lemma select_kind sc id its j d : select sc id its = Some (j, d) -> is_sc d = sc.
Proof.
  unfold select. destruct id as [k|i]; [apply match_kind; apply of_name_sc|]. destruct (i <? 0); [discriminate|]. apply match_kind. apply of_kind_sc.
Qed.

Definition val_of (d : doc) : bytes * value := match d with DVal k v => (k, v) | DScope k _ _ => (k, val_type TNull) end.
Definition sub_of (d : doc) : bytes * node := (doc_name d, doc_node d).
Lemma vals_kind its : vals_of its = map val_of (kind_items false its).
Proof. induction its as [|[k v|k t l] its IH]; cbn [vals_of flat_map kind_items filter of_kind is_sc Bool.eqb app map]; [reflexivity| |exact IH]. f_equal. exact IH. Qed.
Lemma subs_kind its : subs_of its = map sub_of (kind_items true its).
Proof. unfold subs_of. induction its as [|[k v|k t l] its IH]; cbn [flat_map kind_items filter of_kind is_sc Bool.eqb app map]; [reflexivity|exact IH|]. f_equal. exact IH. Qed.

Lemma nth_match_filter p its : forall i, match nth_match p i its with Some (_, d) => Some d | None => None end = nth_error (filter p its) i.
Proof.
  induction its as [|x its IH]; intros i; cbn [nth_match filter]; [now destruct i|].
  destruct (p x).
  - destruct i as [|i]; [reflexivity|]. cbn [nth_error]. rewrite <- IH. now destruct (nth_match p i its) as [[? ?]|].
  - rewrite <- IH. now destruct (nth_match p i its) as [[? ?]|].
Qed.
Lemma find_filter_map {A B} (g : A -> B) (q : B -> bool) l : find q (map g l) = match find (fun x => q (g x)) l with Some x => Some (g x) | None => None end.
Proof. induction l as [|x l IH]; cbn [map find]; [reflexivity|]. destruct (q (g x)); [reflexivity|exact IH]. Qed.
Lemma nth_match_find p its : match nth_match p 0 its with Some (_, d) => Some d | None => None end = find p its.
Proof. induction its as [|x its IH]; cbn [nth_match find]; [reflexivity|]. destruct (p x); [reflexivity|]. rewrite <- IH. now destruct (nth_match p 0 its) as [[? ?]|]. Qed.
Lemma find_kind sc q its : find q (kind_items sc its) = find (fun d => of_kind sc d && q d) its.
Proof. unfold kind_items. induction its as [|x its IH]; cbn [filter find]; [reflexivity|]. destruct (of_kind sc x); cbn [find andb]; [destruct (q x); [reflexivity|exact IH]|exact IH]. Qed.
Lemma of_name_split sc k : of_name sc k = (fun d => of_kind sc d && bytes_eqb (doc_name d) k).
Proof. reflexivity. Qed.
Lemma find_ext {A} (p q : A -> bool) l : (forall x, p x = q x) -> find p l = find q l.
Proof. intros H. induction l as [|x l IH]; cbn [find]; [reflexivity|]. rewrite H, IH. reflexivity. Qed.

Lemma first_value k its : first_named k (vals_of its) = match select false (IdName k) its with Some (_, d) => Some (val_of d) | None => None end.
Proof.
  unfold first_named, select. rewrite vals_kind, find_filter_map, find_kind. rewrite (find_ext _ (of_name false k)).
  - rewrite <- nth_match_find. now destruct (nth_match (of_name false k) 0 its) as [[? ?]|].
  - intros [? ?|? ? ?]; reflexivity.
Qed.
Lemma first_node k its : first_named k (subs_of its) = match select true (IdName k) its with Some (_, d) => Some (sub_of d) | None => None end.
Proof.
  unfold first_named, select. rewrite subs_kind, find_filter_map, find_kind. rewrite (find_ext _ (of_name true k)).
  - rewrite <- nth_match_find. now destruct (nth_match (of_name true k) 0 its) as [[? ?]|].
  - intros [? ?|? ? ?]; reflexivity.
Qed.
Lemma nth_value i its : nth_error (vals_of its) i = match nth_match (of_kind false) i its with Some (_, d) => Some (val_of d) | None => None end.
Proof. rewrite vals_kind. rewrite nth_error_map. unfold kind_items. rewrite <- nth_match_filter. now destruct (nth_match _ i its) as [[? ?]|]. Qed.
Lemma nth_node i its : nth_error (subs_of its) i = match nth_match (of_kind true) i its with Some (_, d) => Some (sub_of d) | None => None end.
Proof. rewrite subs_kind. rewrite nth_error_map. unfold kind_items. rewrite <- nth_match_filter. now destruct (nth_match _ i its) as [[? ?]|]. Qed.

Lemma utf8_names k : names (k, EUTF8) k.
Proof. left. split; reflexivity. Qed.
Lemma link_at_neg {A} i (l : list A) : i < 0 -> link_at true i l = Err.
Proof. intros H. unfold link_at. replace (0 <=? i) with false by lia. reflexivity. Qed.

Definition pnode (t : ty) (its : list doc) : lnode := mkL true (mkNode t (vals_of its) (subs_of its)).
Lemma doc_pnode k t its : mkL true (doc_node (DScope k t its)) = pnode t its.
Proof. now rewrite doc_node_eq. Qed.

Section Eager.
Variables (w : world) (F : nat).
Variable pn : ct -> cv -> lnode -> rstate -> eprog (cv * lnode * rstate).
Variable dn : ct -> cv -> doc -> rstate -> res (cv * rstate * nat).
Hypothesis PN : forall t old k ty its s, pn t old (pnode ty its) s = to_prog (pnode ty its) (dn t old (DScope k ty its) s).

Lemma eager_scope t old d s : is_sc d = true -> ebind (pn t old (mkL true (doc_node d)) s) (fun q => ERet (fst (fst q), snd q)) = elift (dchild w false dn t old d s).
Proof.
  destruct d as [|k ty its]; [discriminate|]. intros _. rewrite doc_pnode, (PN _ _ k). unfold dchild, quiet. cbn [negb orb].
  destruct (dn t old (DScope k ty its) s) as [[[v s'] u]| | |]; reflexivity.
Qed.
Lemma eager_field t id old ty its s : paste_field w pn F t id old (pnode ty its) s = to_prog (pnode ty its) (dfield w false dn t id old its s).
Proof.
  unfold paste_field, dfield. destruct (scoped t) eqn:St.
  - assert (FN : field_node F id (pnode ty its) = match select true id its with Some (_, d) => ERet (mkL true (doc_node d), pnode ty its) | None => EThrow end).
    { unfold field_node, pnode. cbn [l_parsed l_node]. destruct id as [k|i].
      - unfold node_named. cbn [n_nodes]. rewrite (lookup_spec _ _ k) by apply utf8_names. rewrite first_node. now destruct (select true (IdName k) its) as [[? d]|].
      - unfold node_at. cbn [n_nodes]. unfold select. destruct (Z.ltb_spec i 0) as [N|N]; [now rewrite link_at_neg|].
        rewrite link_at_spec by lia. rewrite nth_node. now destruct (nth_match (of_kind true) (Z.to_nat i) its) as [[? d]|]. }
    rewrite FN. destruct (select true id its) as [[j d]|] eqn:Se; [|reflexivity]. cbn [ebind fst snd]. pose proof (select_kind _ _ _ _ _ Se) as K.
    destruct d as [|k' ty' its']; [discriminate|]. rewrite doc_pnode, (PN _ _ k'). unfold dchild, quiet. cbn [negb orb].
    destruct (dn t old (DScope k' ty' its') s) as [[[v s'] u]| | |]; reflexivity.
  - assert (FV : field_value F id (pnode ty its) = match select false id its with Some (_, d) => ERet (snd (val_of d), false, pnode ty its) | None => EThrow end).
    { unfold field_value, pnode. cbn [l_parsed l_node]. destruct id as [k|i].
      - unfold value_named. cbn [n_values]. rewrite (lookup_spec _ _ k) by apply utf8_names. rewrite first_value. now destruct (select false (IdName k) its) as [[? d]|].
      - unfold value_at. cbn [n_values]. unfold select. destruct (Z.ltb_spec i 0) as [N|N]; [now rewrite link_at_neg|].
        rewrite link_at_spec by lia. rewrite nth_value. now destruct (nth_match (of_kind false) (Z.to_nat i) its) as [[? d]|]. }
    rewrite FV. destruct (select false id its) as [[j d]|] eqn:Se; [|reflexivity]. cbn [ebind fst snd]. pose proof (select_kind _ _ _ _ _ Se) as K.
    destruct d as [k' v|]; [|discriminate]. cbn [val_of snd dchild]. destruct (paste_value w t old v); reflexivity.
Qed.

Lemma existsb_find {A} (p : A -> bool) l : existsb p l = match find p l with Some _ => true | None => false end.
Proof. induction l as [|x l IH]; cbn [existsb find]; [reflexivity|]. now destruct (p x). Qed.
Lemma eager_has sc k ty its : has_field F sc k (pnode ty its) = ERet (existsb (of_name sc k) its, pnode ty its).
Proof.
  unfold has_field, pnode. cbn [l_parsed l_node]. rewrite existsb_find, <- nth_match_find. destruct sc.
  - unfold has_node. rewrite (has_named_spec _ _ k) by apply utf8_names. cbn [n_nodes elift ebind]. rewrite first_node. unfold select.
    now destruct (nth_match (of_name true k) 0 its) as [[? ?]|].
  - unfold has_value. rewrite (has_named_spec _ _ k) by apply utf8_names. cbn [n_values elift ebind]. rewrite first_value. unfold select.
    now destruct (nth_match (of_name false k) 0 its) as [[? ?]|].
Qed.
Lemma eager_fields ty its : forall fs olds s vi ni, paste_fields w pn F fs olds (pnode ty its) s vi ni =
  to_prog (pnode ty its) (dfields w false dn fs olds its s vi ni).
Proof.
  induction fs as [|f fs IH]; intros olds s vi ni; [reflexivity|]. destruct olds as [|old olds]; [reflexivity|].
  cbn [paste_fields dfields]. rewrite andb_false_r. cbn [andb].
  assert (G : ebind (paste_field w pn F (f_type f) (if 0 <? zlen (f_name f) then IdName (f_name f) else IdPos (if scoped (f_type f) then ni else vi)) old (pnode ty its) s)
       (fun r => let '(v, n1, s1) := r in ebind (paste_fields w pn F fs olds n1 s1 (if scoped (f_type f) then vi else vi + 1) (if scoped (f_type f) then ni + 1 else ni))
           (fun r0 => let '(vs, n', s') := r0 in ERet (v :: vs, n', s'))) =
     to_prog (pnode ty its) (let* (v, s1, u1) := dfield w false dn (f_type f) (if 0 <? zlen (f_name f) then IdName (f_name f) else IdPos (if scoped (f_type f) then ni else vi)) old its s in
       let* (vs, s2, u2) := dfields w false dn fs olds its s1 (if scoped (f_type f) then vi else vi + 1) (if scoped (f_type f) then ni + 1 else ni) in Ok (v :: vs, s2, Nat.max u1 u2))).
  { rewrite eager_field. destruct (dfield w false dn (f_type f) _ old its s) as [[[v s1] u1]| | |]; cbn [to_prog ebind rbind]; try reflexivity.
    rewrite IH. destruct (dfields w false dn fs olds its s1 _ _) as [[[vs s2] u2]| | |]; reflexivity. }
  destruct (f_opt f); cbn [andb].
  - rewrite eager_has. cbn [ebind fst snd]. destruct (existsb (of_name (scoped (f_type f)) (f_name f)) its); cbn [negb]; [exact G|].
    rewrite IH. destruct (dfields w false dn fs olds its s vi ni) as [[[vs s2] u2]| | |]; reflexivity.
  - cbn [ebind fst snd negb]. exact G.
Qed.

Lemma each_stored_map {A B} (f : bytes * A -> B -> rstate -> eprog (B * rstate)) (g : doc -> bytes * A) (h : doc -> B -> rstate -> res (B * rstate)) (l : list doc) :
  Forall (fun d => forall acc s, f (g d) acc s = elift (h d acc s)) l ->
  forall acc s, each_stored f (map g l) acc s = elift (deach h l acc s).
Proof.
  induction 1 as [|d l H _ IH]; intros acc s; [reflexivity|]. cbn [map each_stored deach]. rewrite H.
  destruct (h d acc s) as [[acc' s']| | |]; cbn [elift ebind rbind fst snd]; try reflexivity. apply IH.
Qed.
Lemma kind_forall sc its : Forall (fun d => is_sc d = sc) (kind_items sc its).
Proof. unfold kind_items. apply Forall_forall. intros d H. apply filter_In in H. now apply of_kind_sc. Qed.
Lemma eager_items {B} sc (fv : bytes * value -> B -> rstate -> eprog (B * rstate)) (fn : bytes * lnode -> B -> rstate -> eprog (B * lnode * rstate))
    (h : doc -> B -> rstate -> res (B * rstate)) ty its acc s :
  (sc = false -> forall k v acc s, fv (k, v) acc s = elift (h (DVal k v) acc s)) ->
  (sc = true -> forall k t l acc s, ebind (fn (k, pnode t l) acc s) (fun q => ERet (fst (fst q), snd q)) = elift (h (DScope k t l) acc s)) ->
  each_item F sc fv fn acc (pnode ty its) s = ebind (elift (deach h (kind_items sc its) acc s)) (fun r => ERet (fst r, pnode ty its, snd r)).
Proof.
  intros HV HN. unfold each_item. change (l_parsed (pnode ty its)) with true. change (n_nodes (l_node (pnode ty its))) with (subs_of its). change (n_values (l_node (pnode ty its))) with (vals_of its). destruct sc.
  - rewrite subs_kind. rewrite (each_stored_map _ sub_of h); [reflexivity|].
    eapply Forall_impl; [|apply kind_forall]. intros [k v|k t l] K; [discriminate|]. intros acc' s'. unfold sub_of. cbn [fst snd doc_name]. rewrite doc_pnode. now apply HN.
  - rewrite vals_kind. rewrite (each_stored_map _ val_of h); [reflexivity|].
    eapply Forall_impl; [|apply kind_forall]. intros [k v|k t l] K; [|discriminate]. intros acc' s'. now apply HV.
Qed.
Lemma eager_elem {B} (add : cv -> B -> B) e ty its acc s :
  each_item F (scoped e) (elem_value w add e) (elem_node w pn add e) acc (pnode ty its) s =
  ebind (elift (deach (delem w false dn add e) (kind_items (scoped e) its) acc s)) (fun r => ERet (fst r, pnode ty its, snd r)).
Proof.
  apply eager_items.
  - intros _ k v acc' s'. unfold elem_value, delem, dchild. cbn [snd]. now destruct (paste_value w e (w_new w e) v).
  - intros _ k t l acc' s'. unfold elem_node, delem, dchild, quiet. cbn [snd negb orb]. rewrite (PN _ _ k).
    now destruct (dn e (w_new w e) (DScope k t l) s') as [[[v s2] u]| | |].
Qed.
Lemma eager_map k e ty its acc s :
  each_item F true (fun _ _ _ => EThrow) (elem_entry w pn F k e) acc (pnode ty its) s =
  ebind (elift (deach (dentry w false dn k e) (kind_items true its) acc s)) (fun r => ERet (fst r, pnode ty its, snd r)).
Proof.
  apply eager_items; [discriminate|]. intros _ k' t l acc' s'. unfold elem_entry, dentry, quiet. cbn [snd items negb orb]. rewrite eager_field.
  destruct (dfield w false dn k (IdName str_key) (w_new w k) l s') as [[[key s1] u1]| | |]; cbn [to_prog ebind rbind elift]; try reflexivity.
  rewrite eager_field. now destruct (dfield w false dn e (IdName str_value) (w_new w e) l s1) as [[[val s2] u2]| | |].
Qed.
Lemma eager_tab e ty its acc s :
  each_item F (scoped e) (entry_value w e) (entry_node w pn e) acc (pnode ty its) s =
  ebind (elift (deach (dtab w false dn e) (kind_items (scoped e) its) acc s)) (fun r => ERet (fst r, pnode ty its, snd r)).
Proof.
  apply eager_items.
  - intros _ k v acc' s'. unfold entry_value, dtab, dchild. cbn [snd fst]. now destruct (paste_value w e (w_new w e) v).
  - intros _ k t l acc' s'. unfold entry_node, dtab, dchild, quiet. cbn [snd fst negb orb doc_name]. rewrite (PN _ _ k).
    now destruct (dn e (w_new w e) (DScope k t l) s') as [[[v s2] u]| | |].
Qed.
Lemma array_stored_map {A} (f : cv -> bytes * A -> rstate -> eprog (cv * rstate)) (g : doc -> bytes * A) e (l : list doc) :
  Forall (fun d => forall old s, f old (g d) s = elift (dchild w false dn e old d s)) l ->
  forall olds s, array_stored f olds (map g l) s = elift (darray w false dn e olds l s).
Proof.
  induction 1 as [|d l H _ IH]; intros olds s; [now destruct olds|]. destruct olds as [|old olds]; [reflexivity|].
  cbn [map array_stored darray]. rewrite H. destruct (dchild w false dn e old d s) as [[v s1]| | |]; cbn [elift ebind rbind fst snd]; try reflexivity.
  rewrite IH. now destruct (darray w false dn e olds l s1) as [[vs s2]| | |].
Qed.

Lemma eager_step t old k ty its s : paste_step w pn F t old (pnode ty its) s = to_prog (pnode ty its) (dstep w false dn t old k ty its s).
Proof.
  unfold paste_step, dstep. change (n_type (l_node (pnode ty its))) with ty. change (n_nodes (l_node (pnode ty its))) with (subs_of its).
  change (n_values (l_node (pnode ty its))) with (vals_of its). change (l_parsed (pnode ty its)) with true. cbv beta zeta.
  assert (FS : forall fs old vi (u0 : nat) mk, match old with
     | VList olds => ebind (paste_fields w pn F fs olds (pnode ty its) s vi 0) (fun r => let '(vs, n', s') := r in ERet (mk vs, n', s'))
     | _ => EThrow end = to_prog (pnode ty its) (match old with VList olds => let* (vs, s', u) := dfields w false dn fs olds its s vi 0 in Ok (mk vs : cv, s', Nat.max u0 u) | _ => Err end)).
  { intros fs [] vi u0 mk; try reflexivity. rewrite eager_fields. now destruct (dfields w false dn fs vs its s vi 0) as [[[x s'] u]| | |]. }
  destruct t; try reflexivity.
  - destruct (is_scope ty); [apply FS|reflexivity].
  - destruct (is_scope ty); [|reflexivity]. cbn [negb]. rewrite eager_elem. now destruct (deach _ _ [] s) as [[vs s']| | |].
  - destruct (is_scope ty); [|reflexivity]. cbn [negb]. rewrite eager_elem. now destruct (deach _ _ [] s) as [[vs s']| | |].
  - destruct (is_scope ty); [|reflexivity]. cbn [negb]. rewrite eager_map. now destruct (deach _ _ [] s) as [[vs s']| | |].
  - destruct (ty_eqb ty TObject); [|reflexivity]. cbn [negb]. rewrite eager_tab. now destruct (deach _ _ [] s) as [[vs s']| | |].
  - destruct (is_scope ty); [|reflexivity]. cbn [negb]. destruct old; try reflexivity. destruct (Nat.eqb (length vs) n); [|reflexivity]. cbn [negb].
    destruct (scoped t) eqn:St.
    + rewrite subs_kind, map_length. destruct (Nat.eqb (length (kind_items true its)) n); [|reflexivity]. cbn [negb].
      rewrite (array_stored_map _ sub_of t).
      * now destruct (darray w false dn t vs (kind_items true its) s) as [[? ?]| | |].
      * eapply Forall_impl; [|apply kind_forall]. intros d K old s'. unfold sub_of. cbn [snd]. now apply eager_scope.
    + rewrite vals_kind, map_length. destruct (Nat.eqb (length (kind_items false its)) n); [|reflexivity]. cbn [negb].
      rewrite (array_stored_map _ val_of t).
      * now destruct (darray w false dn t vs (kind_items false its) s) as [[? ?]| | |].
      * eapply Forall_impl; [|apply kind_forall]. intros [k' v|] K old s'; [|discriminate]. cbn [val_of snd dchild]. now destruct (paste_value w t old v).
  - destruct (ty_eqb ty TObject); [|reflexivity]. cbn [negb]. destruct old as [| |[|oa [|ob [|? ?]]]| | | | | |]; try reflexivity.
    rewrite eager_field. destruct (dfield w false dn t1 (IdName str_first) oa its s) as [[[x s1] u1]| | |]; cbn [to_prog ebind rbind]; try reflexivity.
    rewrite eager_field. now destruct (dfield w false dn t2 (IdName str_second) ob its s1) as [[[y s2] u2]| | |].
  - destruct (is_scope ty); [apply FS|reflexivity].
  - rewrite (PN _ _ k). now destruct (dn t (w_new w t) (DScope k ty its) s) as [[[x s'] u]| | |].
  - rewrite (PN _ _ k). now destruct (dn t (w_new w t) (DScope k ty its) s) as [[[x s'] u]| | |].
  - rewrite eager_field. destruct (dfield w false dn (CNum TUI64) (IdName str_shared_key) (VNum 0) its s) as [[[key s1] u1]| | |]; cbn [to_prog ebind rbind]; try reflexivity.
    destruct key; try reflexivity. destruct (find_key n (r_tab s1)) as [a|].
    + destruct (nth_error (r_heap s1) a) as [[u y]|]; [|reflexivity]. now destruct (ct_eqb u t).
    + rewrite eager_field. now destruct (dfield w false dn t (IdName str_shared_value) (w_new w t) its s1) as [[[x s2] u2]| | |].
  - rewrite eager_field. destruct (dfield w false dn (CNum TUI64) (IdName str_shared_key) (VNum 0) its s) as [[[key s1] u1]| | |]; cbn [to_prog ebind rbind]; try reflexivity.
    destruct key; try reflexivity. destruct (find_key n (r_tab s1)) as [a|].
    + destruct (nth_error (r_heap s1) a) as [[u y]|]; [|reflexivity]. now destruct (ct_eqb u t).
    + rewrite eager_field. now destruct (dfield w false dn t (IdName str_shared_value) (w_new w t) its s1) as [[[x s2] u2]| | |].
  - destruct (is_scope ty); [|reflexivity]. cbn [negb].
    assert (FV : field_value F (IdName str_type_id) (pnode ty its) = match select false (IdName str_type_id) its with Some (_, d) => ERet (snd (val_of d), false, pnode ty its) | None => EThrow end).
    { unfold field_value, pnode. cbn [l_parsed l_node]. unfold value_named. cbn [n_values]. rewrite (lookup_spec _ _ str_type_id) by apply utf8_names. rewrite first_value.
      now destruct (select false (IdName str_type_id) its) as [[? d]|]. }
    rewrite FV. destruct (select false (IdName str_type_id) its) as [[j d]|] eqn:Se; [|reflexivity]. pose proof (select_kind _ _ _ _ _ Se) as K.
    destruct d as [k' v|]; [|discriminate]. cbn [ebind val_of snd]. destruct (negb (ty_eqb (v_type v) TString) && negb (ty_eqb (v_type v) TBinary)); [reflexivity|].
    cbn [andb]. destruct (w_reg w _ (v_data v, v_enc v)) as [[c|]| | |]; cbn [elift ebind rbind]; try reflexivity. apply FS.
Qed.
End Eager.

(** pasting from the tree of a document *)
Theorem eager_said : forall F w t old k ty its s,
  paste_node F w t old (pnode ty its) s = to_prog (pnode ty its) (said F w false t old (DScope k ty its) s).
Proof.
  induction F as [|f IH]; intros w t old k ty its s; [reflexivity|]. cbn [paste_node said]. apply eager_step. intros. apply IH.
Qed.
Theorem eager_says F w t old k ty its s : unwrap_prog F w t old (mkNode ty (vals_of its) (subs_of its)) s = elift (says F w false t old (DScope k ty its) s).
Proof.
  unfold unwrap_prog, says. change (mkL true (mkNode ty (vals_of its) (subs_of its))) with (pnode ty its). destruct (scoped t).
  - rewrite (eager_said F w t old k). now destruct (said F w false t old (DScope k ty its) s) as [[[v s'] u]| | |].
  - rewrite (eager_field w F (paste_node F w) (said F w false)) by (intros; apply eager_said).
    cbn [items]. now destruct (dfield w false (said F w false) t (IdPos 0) old its s) as [[[v s'] u]| | |].
Qed.
