(** Unions among the objects given to Tree::unpack. *)
From Coq Require Import ZArith List Bool Lia ZifyBool ZifyNat.
From Verif Require Import Base Lemmas M_Types M_Conv M_TpTools M_Charset M_In S_Doc M_Env M_Event M_Tree S_Tree M_TreeIO M_Object M_ObjIO S_Object S_ObjStore S_ObjIO M_Pack
  P_In P_Doc P_Text P_Tree P_TreeOps P_ObjEager P_ObjLazy P_ObjIO P_Flat M_Union S_Union.
Import ListNotations.
Open Scope Z_scope.

(** * From a tree *)
Lemma asks_tree F w ty its : forall l s, exists r, paste_asks F w l (pnode ty its) s = ebind (elift r) (fun q => ERet (fst q, pnode ty its, snd q)).
Proof.
  induction l as [|a l IH]; intros s; [exists (Ok ([], s)); reflexivity|]. cbn [paste_asks].
  assert (X : exists r : res (got * rstate), match a with
             | AskObject i => ebind (paste_field w (paste_node F w) F (i_type i) (IdName (i_name i)) (i_val i) (pnode ty its) s) (fun r => let '(v, n1, s1) := r in ERet (GotObject v, n1, s1))
             | AskUnion k => ebind (paste_union F k (pnode ty its)) (fun r => ERet (GotUnion (fst r), snd r, s))
             end = ebind (elift r) (fun q => ERet (fst q, pnode ty its, snd q))).
  { destruct a as [i|k].
    - rewrite (eager_field w F (paste_node F w) (said F w false)) by (intros; apply eager_said).
      destruct (dfield w false (said F w false) (i_type i) (IdName (i_name i)) (i_val i) its s) as [[[v s'] u]| |u|].
      + exists (Ok (GotObject v, s')). reflexivity.
      + exists Err. reflexivity.
      + exists (UB u). reflexivity.
      + exists Fuel. reflexivity.
    - unfold paste_union. cbn [pnode l_parsed l_node]. destruct (get_named _ _) as [u| |u|].
      + exists (Ok (GotUnion u, s)). reflexivity.
      + exists Err. reflexivity.
      + exists (UB u). reflexivity.
      + exists Fuel. reflexivity. }
  destruct X as [[[g s1]| |u|] ->]; cbn [elift ebind fst snd]; [|exists Err; reflexivity|exists (UB u); reflexivity|exists Fuel; reflexivity].
  destruct (IH s1) as [[[gs s2]| |u|] ->]; [exists (Ok (g :: gs, s2))|exists Err|exists (UB u)|exists Fuel]; reflexivity.
Qed.
Lemma any_tree F w k ty its l s : exists r, paste_any F w l (doc_node (DScope k ty its)) s = elift r /\ paste_asks F w l (pnode ty its) s = ebind (elift r) (fun q => ERet (fst q, pnode ty its, snd q)).
Proof.
  destruct (asks_tree F w ty its l s) as [r E]. exists r. split; [|exact E]. unfold paste_any. rewrite doc_node_eq. change (mkL true (mkNode ty (vals_of its) (subs_of its))) with (pnode ty its). rewrite E.
  now destruct r as [[gs s']| | |].
Qed.
Lemma get_first k ty its : get_named (doc_node (DScope [] ty its)) (k, EUTF8) =
  match find (of_name false k) its with
  | Some d => Ok (refers d)
  | None => match find (of_name true k) its with Some d => Ok (refers d) | None => Err end
  end.
Proof.
  rewrite doc_node_eq, (get_named_spec _ _ k) by apply utf8_names. cbn [n_values n_nodes]. rewrite first_value, first_node. cbn [select].
  rewrite <- !nth_match_find. destruct (nth_match (of_name false k) 0 its) as [[j d]|] eqn:E.
  - apply (match_kind false) in E; [destruct d; [reflexivity|discriminate]|]. intros x H. apply andb_prop in H. now apply eqb_prop.
  - clear E. destruct (nth_match (of_name true k) 0 its) as [[j d]|] eqn:E; [|reflexivity].
    apply (match_kind true) in E; [destruct d; [discriminate|reflexivity]|]. intros x H. apply andb_prop in H. now apply eqb_prop.
Qed.
Lemma named_unique k its : NoDup (map doc_name its) -> match find (of_name false k) its with Some d => Some d | None => find (of_name true k) its end = item_named k its.
Proof.
  unfold item_named, of_name. induction its as [|d its IH]; intros N; [reflexivity|]. inversion N as [|? ? N1 N2]; subst. cbn [find]. destruct (bytes_eqb_spec (doc_name d) k) as [E|E].
  - rewrite andb_true_r. assert (X : forall b, find (fun d => Bool.eqb (is_sc d) b && bytes_eqb (doc_name d) k) its = None).
    { intros b. clear - N1 E. induction its as [|y its IH]; [reflexivity|]. cbn [find map] in *. destruct (bytes_eqb_spec (doc_name y) k) as [E'|E']; [destruct N1; left; congruence|]. rewrite andb_false_r. apply IH. intros I. apply N1. now right. }
    destruct (is_sc d); cbn [Bool.eqb andb]; [now rewrite X|reflexivity].
  - rewrite !andb_false_r. exact (IH N2).
Qed.
Lemma get_unique k r ty its : NoDup (map doc_name its) -> get_named (doc_node (DScope r ty its)) (k, EUTF8) = match item_named k its with Some d => Ok (refers d) | None => Err end.
Proof.
  intros N. rewrite doc_node_eq. change (mkNode ty (vals_of its) (subs_of its)) with (mkNode ty (vals_of its) (subs_of its)). rewrite <- (doc_node_eq [] ty its), get_first, <- (named_unique k its N).
  destruct (find (of_name false k) its); [reflexivity|]. now destruct (find (of_name true k) its).
Qed.

(** * From an input *)
Lemma items_to_split k its : (item_named k its = None /\ Forall (fun x => bytes_eqb (doc_name x) k = false) its) \/
  exists a d b, its = a ++ d :: b /\ item_named k its = Some d /\ items_to k its = a ++ [d] /\ Forall (fun x => bytes_eqb (doc_name x) k = false) a /\ bytes_eqb (doc_name d) k = true.
Proof.
  induction its as [|x its IH]; [left; split; [reflexivity|constructor]|]. unfold item_named in *. cbn [find items_to]. destruct (bytes_eqb (doc_name x) k) eqn:E.
  - right. exists [], x, its. repeat split; auto.
  - destruct IH as [[I1 I2]|(a & d & b & -> & I2 & I3 & I4 & I5)]; [left; split; auto|]. right. exists (x :: a), d, b. cbn [app]. rewrite I3. repeat split; auto.
Qed.
(** scopes opened less scopes closed *)
Fixpoint balance (es : list event) : Z :=
  match es with [] => 0 | e :: r => (if is_scope (v_type (snd e)) then 1 else if ty_eqb (v_type (snd e)) TScopeEnd then -1 else 0) + balance r end.
Lemma balance_app a b : balance (a ++ b) = balance a + balance b.
Proof. induction a as [|e a IH]; cbn [app balance]; [lia|]. rewrite IH. lia. Qed.
Lemma balance_doc : forall d, shaped d -> balance (events d) = 0.
Proof.
  induction d as [k v|k t its IH] using doc_ind2; intros Sh.
  - destruct Sh as [A B]. cbn [events balance snd]. rewrite A. destruct (ty_eqb (v_type v) TScopeEnd) eqn:E; [|reflexivity]. destruct B. destruct (v_type v); try discriminate; reflexivity.
  - apply shaped_scope in Sh. destruct Sh as [A B]. cbn [events balance snd]. change (v_type (val_type t)) with t. rewrite A, balance_app. match goal with |- context[_ + balance [?E]] => change (balance [E]) with (-1) end.
    enough (X : balance (flat_map events its) = 0) by lia. unfold all_shaped in B. clear - IH B. induction its as [|d its IHi]; [reflexivity|]. inversion IH; inversion B; subst. cbn [flat_map]. rewrite balance_app. rewrite H1, IHi by auto. reflexivity.
Qed.
Lemma leave_somewhere : forall es f d, 0 <= d -> d + balance es < 0 -> (length es <= f)%nat -> exists tail, erun (consume_scope_loop f d) es = Some (Ok (tt, tail)).
Proof.
  induction es as [|e es IH]; intros f d D B L; [cbn in B; lia|]. destruct f as [|f]; [cbn in L; lia|]. cbn [consume_scope_loop erun balance length] in *.
  destruct (is_scope _); [apply IH; lia|]. destruct (ty_eqb _ _); [|apply IH; lia]. destruct (Z.leb_spec (d - 1) 0); [exists es; reflexivity|apply IH; lia].
Qed.
Lemma last_seen t a d : last_union (is_sc d) (mkNode t (vals_of (a ++ [d])) (subs_of (a ++ [d]))) = Ok (refers d).
Proof.
  unfold last_union, last_link. destruct d as [k v|k ty its]; cbn [is_sc n_nodes n_values].
  - rewrite vals_app. cbn [vals_of flat_map app]. rewrite app_length. cbn [length]. replace (length (vals_of a) + 1 - 1)%nat with (length (vals_of a)) by lia.
    rewrite nth_error_app2 by lia. rewrite Nat.sub_diag. reflexivity.
  - rewrite subs_app. change (subs_of [DScope k ty its]) with [(k, doc_node (DScope k ty its))]. rewrite app_length. cbn [length]. replace (length (subs_of a) + 1 - 1)%nat with (length (subs_of a)) by lia.
    rewrite nth_error_app2 by lia. rewrite Nat.sub_diag. reflexivity.
Qed.
Lemma union_read F k ty its : Forall fine its -> (length (flat_map events its) < F)%nat ->
  match item_named k its with
  | None => erun (paste_union F k (unode ty [])) (flat_map events its ++ [ev_end]) = Some Err
  | Some d => exists tail, erun (paste_union F k (unode ty [])) (flat_map events its ++ [ev_end]) = Some (Ok ((refers d, pnode ty (items_to k its)), tail))
  end.
Proof.
  intros Fi HF. unfold paste_union, consume_union. cbn [unode l_parsed l_node vals_of subs_of flat_map n_nodes n_values]. change (find_link false (cmp_name (k, EUTF8)) (@nil (bytes * node))) with (Ok (@None nat)).
  change (find_link false (cmp_name (k, EUTF8)) (@nil (bytes * value))) with (Ok (@None nat)). cbn [elift ebind pick]. unfold hash_string. rewrite (name_env (k, EUTF8) k) by apply utf8_names. cbn [rbind]. rewrite fnv1a_correct. cbn [elift ebind].
  rewrite erun_bind, erun_bind. change (mkL false (mkNode ty [] [])) with (unode ty []).
  destruct (items_to_split k its) as [[-> N]|(a & d & b & E & -> & -> & Na & Nd)].
  - rewrite (scan_item_end k ty [] its F []) by auto. reflexivity.
  - subst its. apply Forall_app in Fi. destruct Fi as [Fa Fi]. inversion Fi as [|? ? Fd Fb]; subst. rewrite flat_map_app in HF |- *. cbn [flat_map] in HF |- *. rewrite !app_length in HF. rewrite <- !app_assoc.
    destruct (leave_somewhere (flat_map events b ++ [ev_end]) F 0) as [tail L].
    + lia.
    + rewrite balance_app. change (balance [ev_end]) with (-1). enough (X : balance (flat_map events b) = 0) by lia.
      clear - Fb. induction Fb as [|x b [Sx _] _ IH]; [reflexivity|]. cbn [flat_map]. rewrite balance_app, balance_doc, IH by assumption. reflexivity.
    + rewrite app_length. cbn [length]. pose proof (events_head d) as X. rewrite X in HF. cbn [length] in HF. lia.
    + exists tail. rewrite (scan_item_stop k ty d (flat_map events b ++ [ev_end]) a F []) by (auto; rewrite flat_map_app, app_length; cbn [flat_map]; rewrite app_nil_r; lia). cbn [app fst snd unode l_node].
      rewrite last_seen. cbn [elift ebind erun fst snd]. unfold consume_scope. cbn [l_parsed]. rewrite erun_bind. cbn [unode l_parsed]. rewrite L. reflexivity.
Qed.
Theorem union_first F w q i d k l : holds (w_fp w) (S F) q i d -> deep_enough d -> (length (events d) <= F)%nat ->
  match item_named k (items d) with
  | None => run_block (unpack_any (w_fp w) (S F) w q (AskUnion k :: l)) i = Err
  | Some u => exists r ty, paste_any F w l (doc_node (DScope [] ty (items_to k (items d)))) rs_new = elift r /\
      match r with
      | Ok (gs, s) => exists q' i', run_block (unpack_any (w_fp w) (S F) w q (AskUnion k :: l)) i = Ok ((q', (GotUnion (refers u) :: gs, s)), i')
      | Err => run_block (unpack_any (w_fp w) (S F) w q (AskUnion k :: l)) i = Err
      | UB b => run_block (unpack_any (w_fp w) (S F) w q (AskUnion k :: l)) i = UB b
      | Fuel => True
      end
  end.
Proof.
  intros H De HF. destruct d as [|r0 ty its]; [destruct De as (_ & C & _); discriminate|]. pose proof (good_doc _ _ _ De) as [Fi Gd]. destruct De as (Sh & _ & D). apply shaped_scope in Sh. destruct Sh as [T Sh]. cbn [items].
  pose proof (union_read F k ty its Fi ltac:(lia)) as U.
  assert (P : forall (R : res (union * lnode)) tail, erun (paste_union F k (unode ty [])) (flat_map events its ++ [ev_end]) = outcome R tail ->
    erun (unpack_asks (S F) w (AskUnion k :: l)) (events (DScope r0 ty its)) =
    match R with
    | Ok (u, n) => erun (ebind (paste_asks F w l n rs_new) (fun q => let '(gs, n', s') := q in ERet (GotUnion u :: gs, s'))) tail
    | Err => Some Err | UB u => Some (UB u) | Fuel => Some Fuel end).
  { intros R tail E. unfold unpack_asks. cbn [events erun]. change (v_type (val_type ty)) with ty. rewrite T. cbn [negb paste_asks]. change (mkL false (empty_node ty)) with (unode ty []). rewrite erun_bind, erun_bind, erun_bind, E.
    unfold outcome. destruct R as [[u n]| | |]; try reflexivity. cbn [erun]. rewrite !erun_bind. cbn [fst snd]. destruct (erun (paste_asks F w l n rs_new) tail) as [[[[[gs n'] s'] tl]| | |]|]; reflexivity. }
  destruct (item_named k its) as [u|].
  - destruct U as [tail U]. specialize (P (Ok (refers u, pnode ty (items_to k its))) tail U). destruct (any_tree F w [] ty (items_to k its) l rs_new) as (r & A1 & A2). exists r, ty. split; [exact A1|].
    cbv beta iota in P. rewrite A2 in P. unfold unpack_any. destruct r as [[gs s]| |b|]; cbn [elift ebind erun fst snd] in P.
    + exact (holds_outcome _ _ _ _ _ _ (Ok (GotUnion (refers u) :: gs, s)) tail H P).
    + exact (holds_outcome _ _ _ _ _ _ Err tail H P).
    + exact (holds_outcome _ _ _ _ _ _ (UB b) tail H P).
    + exact I.
  - specialize (P Err [] U). exact (holds_outcome _ _ _ _ _ _ Err [] H P).
Qed.
(** one Union, items with different names *)
Theorem union_alone F w q i d k : holds (w_fp w) (S F) q i d -> deep_enough d -> (length (events d) <= F)%nat -> NoDup (map doc_name (items d)) ->
  match get_named (doc_node d) (k, EUTF8) with
  | Ok u => exists q' i', run_block (unpack_any (w_fp w) (S F) w q [AskUnion k]) i = Ok ((q', ([GotUnion u], rs_new)), i')
  | _ => run_block (unpack_any (w_fp w) (S F) w q [AskUnion k]) i = Err
  end.
Proof.
  intros H De HF N. pose proof (union_first F w q i d k [] H De HF) as U. destruct d as [|r0 ty its]; [destruct De as (_ & C & _); discriminate|]. cbn [items] in *. rewrite (get_unique k r0 ty its N).
  destruct (item_named k its) as [u|]; [|exact U]. destruct U as (r & ty' & E & R). unfold paste_any in E. cbn [paste_asks ebind fst snd] in E. destruct r as [[gs s]| | |]; try discriminate. injection E as <- <-. exact R.
Qed.
(** what comes behind a Union in the document is not found afterwards *)
Theorem union_lost F w q i d k it l : holds (w_fp w) (S F) q i d -> deep_enough d -> (length (events d) <= F)%nat ->
  Forall (fun x => doc_name x <> i_name it) (items_to k (items d)) ->
  run_block (unpack_any (w_fp w) (S F) w q (AskUnion k :: AskObject it :: l)) i = Err.
Proof.
  intros H De HF N. pose proof (union_first F w q i d k (AskObject it :: l) H De HF) as U. destruct (item_named k (items d)) as [u|]; [|exact U]. destruct U as (r & ty & E & R).
  unfold paste_any in E. rewrite doc_node_eq in E. change (mkL true (mkNode ty (vals_of (items_to k (items d))) (subs_of (items_to k (items d))))) with (pnode ty (items_to k (items d))) in E. cbn [paste_asks] in E.
  rewrite (eager_field w F (paste_node F w) (said F w false)) in E by (intros; apply eager_said).
  assert (X : dfield w false (said F w false) (i_type it) (IdName (i_name it)) (i_val it) (items_to k (items d)) rs_new = Err).
  { unfold dfield, select. enough (Y : nth_match (of_name (scoped (i_type it)) (i_name it)) 0 (items_to k (items d)) = None) by now rewrite Y.
    pose proof (nth_match_find (of_name (scoped (i_type it)) (i_name it)) (items_to k (items d))) as Z. destruct (nth_match _ 0 _) as [[j x]|]; [|reflexivity]. symmetry in Z. apply find_some in Z. destruct Z as [Z1 Z2].
    rewrite Forall_forall in N. unfold of_name in Z2. apply andb_prop in Z2. destruct Z2 as [_ Z2]. apply bytes_eqb_eq in Z2. destruct (N x Z1 Z2). }
  rewrite X in E. cbn [to_prog ebind] in E. destruct r as [[gs s]| | |]; try discriminate. exact R.
Qed.
