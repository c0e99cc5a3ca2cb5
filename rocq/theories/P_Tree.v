(** Trees: reading, saving, searching. *)
From Coq Require Import ZArith List Bool Lia ZifyBool ZifyNat.
From Verif Require Import Base Lemmas M_Types M_Conv M_Charset M_In S_Charset S_Doc M_OutOps M_Env M_Event M_Tree S_Tree S_Conv S_Json P_In P_Doc P_Charset.
Import ListNotations.
Open Scope Z_scope.

(** * Induction *)
Section NodeInd.
Variable P : node -> Prop.
Hypothesis H : forall t vs ns, Forall (fun q => P (snd q)) ns -> P (mkNode t vs ns).
Fixpoint node_ind' (n : node) : P n :=
  match n with
  | mkNode t vs ns => H t vs ns ((fix go (l : list (bytes * node)) : Forall (fun q => P (snd q)) l :=
      match l with [] => Forall_nil _ | q :: l' => Forall_cons q (node_ind' (snd q)) (go l') end) ns)
  end.
End NodeInd.

(** * Documents and trees *)
Definition subs_of (its : list doc) : list (bytes * node) :=
  flat_map (fun d => match d with DVal _ _ => [] | DScope k _ _ => [(k, doc_node d)] end) its.
Definition docs_of (ns : list (bytes * node)) : list doc := map (fun q => tree_doc (fst q) (snd q)) ns.
Definition val_docs (vs : list (bytes * value)) : list doc := map (fun q => DVal (fst q) (snd q)) vs.

Lemma doc_node_eq k t its : doc_node (DScope k t its) = mkNode t (vals_of its) (subs_of its).
Proof.
  cbn [doc_node]. f_equal. unfold subs_of. induction its as [|[k' v'|k' t' its'] l IH]; cbn [flat_map app]; [reflexivity|exact IH|].
  now rewrite IH.
Qed.
Lemma tree_doc_eq k t vs ns : tree_doc k (mkNode t vs ns) = DScope k t (val_docs vs ++ docs_of ns).
Proof.
  cbn [tree_doc]. f_equal. f_equal. unfold docs_of. induction ns as [|[k' c] l IH]; cbn [map fst snd]; [reflexivity|now rewrite IH].
Qed.
Lemma vals_of_app a b : vals_of (a ++ b) = vals_of a ++ vals_of b.
Proof. apply flat_map_app. Qed.
Lemma subs_of_app a b : subs_of (a ++ b) = subs_of a ++ subs_of b.
Proof. apply flat_map_app. Qed.
Lemma vals_of_vals vs : vals_of (val_docs vs) = vs.
Proof. unfold vals_of, val_docs. induction vs as [|[k v] l IH]; cbn; [reflexivity|now rewrite IH]. Qed.
Lemma subs_of_vals vs : subs_of (val_docs vs) = [].
Proof. unfold subs_of, val_docs. induction vs as [|[k v] l IH]; cbn; [reflexivity|exact IH]. Qed.
Lemma tree_doc_scope k n : exists t its, tree_doc k n = DScope k t its.
Proof. destruct n as [t vs ns]. rewrite tree_doc_eq. eauto. Qed.
Lemma vals_of_docs ns : vals_of (docs_of ns) = [].
Proof.
  unfold vals_of, docs_of. induction ns as [|[k n] l IH]; cbn [map flat_map fst snd]; [reflexivity|].
  destruct (tree_doc_scope k n) as (t & its & ->). exact IH.
Qed.

(** a tree is the tree of its document *)
Lemma doc_node_tree : forall n k, doc_node (tree_doc k n) = n.
Proof.
  induction n as [t vs ns IH] using node_ind'. intros k. rewrite tree_doc_eq, doc_node_eq.
  rewrite vals_of_app, subs_of_app, vals_of_vals, subs_of_vals, vals_of_docs, app_nil_r. cbn [app]. f_equal.
  induction ns as [|[k' c] l IHl]; [reflexivity|]. inversion IH as [|? ? H1 H2]; subst. cbn [snd] in H1.
  unfold docs_of, subs_of. cbn [map flat_map fst snd]. fold (docs_of l).
  destruct (tree_doc_scope k' c) as (t' & its & E). rewrite E. rewrite <- E, H1. cbn [app]. f_equal. now apply IHl.
Qed.

(** * Reading *)
Definition deepest (its : list doc) : nat := fold_right (fun x m => Nat.max (depth x) m) 0%nat its.
Lemma depth_scope k t its : depth (DScope k t its) = S (deepest its).
Proof. reflexivity. Qed.
Definition all_shaped (its : list doc) : Prop := Forall shaped its.
Lemma shaped_scope k t its : shaped (DScope k t its) <-> is_scope t = true /\ all_shaped its.
Proof.
  cbn [shaped]. split; intros [H1 H2]; (split; [exact H1|]).
  - induction its as [|x l IH]; [constructor|]. destruct H2 as [A B]. constructor; [exact A|now apply IH].
  - induction its as [|x l IH]; [exact I|]. inversion H2; subst. split; [assumption|now apply IH].
Qed.

Lemma store_string_utf8 k : store_string (k, EUTF8) = Ok k.
Proof. unfold store_string. cbn [fst snd]. destruct k as [|z k]; [reflexivity|]. rewrite zlen_cons. pose proof (zlen_nonneg k). replace (1 + zlen k <? 1) with false by lia. reflexivity. Qed.
Lemma store_value_utf8 n v k : store_value n v (k, EUTF8) = Ok (mkNode (n_type n) (n_values n ++ [(k, v)]) (n_nodes n)).
Proof. unfold store_value. now rewrite store_string_utf8. Qed.
Lemma store_node_utf8 n c k : store_node n c (k, EUTF8) = Ok (mkNode (n_type n) (n_values n) (n_nodes n ++ [(k, c)])).
Proof. unfold store_node. now rewrite store_string_utf8. Qed.

Lemma erun_bind {A B} (p : eprog A) (f : A -> eprog B) : forall es,
  erun (ebind p f) es = match erun p es with
                        | Some (Ok (a, es')) => erun (f a) es'
                        | Some Err => Some Err | Some (UB u) => Some (UB u) | Some Fuel => Some Fuel | None => None end.
Proof. induction p as [r| |u| |k IH]; intros es; cbn [ebind erun]; try reflexivity. destruct es; [reflexivity|apply IH]. Qed.

Lemma scope_not_end t : is_scope t = true -> ty_eqb t TScopeEnd = false.
Proof. destruct t; cbn; congruence. Qed.

Definition add_items (n : node) (its : list doc) : node :=
  mkNode (n_type n) (n_values n ++ vals_of its) (n_nodes n ++ subs_of its).

(** the outcome for one list of items: what the limit decides *)
Lemma read_items : forall f its n dp k rest, all_shaped its -> (length (flat_map events its) < f)%nat -> 0 <= dp <= max_depth ->
  erun (read_source f dp n) (flat_map events its ++ (k, val_type TScopeEnd) :: rest) =
  Some (if dp + Z.of_nat (deepest its) <=? max_depth then Ok (add_items n its, rest) else Err).
Proof.
  induction f as [|f IH]; intros its n dp k rest Sh L D; [lia|].
  destruct its as [|d its].
  - cbn [flat_map app read_source erun v_type val_type ty_eqb deepest fold_right]. change (v_type (val_type TScopeEnd)) with TScopeEnd. cbn [ty_eqb].
    replace (dp + Z.of_nat 0 <=? max_depth) with true by lia. unfold add_items, vals_of, subs_of. cbn [flat_map]. rewrite !app_nil_r. now destruct n.
  - inversion Sh as [|? ? S1 S2]; subst. destruct d as [k' v|k' t sub].
    + cbn [flat_map events app length] in *. cbn [read_source erun]. destruct S1 as [V1 V2].
      replace (ty_eqb (v_type v) TScopeEnd) with false by (destruct (v_type v); cbn; congruence). rewrite V1. cbn [negb].
      rewrite store_value_utf8. cbn [elift ebind]. rewrite IH by (auto; lia). cbn [deepest fold_right depth].
      change (fold_right _ 0%nat its) with (deepest its). rewrite Nat.max_0_l.
      unfold add_items. cbn [n_type n_values n_nodes vals_of subs_of flat_map app]. now rewrite <- app_assoc.
    + apply shaped_scope in S1. destruct S1 as [T1 Sub]. cbn [flat_map events app] in *. rewrite <- !app_assoc. cbn [app length] in *.
      rewrite !app_length in L. cbn [length] in L. cbn [read_source erun]. change (v_type (val_type t)) with t.
      rewrite (scope_not_end t T1), T1. cbn [negb]. cbn [deepest fold_right]. rewrite depth_scope. change (fold_right _ 0%nat its) with (deepest its).
      destruct (Z.ltb_spec max_depth (dp + 1)) as [M|M].
      { cbn [erun]. replace (_ <=? max_depth) with false by lia. reflexivity. }
      rewrite erun_bind. unfold ev_end at 1. rewrite IH by (auto; lia).
      destruct (Z.leb_spec (dp + 1 + Z.of_nat (deepest sub)) max_depth) as [Q|Q].
      * rewrite store_node_utf8. cbn [elift ebind]. rewrite IH by (auto; lia).
        replace (dp + Z.of_nat (Nat.max (S (deepest sub)) (deepest its)) <=? max_depth) with (dp + Z.of_nat (deepest its) <=? max_depth) by lia.
        unfold add_items at 1 3, subs_of, vals_of. cbn [n_type n_values n_nodes flat_map app]. rewrite doc_node_eq.
        change (add_items (empty_node t) sub) with (mkNode t (vals_of sub) (subs_of sub)). rewrite <- !app_assoc. reflexivity.
      * replace (_ <=? max_depth) with false by lia. reflexivity.
Qed.

(** loading the events of a document *)
Lemma load_events d rest f : shaped d -> (match d with DScope _ _ _ => True | _ => False end) -> (length (events d) <= f)%nat ->
  erun (load_prog f) (events d ++ rest) =
  Some (if Nat.leb (depth d) 129 then Ok ((doc_name d, doc_node d), rest) else Err).
Proof.
  intros Sh Sc L. destruct d as [|k t its]; [destruct Sc|]. apply shaped_scope in Sh. destruct Sh as [T Sub].
  cbn [events app length] in *. rewrite app_length in L. cbn [length] in L. unfold load_prog. cbn [erun]. change (v_type (val_type t)) with t. rewrite T. cbn [negb].
  rewrite erun_bind, <- app_assoc. unfold ev_end. cbn [app]. rewrite read_items by (auto; unfold max_depth; lia).
  rewrite depth_scope. unfold max_depth. replace (0 + Z.of_nat (deepest its) <=? 128) with (Nat.leb (S (deepest its)) 129) by lia.
  destruct (Nat.leb _ _); [|reflexivity]. cbn [erun doc_name]. rewrite doc_node_eq. reflexivity.
Qed.

(** * Programs on events and programs on input *)
Lemma ecomp_block {St R} (rd : St -> prog (St * event)) : forall n (p : eprog R) st b st' es b' r,
  run_block (read_events rd n st) b = Ok ((st', es), b') -> erun p es = Some (Ok (r, [])) ->
  run_block (ecomp rd p st) b = Ok ((st', r), b').
Proof.
  induction n as [|n IH]; intros p st b st' es b' r E Hp; cbn [read_events] in E.
  - cbn [run_block] in E. injection E as <- <- <-. destruct p; cbn [erun] in Hp; try discriminate. injection Hp as <-. reflexivity.
  - rewrite run_block_bind in E. destruct (run_block (rd st) b) as [[[st1 e] b1]| | |] eqn:E1; try discriminate E. cbn [rbind] in E.
    rewrite run_block_bind in E. destruct (run_block (read_events rd n st1) b1) as [[[st2 es2] b2]| | |] eqn:E2; try discriminate E.
    cbn [rbind run_block] in E. injection E as <- <- <-. destruct p as [r0| |u| |k]; cbn [erun] in Hp; try discriminate.
    + cbn [ecomp]. rewrite run_block_bind, E1. cbn [rbind]. eapply IH; eauto.
Qed.
(** an exception after any number of the events *)
Lemma ecomp_block_err {St R} (rd : St -> prog (St * event)) : forall n (p : eprog R) st b st' es b',
  run_block (read_events rd n st) b = Ok ((st', es), b') -> erun p es = Some Err -> run_block (ecomp rd p st) b = Err.
Proof.
  induction n as [|n IH]; intros p st b st' es b' E Hp; cbn [read_events] in E.
  - cbn [run_block] in E. injection E as <- <- <-. destruct p; cbn [erun] in Hp; try discriminate. reflexivity.
  - rewrite run_block_bind in E. destruct (run_block (rd st) b) as [[[st1 e] b1]| | |] eqn:E1; try discriminate E. cbn [rbind] in E.
    rewrite run_block_bind in E. destruct (run_block (read_events rd n st1) b1) as [[[st2 es2] b2]| | |] eqn:E2; try discriminate E.
    cbn [rbind run_block] in E. injection E as <- <- <-. destruct p as [r0| |u| |k]; cbn [erun] in Hp; try discriminate; [reflexivity|].
    cbn [ecomp]. rewrite run_block_bind, E1. cbn [rbind]. eapply IH; eauto.
Qed.
Lemma ecomp_stream {St R} (rd : St -> prog (St * event)) : forall n (p : eprog R) st b st' es b' r,
  run_stream (read_events rd n st) b = Ok ((st', es), b') -> erun p es = Some (Ok (r, [])) ->
  run_stream (ecomp rd p st) b = Ok ((st', r), b').
Proof.
  induction n as [|n IH]; intros p st b st' es b' r E Hp; cbn [read_events] in E.
  - cbn [run_stream] in E. injection E as <- <- <-. destruct p; cbn [erun] in Hp; try discriminate. injection Hp as <-. reflexivity.
  - rewrite run_stream_bind in E. destruct (run_stream (rd st) b) as [[[st1 e] b1]| | |] eqn:E1; try discriminate E. cbn [rbind] in E.
    rewrite run_stream_bind in E. destruct (run_stream (read_events rd n st1) b1) as [[[st2 es2] b2]| | |] eqn:E2; try discriminate E.
    cbn [rbind run_stream] in E. injection E as <- <- <-. destruct p as [r0| |u| |k]; cbn [erun] in Hp; try discriminate.
    cbn [ecomp]. rewrite run_stream_bind, E1. cbn [rbind]. eapply IH; eauto.
Qed.

(** * Saving *)
Lemma node_events_eq k t vs ns : node_events k (mkNode t vs ns) =
  (k, val_type t) :: vs ++ flat_map (fun q => node_events (fst q) (snd q)) ns ++ [(k, val_type TScopeEnd)].
Proof.
  cbn [node_events]. do 3 f_equal. induction ns as [|[k' c] l IH]; [reflexivity|]. cbn [flat_map fst snd]. now rewrite IH.
Qed.
(** the events written differ from those of the document only in the name given with the end of a scope *)
Definition same_event (a b : event) : Prop := a = b \/ (snd a = val_type TScopeEnd /\ snd b = val_type TScopeEnd).
Lemma same_refl es : Forall2 same_event es es.
Proof. induction es; constructor; [now left|assumption]. Qed.
Lemma events_vals vs : flat_map events (val_docs vs) = vs.
Proof. unfold val_docs. induction vs as [|[k v] l IH]; cbn; [reflexivity|now rewrite IH]. Qed.
Lemma node_events_doc : forall n k, Forall2 same_event (node_events k n) (events (tree_doc k n)).
Proof.
  induction n as [t vs ns IH] using node_ind'. intros k. rewrite node_events_eq, tree_doc_eq. cbn [events].
  constructor; [now left|]. rewrite flat_map_app, events_vals, <- app_assoc. apply Forall2_app; [apply same_refl|].
  apply Forall2_app; [|constructor; [right; auto|constructor]].
  induction ns as [|[k' c] l IHl]; [constructor|]. inversion IH; subst. cbn [flat_map docs_of map fst snd]. apply Forall2_app; auto.
Qed.
Lemma write_same {S} (w : S -> event -> res (S * list oop)) :
  (forall st a b, same_event a b -> w st a = w st b) ->
  forall es es', Forall2 same_event es es' -> forall st, write_events w st es = write_events w st es'.
Proof.
  intros H es es' F. induction F as [|a b es es' S1 F IH]; intros st; [reflexivity|]. cbn [write_events].
  rewrite (H st a b S1). destruct (w st b) as [[st1 o1]| | |]; [|reflexivity..]. cbn [rbind]. now rewrite IH.
Qed.

(** * Shape and meaning *)
Fixpoint mdepth (m : mdoc) : nat :=
  match m with MVal _ _ => 0%nat | MScope _ _ its => S (fold_right (fun x k => Nat.max (mdepth x) k) 0%nat its) end.
Lemma fold_max_map {A B} (g : A -> B) (f : A -> nat) (h : B -> nat) l : Forall (fun x => h (g x) = f x) l ->
  fold_right (fun x k => Nat.max (h x) k) 0%nat (map g l) = fold_right (fun x k => Nat.max (f x) k) 0%nat l.
Proof. induction 1 as [|x l E F IH]; cbn; [reflexivity|]. now rewrite E, IH. Qed.
Lemma mdepth_mdoc : forall d, mdepth (mdoc_of d) = depth d.
Proof.
  induction d as [n v|n t its IH] using doc_ind2; [reflexivity|]. cbn [mdoc_of mdepth depth]. f_equal. now apply fold_max_map.
Qed.
Definition plain_meaning (m : meaning) : Prop := match m with MeObj | MeArr | MeEnd => False | _ => True end.
Lemma plain_meaning_of v : plain_meaning (meaning_of v) <-> plain_value v.
Proof. unfold plain_value, meaning_of. destruct (v_type v); cbn; split; intros; auto; try tauto; try (split; [reflexivity|discriminate]); try (destruct H; congruence). Qed.
Fixpoint mshaped (m : mdoc) : Prop :=
  match m with
  | MVal _ v => plain_meaning v
  | MScope _ t its => is_scope t = true /\ (fix all (l : list mdoc) : Prop := match l with [] => True | x :: l' => mshaped x /\ all l' end) its
  end.
Lemma mshaped_mdoc : forall d, mshaped (mdoc_of d) <-> shaped d.
Proof.
  induction d as [n v|n t its IH] using doc_ind2; [cbn; apply plain_meaning_of|]. cbn [mdoc_of mshaped shaped].
  assert (X : (fix all (l : list mdoc) : Prop := match l with [] => True | x :: l' => mshaped x /\ all l' end) (map mdoc_of its) <->
              (fix all (l : list doc) : Prop := match l with [] => True | x :: l' => shaped x /\ all l' end) its).
  { induction IH as [|x l E F IHl]; cbn [map]; [tauto|]. rewrite E, IHl. tauto. }
  rewrite X. tauto.
Qed.
Lemma wf_plain v : wf_value v -> plain_value v.
Proof. unfold wf_value, plain_value. destruct (v_type v); cbn; intros H; try contradiction; split; auto; discriminate. Qed.
Lemma wf_shaped : forall d, wf_doc d -> shaped d.
Proof.
  induction d as [n v|n t its IH] using doc_ind2; cbn [wf_doc shaped]; [intros [_ H]; now apply wf_plain|]. intros (_ & T & H).
  split; [destruct T as [-> | ->]; reflexivity|]. induction IH as [|x l E F IHl]; [exact I|]. destruct H as [H1 H2]. split; [exact (E H1)|exact (IHl H2)].
Qed.
(** what a format keeps of a document: the names inside objects, and of each value something *)
Definition keeps (f : bool -> doc -> mdoc) (h : value -> meaning) : Prop :=
  (forall v, plain_value v -> plain_meaning (h v)) /\
  (forall nm k v, f nm (DVal k v) = MVal (if nm : bool then k else []) (h v)) /\
  (forall nm k t its, f nm (DScope k t its) = MScope (if nm : bool then k else []) t (map (f (ty_eqb t TObject)) its)).
Lemma keeps_depth f h : keeps f h -> forall d nm, mdepth (f nm d) = depth d.
Proof.
  intros (K0 & K1 & K2). induction d as [n v|n t its IH] using doc_ind2; intros nm.
  - now rewrite K1.
  - rewrite K2. cbn [mdepth depth]. f_equal. apply fold_max_map. eapply Forall_impl; [|exact IH]. cbv beta. auto.
Qed.
Lemma keeps_shaped f h : keeps f h -> forall d nm, shaped d -> mshaped (f nm d).
Proof.
  intros (K0 & K1 & K2). induction d as [n v|n t its IH] using doc_ind2; intros nm.
  - rewrite K1. apply K0.
  - rewrite K2. cbn [mshaped shaped]. intros [T H]. split; [exact T|].
    induction IH as [|x l E F IHl]; cbn [map]; [exact I|]. destruct H as [H1 H2]. split; [now apply E|exact (IHl H2)].
Qed.
Lemma keeps_denote : keeps denote meaning_of.
Proof. split; [intros v; apply plain_meaning_of|]. split; reflexivity. Qed.
Lemma keeps_json : keeps json_denote (fun v => json_meaning (meaning_of v)).
Proof.
  split; [|split; reflexivity]. intros v H. apply plain_meaning_of in H. destruct (meaning_of v); cbn in *; auto. destruct (whole double_bits); exact I.
Qed.

(** loading what a format delivers for a document *)
Lemma load_delivered f h d d' nm fuel rest : keeps f h -> shaped d -> mdoc_of d' = f nm d ->
  (match d with DScope _ _ _ => True | _ => False end) -> (length (events d') <= fuel)%nat ->
  erun (load_prog fuel) (events d' ++ rest) =
  Some (if Nat.leb (depth d) 129 then Ok ((doc_name d', doc_node d'), rest) else Err).
Proof.
  intros K Sh M Sc L. rewrite <- (keeps_depth f h K d nm), <- M, mdepth_mdoc. apply load_events; [| |exact L].
  - apply mshaped_mdoc. rewrite M. eapply keeps_shaped; eauto.
  - destruct d as [|k t its]; [destruct Sc|]. destruct K as (_ & _ & K2). rewrite (K2 nm k t its) in M. destruct d'; [discriminate M|exact I].
Qed.

(** values first, on meanings *)
Definition m_val (m : mdoc) : bool := match m with MVal _ _ => true | _ => false end.
Definition d_val (d : doc) : bool := match d with DVal _ _ => true | _ => false end.
Fixpoint mvf (m : mdoc) : mdoc :=
  match m with
  | MVal k v => MVal k v
  | MScope k t its =>
      MScope k t (filter m_val its ++
        (fix go (l : list mdoc) : list mdoc :=
            match l with [] => [] | MVal _ _ :: l' => go l' | (MScope _ _ _ as s) :: l' => mvf s :: go l' end) its)
  end.
Lemma mvf_eq k t its : mvf (MScope k t its) = MScope k t (filter m_val its ++ map mvf (filter (fun m => negb (m_val m)) its)).
Proof. cbn [mvf]. f_equal. f_equal. induction its as [|[? ?|? ? ?] l IH]; cbn [filter m_val negb map]; [reflexivity|exact IH|now rewrite IH]. Qed.
Lemma vf_eq k t its : values_first (DScope k t its) = DScope k t (filter d_val its ++ map values_first (filter (fun m => negb (d_val m)) its)).
Proof. cbn [values_first]. f_equal. f_equal. induction its as [|[? ?|? ? ?] l IH]; cbn [filter d_val negb map]; [reflexivity|exact IH|now rewrite IH]. Qed.
Lemma mvf_keeps f h : keeps f h -> forall d nm, f nm (values_first d) = mvf (f nm d).
Proof.
  intros (K0 & K1 & K2). induction d as [n v|n t its IH] using doc_ind2; intros nm.
  - cbn [values_first]. now rewrite K1.
  - rewrite vf_eq, !K2, mvf_eq. f_equal. rewrite map_app. f_equal.
    + clear IH. induction its as [|[? ?|? ? ?] l IHl]; cbn [filter d_val map]; [reflexivity| |].
      * rewrite K1. cbn [m_val map]. now rewrite IHl.
      * rewrite K2. cbn [m_val]. exact IHl.
    + induction IH as [|x l E F IHl]; [reflexivity|]. destruct x as [? ?|? ? ?]; cbn [filter d_val negb map].
      * rewrite K1. cbn [m_val negb]. exact IHl.
      * match goal with |- context [m_val ?q] => assert (X : m_val q = false) by (now rewrite K2); rewrite X end.
        cbn [negb map]. rewrite E. f_equal. exact IHl.
Qed.
Lemma mvf_mdoc : forall d, mdoc_of (values_first d) = mvf (mdoc_of d).
Proof.
  induction d as [n v|n t its IH] using doc_ind2; [reflexivity|]. rewrite vf_eq. cbn [mdoc_of]. rewrite mvf_eq. f_equal. rewrite map_app. f_equal.
  - clear IH. induction its as [|[? ?|? ? ?] l IHl]; cbn [filter d_val map mdoc_of m_val]; [reflexivity| |exact IHl]. now rewrite IHl.
  - induction IH as [|x l E F IHl]; [reflexivity|]. destruct x as [? ?|? ? ?]; cbn [filter d_val negb map mdoc_of m_val]; [exact IHl|].
    rewrite IHl. f_equal. exact E.
Qed.
(** the document of the loaded tree *)
Lemma tree_of_doc : forall d, match d with DScope _ _ _ => True | _ => False end -> tree_doc (doc_name d) (doc_node d) = values_first d.
Proof.
  induction d as [n v|n t its IH] using doc_ind2; [intros []|]. intros _. rewrite doc_node_eq, tree_doc_eq, vf_eq. cbn [doc_name]. f_equal. f_equal.
  - clear IH. unfold val_docs, vals_of. induction its as [|[? ?|? ? ?] l IHl]; cbn [flat_map app map filter d_val fst snd]; [reflexivity|now rewrite IHl|exact IHl].
  - unfold docs_of, subs_of. induction IH as [|x l E F IHl]; [reflexivity|].
    destruct x as [? ?|k' t' its']; cbn [flat_map app map filter d_val negb fst snd]; [exact IHl|]. rewrite IHl. f_equal. exact (E I).
Qed.
Lemma values_first_tree k n : values_first (tree_doc k n) = tree_doc k n.
Proof.
  destruct (tree_doc_scope k n) as (t & its & E). rewrite <- tree_of_doc by (rewrite E; exact I). rewrite doc_node_tree. f_equal. now rewrite E.
Qed.
(** meaning of the loaded tree *)
Lemma loaded_meaning f h d d' : keeps f h -> match d with DScope _ _ _ => True | _ => False end -> mdoc_of d' = f false d ->
  mdoc_of (tree_doc (doc_name d') (doc_node d')) = f false (values_first d).
Proof.
  intros K Sc M. rewrite tree_of_doc.
  - rewrite mvf_mdoc, M. symmetry. eapply mvf_keeps; eauto.
  - destruct d as [|k t its]; [destruct Sc|]. destruct K as (_ & _ & K2). rewrite K2 in M. destruct d'; [discriminate M|exact I].
Qed.
