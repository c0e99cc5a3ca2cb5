(** Proofs about trees after a failed load. *)
From Coq Require Import ZArith List Bool Lia ZifyBool ZifyNat.
From Verif Require Import Base Lemmas M_Types M_Conv M_In P_In S_Doc M_OutOps M_Env M_Event M_PSrl M_MsgPack M_Json M_Tree M_TreeIO S_Tree P_Reads P_Doc P_MsgPackSafe P_PSrlDoc P_Tree M_Kept S_Json S_Kept.
Import ListNotations.
Open Scope Z_scope.

Lemma gives_app {S} (next : S -> res (event * S)) s es s1 : gives next s es s1 -> forall es' s2, gives next s1 es' s2 -> gives next s (es ++ es') s2.
Proof. induction 1 as [s|s e s1 es s2 E G IH]; intros es' s3 G'; [exact G'|]. econstructor; [exact E|now apply IH]. Qed.

Lemma add_value n k v its : add_items (mkNode (n_type n) (n_values n ++ [(k, v)]) (n_nodes n)) its = add_items n (DVal k v :: its).
Proof. unfold add_items, vals_of, subs_of. cbn [n_type n_values n_nodes flat_map app]. now rewrite <- app_assoc. Qed.
Lemma add_scope n k t sub its : add_items (mkNode (n_type n) (n_values n) (n_nodes n ++ [(k, add_items (empty_node t) sub)])) its = add_items n (DScope k t sub :: its).
Proof. unfold add_items at 1 3, vals_of, subs_of. cbn [n_type n_values n_nodes flat_map app]. rewrite doc_node_eq. rewrite <- app_assoc. reflexivity. Qed.
Lemma add_none n : add_items n [] = n.
Proof. unfold add_items, vals_of, subs_of. cbn [flat_map]. rewrite !app_nil_r. now destruct n. Qed.

Lemma end_event e : ty_eqb (v_type (snd e)) TScopeEnd = true -> plain_event e = ev_end.
Proof. intros H. unfold plain_event. now rewrite H. Qed.
Lemma val_event e : ty_eqb (v_type (snd e)) TScopeEnd = false -> is_scope (v_type (snd e)) = false -> plain_event e = e.
Proof. intros H H'. unfold plain_event. now rewrite H, H'. Qed.
Lemma scope_event k v : is_scope (v_type v) = true -> plain_event (k, v) = (k, val_type (v_type v)).
Proof. intros H. unfold plain_event. cbn [fst snd]. now rewrite (scope_not_end _ H), H. Qed.

Section Keep.
Context {S : Type}.
Variable m : machine S.
Let next := m_next m.
(** what reading the rest of a scope leaves in the node *)
Definition kept_items (dp : Z) (s : S) (its : list doc) (r : res S) : Prop :=
  all_shaped its /\
  match r with
  | Ok s' => exists es, gives next s es s' /\ map plain_event es = flat_map events its ++ [ev_end]
  | _ => exists es s' c, gives next s es s' /\ (1 <= c)%nat /\ dp + Z.of_nat c <= 129 /\ map plain_event es ++ repeat ev_end c = flat_map events its ++ [ev_end] /\ stops next s' (Z.to_nat dp + c) r
  end.
Lemma kept_value dp s k v s1 its r : next s = Ok ((k, v), s1) -> ty_eqb (v_type v) TScopeEnd = false -> is_scope (v_type v) = false ->
  kept_items dp s1 its r -> kept_items dp s (DVal k v :: its) r.
Proof.
  intros E V1 V2 [Sh K]. split. { constructor; [|exact Sh]. split; [exact V2|]. intros Q. rewrite Q in V1. discriminate. }
  pose proof (val_event (k, v) V1 V2) as PE.
  destruct r as [s'| |u|]; destruct K as (es & K).
  - destruct K as [G M]. exists ((k, v) :: es). split; [econstructor; eauto|]. cbn [map flat_map events app]. now rewrite PE, M.
  - destruct K as (s' & c & G & C & D & M & St). exists ((k, v) :: es), s', c. split; [econstructor; eauto|]. repeat split; auto. cbn [map flat_map events app]. now rewrite PE, M.
  - destruct K as (s' & c & G & C & D & M & St). exists ((k, v) :: es), s', c. split; [econstructor; eauto|]. repeat split; auto. cbn [map flat_map events app]. now rewrite PE, M.
  - destruct K as (s' & c & G & C & D & M & St). exists ((k, v) :: es), s', c. split; [econstructor; eauto|]. repeat split; auto. cbn [map flat_map events app]. now rewrite PE, M.
Qed.
Lemma kept_stop dp s (r : res S) : 0 <= dp <= 128 -> (forall s', r <> Ok s') -> stops next s (Z.to_nat dp + 1) r -> kept_items dp s [] r.
Proof.
  intros D NO St. split; [constructor|].
  assert (X : exists es s' c, gives next s es s' /\ (1 <= c)%nat /\ dp + Z.of_nat c <= 129 /\ map plain_event es ++ repeat ev_end c = flat_map events [] ++ [ev_end] /\ stops next s' (Z.to_nat dp + c) r).
  { exists [], s, 1%nat. split; [constructor|]. repeat split; auto; lia. }
  destruct r as [s9| |u9|]; [destruct (NO s9 eq_refl)|exact X..].
Qed.
Lemma kept_scope_ok dp s k v s1 sub s2 its r : next s = Ok ((k, v), s1) -> is_scope (v_type v) = true ->
  kept_items (dp + 1) s1 sub (Ok s2) -> kept_items dp s2 its r -> kept_items dp s (DScope k (v_type v) sub :: its) r.
Proof.
  intros E V [Sh1 (es1 & G1 & M1)] [Sh2 K]. split. { constructor; [|exact Sh2]. apply shaped_scope. auto. }
  assert (A : forall es s', gives next s2 es s' -> gives next s ((k, v) :: es1 ++ es) s') by (intros es s' G; econstructor; [exact E|]; eapply gives_app; eauto).
  assert (B : forall es, map plain_event ((k, v) :: es1 ++ es) = events (DScope k (v_type v) sub) ++ map plain_event es).
  { intros es. cbn [map events]. rewrite map_app, M1, (scope_event k v V). cbn [app]. reflexivity. }
  destruct r as [s'| |u|]; destruct K as (es & K).
  - destruct K as [G M]. exists ((k, v) :: es1 ++ es). split; [auto|]. rewrite B, M. cbn [flat_map]. now rewrite <- app_assoc.
  - destruct K as (s' & c & G & C & D & M & St). exists ((k, v) :: es1 ++ es), s', c. split; [auto|]. repeat split; auto. rewrite B, <- app_assoc, M. cbn [flat_map]. now rewrite <- app_assoc.
  - destruct K as (s' & c & G & C & D & M & St). exists ((k, v) :: es1 ++ es), s', c. split; [auto|]. repeat split; auto. rewrite B, <- app_assoc, M. cbn [flat_map]. now rewrite <- app_assoc.
  - destruct K as (s' & c & G & C & D & M & St). exists ((k, v) :: es1 ++ es), s', c. split; [auto|]. repeat split; auto. rewrite B, <- app_assoc, M. cbn [flat_map]. now rewrite <- app_assoc.
Qed.
Lemma kept_scope_bad dp s k v s1 sub (r : res S) : 0 <= dp -> (forall s', r <> Ok s') -> next s = Ok ((k, v), s1) -> is_scope (v_type v) = true ->
  kept_items (dp + 1) s1 sub r -> kept_items dp s [DScope k (v_type v) sub] r.
Proof.
  intros D0 NO E V [Sh1 K]. split. { constructor; [|constructor]. apply shaped_scope. auto. }
  assert (X : exists es s' c, gives next s1 es s' /\ (1 <= c)%nat /\ dp + 1 + Z.of_nat c <= 129 /\ map plain_event es ++ repeat ev_end c = flat_map events sub ++ [ev_end] /\ stops next s' (Z.to_nat (dp + 1) + c) r)
    by (destruct r as [s9| |u9|]; [destruct (NO s9 eq_refl)|exact K..]).
  assert (Y : exists es s' c, gives next s es s' /\ (1 <= c)%nat /\ dp + Z.of_nat c <= 129 /\ map plain_event es ++ repeat ev_end c = flat_map events [DScope k (v_type v) sub] ++ [ev_end] /\ stops next s' (Z.to_nat dp + c) r).
  { destruct X as (es & s' & c & G & C & D & M & St). exists ((k, v) :: es), s', (c + 1)%nat. split; [econstructor; eauto|]. split; [lia|]. split; [lia|]. split.
    - cbn [map flat_map events]. rewrite (scope_event k v V). cbn [app]. rewrite repeat_app, app_assoc, M. cbn [repeat]. rewrite app_nil_r. reflexivity.
    - now replace (Z.to_nat dp + (c + 1))%nat with (Z.to_nat (dp + 1) + c)%nat by lia. }
  destruct r as [s9| |u9|]; [destruct (NO s9 eq_refl)|exact Y..].
Qed.
Lemma kept_read : forall f dp n s r n', 0 <= dp <= 128 -> read_keep m false f dp n s = (r, n') -> exists its, n' = add_items n its /\ kept_items dp s its r.
Proof.
  induction f as [|f IH]; intros dp n s r n' D E; cbn [read_keep] in E.
  - injection E as <- <-. exists []. split; [symmetry; apply add_none|]. apply kept_stop; [exact D|discriminate|constructor].
  - assert (NX : m_next m s = next s) by reflexivity. rewrite NX in E. destruct (next s) as [[[k v] s1]| |u|] eqn:N; cbn [keep] in E.
    2: { injection E as <- <-. exists []. split; [symmetry; apply add_none|]. apply kept_stop; [exact D|discriminate|now constructor]. }
    2: { injection E as <- <-. exists []. split; [symmetry; apply add_none|]. apply kept_stop; [exact D|discriminate|now constructor]. }
    2: { injection E as <- <-. exists []. split; [symmetry; apply add_none|]. apply kept_stop; [exact D|discriminate|constructor]. }
    destruct (ty_eqb (v_type v) TScopeEnd) eqn:V1.
    { injection E as <- <-. exists []. split; [symmetry; apply add_none|]. split; [constructor|]. exists [(k, v)]. split; [econstructor; [exact N|constructor]|]. cbn [map flat_map app]. f_equal. now apply end_event. }
    destruct (is_scope (v_type v)) eqn:V2; cbn [negb] in E.
    + destruct (Z.ltb_spec max_depth (dp + 1)) as [M|M].
      { injection E as <- <-. exists []. split; [symmetry; apply add_none|]. apply kept_stop; [exact D|discriminate|]. unfold max_depth in M. apply (st_deep next s _ (k, v) s1); [exact N|exact V2|lia]. }
      unfold max_depth in M. destruct (read_keep m false f (dp + 1) (empty_node (v_type v)) s1) as [r1 c] eqn:E1.
      destruct (IH (dp + 1) _ _ _ _ ltac:(lia) E1) as (sub & -> & K1).
      rewrite store_node_utf8 in E. cbn [keep] in E.
      assert (BAD : forall r0 : res S, (forall s', r0 <> Ok s') -> r1 = r0 -> (r0, mkNode (n_type n) (n_values n) (n_nodes n ++ [(k, add_items (empty_node (v_type v)) sub)])) = (r, n') -> exists its, n' = add_items n its /\ kept_items dp s its r).
      { intros r0 NO -> [= <- <-]. exists [DScope k (v_type v) sub]. split; [now rewrite <- add_scope, add_none|]. eapply kept_scope_bad; eauto. lia. }
      destruct r1 as [s2| |u|]; cbn [keep] in E.
      * destruct (IH dp _ _ _ _ D E) as (its & -> & K2). exists (DScope k (v_type v) sub :: its). split; [apply add_scope|]. eapply kept_scope_ok; eauto.
      * apply (BAD Err); [discriminate|reflexivity|exact E].
      * apply (BAD (UB u)); [discriminate|reflexivity|exact E].
      * apply (BAD Fuel); [discriminate|reflexivity|exact E].
    + rewrite store_value_utf8 in E. cbn [keep] in E. destruct (IH dp _ _ _ _ D E) as (its & -> & K). exists (DVal k v :: its). split; [apply add_value|]. eapply kept_value; eauto.
Qed.

(** the whole document *)
Theorem kept_load : forall f old s r k n, load_keep m false f old s = (r, (k, n)) ->
  match r with
  | Ok s' => exists d es, gives next s es s' /\ closed_by es 0 d /\ doc_name d = k /\ doc_node d = n
  | _ => k = [] /\ n = empty_node old /\ no_root next s r \/
      exists d es s' open, gives next s es s' /\ (1 <= open <= 129)%nat /\ closed_by es open d /\ doc_name d = k /\ doc_node d = n /\ stops next s' open r
  end.
Proof.
  intros f old s r k n E. unfold load_keep in E. assert (NX : m_next m s = next s) by reflexivity. rewrite NX in E. destruct (next s) as [[[k0 v] s1]| |u|] eqn:N; cbn [keep] in E.
  2-4: injection E as <- <- <-; left; repeat split; apply nr_stops; now constructor.
  destruct (is_scope (v_type v)) eqn:V; cbn [negb] in E.
  2: { injection E as <- <- <-. left. repeat split. now apply (nr_value next s (k0, v) s1). }
  destruct (read_keep m false f 0 (empty_node (v_type v)) s1) as [o n0] eqn:R. injection E as <- <- <-.
  destruct (kept_read f 0 _ _ _ _ ltac:(lia) R) as (its & -> & Sh & K).
  assert (N0 : doc_node (DScope k0 (v_type v) its) = add_items (empty_node (v_type v)) its) by (rewrite doc_node_eq; reflexivity).
  assert (SD : shaped (DScope k0 (v_type v) its)) by (apply shaped_scope; auto).
  assert (BAD : forall r0 : res S, (exists es s' c, gives next s1 es s' /\ (1 <= c)%nat /\ 0 + Z.of_nat c <= 129 /\ map plain_event es ++ repeat ev_end c = flat_map events its ++ [ev_end] /\ stops next s' (Z.to_nat 0 + c) r0) ->
    exists d es s' open, gives next s es s' /\ (1 <= open <= 129)%nat /\ closed_by es open d /\ doc_name d = k0 /\ doc_node d = add_items (empty_node (v_type v)) its /\ stops next s' open r0).
  { intros r0 (es & s' & c & G & C & D & M & St). exists (DScope k0 (v_type v) its), ((k0, v) :: es), s', c. split; [econstructor; eauto|]. split; [lia|]. split; [|auto]. split; [exact SD|]. split; [exact Logic.I|].
    cbn [map events app]. rewrite (scope_event k0 v V), M. reflexivity. }
  destruct o as [s'| |u|]; [|right; apply BAD; exact K..].
  destruct K as (es & G & M). exists (DScope k0 (v_type v) its), ((k0, v) :: es). split; [econstructor; eauto|]. split; [|auto]. split; [exact SD|]. split; [exact Logic.I|].
  cbn [map events repeat]. rewrite app_nil_r, (scope_event k0 v V), M. reflexivity.
Qed.
End Keep.

(** * The outcome is that of M_TreeIO.load_tree *)
Section Run.
Context {I : Type}.
Variable run : forall A, prog A -> I -> res (A * I).
Hypothesis run_ret : forall A (a : A) i, run A (Ret a) i = Ok (a, i).
Hypothesis run_throw : forall A i, run A Throw i = Err.
Hypothesis run_undef : forall A u i, run A (Undef u) i = UB u.
Hypothesis run_fuel : forall A i, run A OutOfFuel i = Fuel.
Hypothesis run_bind : forall A B (p : prog A) (f : A -> prog B) i, run B (pbind p f) i = rbind (run A p i) (fun '(a, i') => run B (f a) i').
Lemma comp_bind {St A B} (rd : St -> prog (St * event)) (p : eprog A) (f : A -> eprog B) : forall st i,
  run _ (ecomp rd (ebind p f) st) i = rbind (run _ (ecomp rd p st) i) (fun '((st', a), i') => run _ (ecomp rd (f a) st') i').
Proof.
  induction p as [a| |u| |k IH]; intros st i; cbn [ebind ecomp].
  - now rewrite run_ret.
  - now rewrite !run_throw.
  - now rewrite !run_undef.
  - now rewrite !run_fuel.
  - rewrite !run_bind. destruct (run _ (rd st) i) as [[[st1 e] i1]| | |]; cbn [rbind]; try reflexivity. apply IH.
Qed.
Section One.
Context {St : Type}.
Variables (m : machine (parser * I)) (rd : St -> prog (St * event)) (con : St -> parser).
Hypothesis next_is : forall st i, m_next m (con st, i) = let* (r, i') := run _ (rd st) i in Ok (snd r, (con (fst r), i')).
Lemma same_read : forall f dp n st i,
  match run _ (ecomp rd (read_source f dp n) st) i with
  | Ok ((st', n'), i') => read_keep m false f dp n (con st, i) = (Ok (con st', i'), n')
  | Err => fst (read_keep m false f dp n (con st, i)) = Err
  | UB u => fst (read_keep m false f dp n (con st, i)) = UB u
  | Fuel => fst (read_keep m false f dp n (con st, i)) = Fuel
  end.
Proof.
  induction f as [|f IH]; intros dp n st i; cbn [read_source ecomp read_keep].
  - now rewrite run_fuel.
  - rewrite run_bind, next_is. destruct (run _ (rd st) i) as [[[st1 [k v]] i1]| |u|]; cbn [rbind keep fst snd]; try reflexivity.
    destruct (ty_eqb (v_type v) TScopeEnd). { cbn [ecomp]. now rewrite run_ret. }
    destruct (is_scope (v_type v)); cbn [negb].
    + destruct (max_depth <? dp + 1). { cbn [ecomp]. now rewrite run_throw. }
      rewrite comp_bind. specialize (IH (dp + 1) (empty_node (v_type v)) st1 i1) as IH1.
      destruct (run _ (ecomp rd (read_source f (dp + 1) (empty_node (v_type v))) st1) i1) as [[[st2 c] i2]| |u|]; cbn [rbind].
      * rewrite IH1. rewrite store_node_utf8. cbn [keep elift ebind]. apply IH.
      * destruct (read_keep m false f (dp + 1) _ _) as [r c]. cbn [fst] in IH1. subst r. rewrite store_node_utf8. reflexivity.
      * destruct (read_keep m false f (dp + 1) _ _) as [r c]. cbn [fst] in IH1. subst r. rewrite store_node_utf8. reflexivity.
      * destruct (read_keep m false f (dp + 1) _ _) as [r c]. cbn [fst] in IH1. subst r. rewrite store_node_utf8. reflexivity.
    + rewrite store_value_utf8. cbn [elift ebind keep]. apply IH.
Qed.
Lemma same_load f old st i :
  match run _ (ecomp rd (load_prog f) st) i with
  | Ok ((st', kn), i') => load_keep m false f old (con st, i) = (Ok (con st', i'), kn)
  | Err => fst (load_keep m false f old (con st, i)) = Err
  | UB u => fst (load_keep m false f old (con st, i)) = UB u
  | Fuel => fst (load_keep m false f old (con st, i)) = Fuel
  end.
Proof.
  unfold load_prog, load_keep. cbn [ecomp]. rewrite run_bind, next_is. destruct (run _ (rd st) i) as [[[st1 [k v]] i1]| |u|]; cbn [rbind keep fst snd]; try reflexivity.
  destruct (is_scope (v_type v)); cbn [negb]. 2: { cbn [ecomp]. now rewrite run_throw. }
  rewrite comp_bind. pose proof (same_read f 0 (empty_node (v_type v)) st1 i1) as H. destruct (run _ (ecomp rd (read_source f 0 (empty_node (v_type v))) st1) i1) as [[[st2 c] i2]| |u|]; cbn [rbind].
  - rewrite H. cbn [ecomp]. now rewrite run_ret.
  - destruct (read_keep _ _ _ _ _ _). exact H.
  - destruct (read_keep _ _ _ _ _ _). exact H.
  - destruct (read_keep _ _ _ _ _ _). exact H.
Qed.
End One.
Lemma same_after x f old q i :
  match run _ (load_tree x f q) i with
  | Ok ((q', kn), i') => load_after run x f false old q i = (Ok (q', i'), kn)
  | Err => fst (load_after run x f false old q i) = Err
  | UB u => fst (load_after run x f false old q i) = UB u
  | Fuel => fst (load_after run x f false old q i) = Fuel
  end.
Proof.
  unfold load_tree, load_after. destruct (parser_clear q) as [st|st|st]; rewrite run_bind.
  - pose proof (same_load (parser_machine run x f) psrl_read PsrlP (fun st i => eq_refl) f old st i) as H. destruct (run _ (ecomp psrl_read (load_prog f) st) i) as [[[st' kn] i']| |u|]; cbn [rbind]; [rewrite run_ret|..]; exact H.
  - pose proof (same_load (parser_machine run x f) msgp_read MsgpP (fun st i => eq_refl) f old st i) as H. destruct (run _ (ecomp msgp_read (load_prog f) st) i) as [[[st' kn] i']| |u|]; cbn [rbind]; [rewrite run_ret|..]; exact H.
  - pose proof (same_load (parser_machine run x f) (json_read x f) JsonP (fun st i => eq_refl) f old st i) as H. destruct (run _ (ecomp (json_read x f) (load_prog f) st) i) as [[[st' kn] i']| |u|]; cbn [rbind]; [rewrite run_ret|..]; exact H.
Qed.
End Run.

Lemma same_block x f old q i :
  match run_block (load_tree x f q) i with
  | Ok ((q', kn), i') => load_after (@run_block) x f false old q i = (Ok (q', i'), kn)
  | Err => fst (load_after (@run_block) x f false old q i) = Err
  | UB u => fst (load_after (@run_block) x f false old q i) = UB u
  | Fuel => fst (load_after (@run_block) x f false old q i) = Fuel
  end.
Proof. apply same_after; try reflexivity. intros A B p g b. rewrite run_block_bind. destruct (run_block p b) as [[? ?]| | |]; reflexivity. Qed.
Lemma same_stream x f old q i :
  match run_stream (load_tree x f q) i with
  | Ok ((q', kn), i') => load_after (@run_stream) x f false old q i = (Ok (q', i'), kn)
  | Err => fst (load_after (@run_stream) x f false old q i) = Err
  | UB u => fst (load_after (@run_stream) x f false old q i) = UB u
  | Fuel => fst (load_after (@run_stream) x f false old q i) = Fuel
  end.
Proof. apply same_after; try reflexivity. intros A B p g b. rewrite run_stream_bind. destruct (run_stream p b) as [[? ?]| | |]; reflexivity. Qed.

(** * Truncated documents *)
Definition binary (p : parser) : Prop := match p with JsonP _ => False | _ => True end.
Definition more (e : bytes) (s : parser * blk) : parser * blk := (fst s, mkBlk (b_done (snd s)) (b_rest (snd s) ++ e)).
Lemma next_more x f e s v s' : binary (fst s) -> parser_next (@run_block) x f s = Ok (v, s') -> binary (fst s') /\ parser_next (@run_block) x f (more e s) = Ok (v, more e s').
Proof.
  destruct s as [q [dn rs]]. unfold parser_next, more. cbn [fst snd b_done b_rest]. intros B E. destruct q as [st|st|st]; [| |destruct B].
  - destruct (run_block (psrl_read st) (mkBlk dn rs)) as [[[st' ev] [dn' rs']]| | |] eqn:R; cbn [rbind] in E; try discriminate. injection E as <- <-. cbn [fst snd b_done b_rest]. split; [exact Logic.I|].
    rewrite (plain_extend _ (plain_psrl_read st) _ _ e _ _ _ R). reflexivity.
  - destruct (run_block (msgp_read st) (mkBlk dn rs)) as [[[st' ev] [dn' rs']]| | |] eqn:R; cbn [rbind] in E; try discriminate. injection E as <- <-. cbn [fst snd b_done b_rest]. split; [exact Logic.I|].
    rewrite (plain_extend _ (plain_msgp_read st) _ _ e _ _ _ R). reflexivity.
Qed.
Lemma gives_more x f e s es s' : gives (parser_next (@run_block) x f) s es s' -> binary (fst s) -> gives (parser_next (@run_block) x f) (more e s) es (more e s').
Proof.
  induction 1 as [s|s v s1 es s2 E G IH]; intros B; [constructor|]. destruct (next_more x f e s v s1 B E) as [B1 E1]. econstructor; eauto.
Qed.
(** of two runs from one state one is the beginning of the other *)
Lemma gives_two {S} (next : S -> res (event * S)) s es1 s1 : gives next s es1 s1 -> forall es2 s2, gives next s es2 s2 ->
  (exists es, es2 = es1 ++ es) \/ (exists es, es1 = es2 ++ es /\ gives next s2 es s1).
Proof.
  induction 1 as [s|s e s1 es s2 E G IH]; intros es2 s3 G2; [left; exists es2; reflexivity|].
  inversion G2 as [|? e' s1' es' ? E' G']; subst; [right; exists (e :: es); split; [reflexivity|econstructor; eauto]|].
  rewrite E in E'. injection E' as <- <-. destruct (IH _ _ G') as [[z ->]|[z [-> Gz]]]; [left; exists z; reflexivity|right; exists z; split; [reflexivity|exact Gz]].
Qed.
Lemma gives_split {S} (next : S -> res (event * S)) : forall es1 s es2 s2, gives next s (es1 ++ es2) s2 -> exists s1, gives next s es1 s1 /\ gives next s1 es2 s2.
Proof.
  induction es1 as [|e es1 IH]; intros s es2 s2 G; [exists s; split; [constructor|exact G]|]. cbn [app] in G. inversion G as [|? ? s' ? ? E G']; subst.
  destruct (IH _ _ _ G') as (s1 & G1 & G2). exists s1. split; [econstructor; eauto|exact G2].
Qed.
Lemma gives_det {S} (next : S -> res (event * S)) s es s1 : gives next s es s1 -> forall s2, gives next s es s2 -> s1 = s2.
Proof. induction 1 as [s|s e s1 es s2 E G IH]; intros s3 G'; inversion G'; subst; [reflexivity|]. apply IH. congruence. Qed.

(** no document is the beginning of another *)
Definition level (es : list event) : Z := fold_right (fun e n => (if ty_eqb (v_type (snd e)) TScopeEnd then -1 else if is_scope (v_type (snd e)) then 1 else 0) + n) 0 es.
Lemma level_app a b : level (a ++ b) = level a + level b.
Proof. induction a as [|e a IH]; [reflexivity|]. cbn [app level fold_right]. change (fold_right _ 0 (a ++ b)) with (level (a ++ b)). change (fold_right _ 0 a) with (level a). lia. Qed.
Lemma level_scope k t es : is_scope t = true -> level ((k, val_type t) :: es) = 1 + level es.
Proof. intros T. cbn [level fold_right snd]. change (v_type (val_type t)) with t. rewrite (scope_not_end t T), T. reflexivity. Qed.
Lemma app_split {A} (a b p z : list A) : a ++ b = p ++ z -> (exists y, p = a ++ y /\ b = y ++ z) \/ (exists y, a = p ++ y /\ z = y ++ b).
Proof.
  revert p. induction a as [|u a IH]; intros p E; [left; exists p; auto|]. destruct p as [|v p]; [right; exists (u :: a); auto|].
  cbn [app] in E. injection E as <- E. destruct (IH _ E) as [(y & -> & ->)|(y & -> & ->)]; [left|right]; exists y; auto.
Qed.
Lemma level_doc : forall d, shaped d -> level (events d) = 0 /\ forall p z, events d = p ++ z -> 0 <= level p /\ (is_scope_doc d -> p <> [] -> z <> [] -> 1 <= level p).
Proof.
  induction d as [k v|k t its IH] using doc_ind2; intros Sh.
  - destruct Sh as [V1 V2]. assert (L : level [(k, v)] = 0) by (cbn [level fold_right snd]; rewrite V1; destruct (v_type v); try reflexivity; now destruct V2).
    split; [exact L|]. intros p z E. split; [|intros []]. cbn [events] in E. destruct p as [|e p]; [reflexivity|]. cbn [app] in E. injection E as <- E. symmetry in E. apply app_eq_nil in E. destruct E as [-> ->]. change (0 <= level [(k, v)]). rewrite L. lia.
  - apply shaped_scope in Sh. destruct Sh as [T Sub].
    assert (L : level (flat_map events its) = 0 /\ forall p z, flat_map events its = p ++ z -> 0 <= level p).
    { clear T. induction its as [|d its IHl]; [split; [reflexivity|]; intros p z E; cbn in E; symmetry in E; apply app_eq_nil in E; destruct E as [-> _]; reflexivity|].
      inversion IH as [|? ? I1 I2]; subst. inversion Sub as [|? ? S1 S2]; subst. destruct (I1 S1) as [A1 A2]. destruct (IHl I2 S2) as [B1 B2]. cbn [flat_map]. split; [rewrite level_app; lia|].
      intros p z E. destruct (app_split _ _ _ _ E) as [(y & -> & E')|(y & E' & _)].
      - rewrite level_app, A1. specialize (B2 _ _ E'). lia.
      - apply (A2 _ _ E'). }
    destruct L as [L1 L2]. cbn [events]. split. { rewrite level_scope by exact T. rewrite level_app, L1. reflexivity. }
    intros p z E. destruct p as [|e p]; [split; [reflexivity|]; intros _ []; reflexivity|]. cbn [app] in E. injection E as <- E. rewrite level_scope by exact T.
    destruct (app_split _ _ _ _ E) as [(y & -> & E')|(y & E' & _)].
    + rewrite level_app, L1. destruct y as [|e y]; [split; [cbn; lia|intros; cbn; lia]|]. cbn [app] in E'. injection E' as <- E'. symmetry in E'. apply app_eq_nil in E'. destruct E' as [-> ->]. split; [cbn; lia|]. intros _ _ []. reflexivity.
    + specialize (L2 _ _ E'). split; intros; lia.
Qed.
Lemma events_prefix_free d D z : shaped d -> shaped D -> is_scope_doc d -> is_scope_doc D -> events d ++ z = events D -> z = [].
Proof.
  intros S1 S2 C1 C2 E. destruct (level_doc d S1) as [L _]. destruct (level_doc D S2) as [_ K]. destruct (K (events d) z (eq_sym E)) as [_ K2]. destruct z as [|e z]; [reflexivity|].
  assert (1 <= level (events d)); [|lia]. apply K2; [exact C2| |discriminate]. destruct d; discriminate.
Qed.

Theorem cut_load x F q bs q' k' n' b' : binary q -> run_block (load_tree x F q) (set_block bs) = Ok ((q', (k', n')), b') -> b_rest b' = [] ->
  exists D, shaped D /\ doc_name D = k' /\ doc_node D = n' /\
  forall pre post old r k n, bs = pre ++ post -> post <> [] -> load_after (@run_block) x F false old q (set_block pre) = (r, (k, n)) ->
  (forall z, r <> Ok z) /\
  (k = [] /\ n = empty_node old \/
   exists d i open, (1 <= open)%nat /\ shaped d /\ firstn i (events D) ++ repeat ev_end open = events d /\ doc_name d = k /\ doc_node d = n).
Proof.
  intros B E Z. pose proof (same_block x F TObject q (set_block bs)) as H. rewrite E in H. unfold load_after in H.
  pose proof (kept_load _ _ _ _ _ _ _ H) as (D & es & G & (SD & SCD & M) & N1 & N2). cbn [repeat] in M. rewrite app_nil_r in M. exists D. split; [exact SD|]. split; [exact N1|]. split; [exact N2|].
  intros pre post old r k n -> NP L. unfold load_after in L. pose proof (kept_load _ _ _ _ _ _ _ L) as K.
  assert (BQ : binary (parser_clear q)) by (destruct q; exact B).
  assert (START : (parser_clear q, set_block (pre ++ post)) = more post (parser_clear q, set_block pre)) by reflexivity.
  rewrite START in G. change (m_next (parser_machine (@run_block) x F)) with (parser_next (@run_block) x F) in *.
  assert (MIN : forall es1 s1, gives (parser_next (@run_block) x F) (parser_clear q, set_block pre) es1 s1 -> exists z, es = es1 ++ z /\ z <> []).
  { intros es1 s1 G1. pose proof (gives_more x F post _ _ _ G1 BQ) as G1'. destruct (gives_two _ _ _ _ G1' _ _ G) as [[z Q]|[z [Q Gz]]].
    - exists z. split; [exact Q|]. intros ->. rewrite app_nil_r in Q. subst es1. pose proof (gives_det _ _ _ _ G _ G1') as Q. apply (f_equal (fun s => b_rest (snd s))) in Q. cbn [snd more b_rest] in Q. rewrite Z in Q. symmetry in Q. apply app_eq_nil in Q. tauto.
    - exfalso. subst es1. destruct (gives_split _ _ _ _ _ G1) as (s9 & G9 & _). pose proof (gives_more x F post _ _ _ G9 BQ) as G9'. pose proof (gives_det _ _ _ _ G _ G9') as Q9. apply (f_equal (fun s => b_rest (snd s))) in Q9. cbn [snd more b_rest] in Q9. rewrite Z in Q9. symmetry in Q9. apply app_eq_nil in Q9. tauto. }
  destruct r as [s'| |u|]; [exfalso|split; [discriminate|]..].
  - destruct K as (d & es1 & G1 & (S1 & SC & M1) & _). destruct (MIN _ _ G1) as (z & -> & NZ). cbn [repeat] in M1. rewrite app_nil_r in M1. rewrite map_app, M1 in M.
    apply (events_prefix_free d D (map plain_event z)) in M; auto. destruct z; [now apply NZ|discriminate].
  - destruct K as [(K1 & K2 & _)|(d & es1 & s' & open & G1 & O & (S1 & SC & M1) & K1 & K2 & _)]; [now left|right]. destruct (MIN _ _ G1) as (z & -> & NZ).
    exists d, (length (map plain_event es1)), open. split; [lia|]. split; [exact S1|]. split; [|auto]. rewrite <- M, map_app, firstn_app, firstn_all, Nat.sub_diag. cbn [firstn]. now rewrite app_nil_r.
  - destruct K as [(K1 & K2 & _)|(d & es1 & s' & open & G1 & O & (S1 & SC & M1) & K1 & K2 & _)]; [now left|right]. destruct (MIN _ _ G1) as (z & -> & NZ).
    exists d, (length (map plain_event es1)), open. split; [lia|]. split; [exact S1|]. split; [|auto]. rewrite <- M, map_app, firstn_app, firstn_all, Nat.sub_diag. cbn [firstn]. now rewrite app_nil_r.
  - destruct K as [(K1 & K2 & _)|(d & es1 & s' & open & G1 & O & (S1 & SC & M1) & K1 & K2 & _)]; [now left|right]. destruct (MIN _ _ G1) as (z & -> & NZ).
    exists d, (length (map plain_event es1)), open. split; [lia|]. split; [exact S1|]. split; [|auto]. rewrite <- M, map_app, firstn_app, firstn_all, Nat.sub_diag. cbn [firstn]. now rewrite app_nil_r.
Qed.
