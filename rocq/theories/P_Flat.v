(** Restoring a class whose members are all values directly from an input (S_Restored: [flat]): the same as from a tree,
    exceptions included. *)
From Coq Require Import ZArith List Bool Lia ZifyBool ZifyNat.
From Verif Require Import Base Lemmas M_Types M_Conv M_In S_Doc M_OutOps M_Event M_PSrl M_MsgPack M_Json M_Env M_Tree S_Tree P_Tree M_TreeIO M_Object S_Object S_ObjIO M_ObjIO S_Restored P_ObjEager P_ObjLazy P_ObjMore P_In P_ObjIO P_Restored.
Import ListNotations.
Open Scope Z_scope.

(** the outcome of a program that goes on behind what it used *)
Definition outcome {A} (r : res A) (tail : list event) : option (res (A * list event)) :=
  Some (match r with Ok a => Ok (a, tail) | Err => Err | UB u => UB u | Fuel => Fuel end).

(** removed items do not matter *)
Lemma item_keep t k its al : (forall i x, al i = false -> nth_error its i = Some x -> doc_name x <> k) -> item_for t k (keep al 0 its) = item_for t k its.
Proof.
  unfold item_for. intros H. enough (E : forall i, (forall j x, al (i + j)%nat = false -> nth_error its j = Some x -> doc_name x <> k) ->
    find (fun d => Bool.eqb (is_sc d) (scoped t) && bytes_eqb (doc_name d) k) (keep al i its) = find (fun d => Bool.eqb (is_sc d) (scoped t) && bytes_eqb (doc_name d) k) its).
  { apply E. intros j x A. apply H. exact A. }
  clear H. induction its as [|d its IH]; intros i H; [reflexivity|]. cbn [keep find]. rewrite <- (IH (S i)).
  2:{ intros j x A N. apply (H (S j) x); [replace (i + S j)%nat with (S i + j)%nat by lia; exact A|exact N]. }
  destruct (al i) eqn:A; [reflexivity|]. replace (bytes_eqb (doc_name d) k) with false; [now rewrite andb_false_r|]. symmetry. apply bytes_eqb_neq. apply (H O d); [now rewrite Nat.add_0_r|reflexivity].
Qed.
Lemma flat_keep w its al : forall fs olds, (forall i x, al i = false -> nth_error its i = Some x -> ~ In (doc_name x) (map f_name fs)) -> flat w (keep al 0 its) fs olds = flat w its fs olds.
Proof.
  induction fs as [|f fs IH]; intros olds H; [reflexivity|]. destruct olds as [|old olds]; [reflexivity|]. cbn [flat].
  rewrite item_keep by (intros i x A N C; apply (H i x A N); left; congruence). rewrite IH; [reflexivity|]. intros i x A N C. apply (H i x A N). now right.
Qed.
Lemma flat_eager w df its : forall fs olds s vi ni, Forall (fun f => 0 < zlen (f_name f)) fs -> all_values fs ->
  exists u, dfields w false df fs olds its s vi ni = match flat w its fs olds with Ok vs => Ok (vs, s, u) | Err => Err | UB b => UB b | Fuel => Fuel end.
Proof.
  induction fs as [|f fs IH]; intros olds s vi ni Nm Av; [exists O; reflexivity|]. destruct olds as [|old olds]; [exists O; reflexivity|]. inversion Nm; subst. inversion Av as [|? ? V1 V2]; subst.
  cbn [dfields flat]. rewrite andb_false_r. cbn [andb]. replace (0 <? zlen (f_name f)) with true by lia. rewrite existsb_find. fold (item_for (f_type f) (f_name f) its).
  pose proof (select_find (scoped (f_type f)) (f_name f) its) as E. fold (item_for (f_type f) (f_name f) its) in E. unfold dfield.
  destruct (item_for (f_type f) (f_name f) its) as [d|] eqn:I; cbn [negb]; rewrite ?andb_false_r, ?andb_true_r.
  - destruct (select (scoped (f_type f)) (IdName (f_name f)) its) as [[j e]|]; [|discriminate]. injection E as ->. pose proof (P_Restored.find_kind _ _ _ _ I) as K. rewrite V1 in K.
    destruct d as [kd v|]; [|discriminate]. cbn [dchild]. destruct (paste_value w (f_type f) old v) as [x| |b|]; cbn [rbind]; try (exists O; reflexivity).
    rewrite V1. destruct (IH olds s (vi + 1) ni) as [u ->]; auto. destruct (flat w its fs olds); cbn [rbind]; try (exists O; reflexivity); eexists; reflexivity.
  - destruct (f_opt f); cbn [rbind].
    + destruct (IH olds s vi ni) as [u ->]; auto. destruct (flat w its fs olds); cbn [rbind]; try (exists O; reflexivity); eexists; reflexivity.
    + destruct (select (scoped (f_type f)) (IdName (f_name f)) its) as [[j e]|]; [discriminate|]. exists O. reflexivity.
Qed.

Section Flat.
Variables (w : world) (G Fu : nat).
Hypothesis FG : (G <= Fu)%nat.
Variable pn : ct -> cv -> lnode -> rstate -> eprog (cv * lnode * rstate).
Variable df : ct -> cv -> doc -> rstate -> res (cv * rstate * nat).
Hypothesis PN : forall t old k ty its s, pn t old (pnode ty its) s = to_prog (pnode ty its) (df t old (DScope k ty its) s).

Lemma value_found k ty its al p j kv v rest :
  good G its -> nth_error its j = Some (DVal kv v) -> al j = true -> matches false (IdName k) (DVal kv v) = true ->
  (forall i x, (i < j)%nat -> al i = true -> nth_error its i = Some x -> matches false (IdName k) x = false) ->
  (forall i, (p <= i)%nat -> al i = true) -> (p <= length its)%nat ->
  exists c, erun (field_value Fu (IdName k) (unode ty (keep al 0 (firstn p its)))) (flat_map events (skipn p its) ++ ev_end :: rest) =
  Some (Ok ((v, c, unode ty (keep (less al j) 0 (firstn (Nat.max p (S j)) its))), flat_map events (skipn (Nat.max p (S j)) its) ++ ev_end :: rest)).
Proof.
  intros Gd Nj Aj M Before Al Lp. pose proof Gd as [Fi Hf].
  destruct (Nat.lt_ge_cases j p) as [Hj|Hj].
  - exists true. rewrite Nat.max_l by lia. assert (Nj' : nth_error (firstn p its) j = Some (DVal kv v)) by (rewrite nth_firstn by lia; exact Nj).
    destruct (keep_take al _ j _ Nj' Aj) as [E1 E2]. rewrite E1, E2.
    assert (Na : Forall (fun x => matches false (IdName k) x = false) (keep al 0 (firstn j (firstn p its)))).
    { apply keep_forall. intros x e Ax Ex. cbn [Nat.add] in Ax.
      assert (Hx : (x < j)%nat). { apply Nat.nlt_ge. intros C. assert (nth_error (firstn j (firstn p its)) x = None); [|congruence]. apply nth_error_None. rewrite !firstn_length. lia. }
      rewrite !nth_firstn in Ex by lia. eapply Before; eauto. }
    unfold field_value. change (l_parsed (unode ty (keep al 0 (firstn j (firstn p its)) ++ DVal kv v :: keep al (S j) (skipn (S j) (firstn p its))))) with false. cbv iota.
    rewrite take_stored_value by assumption. reflexivity.
  - exists false. rewrite Nat.max_r by lia.
    assert (Na : Forall (fun x => matches false (IdName k) x = false) (keep al 0 (firstn p its))).
    { apply keep_forall. intros x e Ax Ex. cbn [Nat.add] in Ax.
      assert (Hx : (x < p)%nat). { apply Nat.nlt_ge. intros C. assert (nth_error (firstn p its) x = None); [|congruence]. apply nth_error_None. rewrite !firstn_length. lia. }
      rewrite nth_firstn in Ex by lia. apply (Before x); auto. lia. }
    assert (Nj' : nth_error (skipn p its) (j - p) = Some (DVal kv v)) by (rewrite nth_skipn; replace (p + (j - p))%nat with j by lia; exact Nj).
    destruct (split_nth _ _ _ Nj') as [E1 E2]. set (r1 := firstn (j - p) (skipn p its)) in *. rewrite skipn_add in E1. replace (p + S (j - p))%nat with (S j) in E1 by lia.
    assert (Nr : Forall (fun x => matches false (IdName k) x = false) r1).
    { apply Forall_forall. intros x I. apply In_nth_error in I. destruct I as [i I].
      assert (Hi : (i < j - p)%nat) by (rewrite <- E2; apply nth_error_Some; congruence). unfold r1 in I. rewrite nth_firstn, nth_skipn in I by lia. apply (Before (p + i)%nat); auto; [lia|apply Al; lia]. }
    assert (Fr : Forall fine r1) by (unfold r1; apply forall_firstn, forall_skipn; exact Fi).
    assert (Fd : shaped (DVal kv v)) by (rewrite Forall_forall in Fi; apply Fi; eapply nth_error_In; eauto).
    assert (El : keep al 0 (firstn p its) ++ r1 = keep (less al j) 0 (firstn (S j) its)).
    { assert (E3 : firstn (S j) its = firstn p its ++ r1 ++ [DVal kv v]).
      { assert (Hj' : (j < length its)%nat) by (apply nth_error_Some; congruence).
        rewrite <- (firstn_skipn p its) at 1. rewrite E1, firstn_app, firstn_length, Nat.min_l by lia.
        rewrite firstn_all2 by (rewrite firstn_length; lia). f_equal. rewrite firstn_app, E2. replace (S j - p - (j - p))%nat with 1%nat by lia. cbn [firstn].
        rewrite firstn_all2 by (rewrite E2; lia). reflexivity. }
      rewrite E3, !keep_app, firstn_length, Nat.min_l, E2 by lia. cbn [Nat.add keep]. unfold less at 3. replace (p + (j - p))%nat with j by lia. rewrite Nat.eqb_refl, andb_false_r, app_nil_r.
      f_equal.
      - apply keep_ext. intros x Hx. rewrite firstn_length in Hx. unfold less. replace (Nat.eqb x j) with false by lia. now rewrite andb_true_r.
      - symmetry. rewrite <- (keep_all (fun _ => true) r1 p) at 2 by reflexivity. apply keep_ext. intros x Hx. rewrite E2 in Hx. unfold less. rewrite Al by lia. replace (Nat.eqb x j) with false by lia. reflexivity. }
    rewrite E1, flat_map_app. cbn [flat_map]. rewrite <- !app_assoc.
    assert (Lr : (length (flat_map events r1) < Fu)%nat).
    { pose proof (events_split p its) as E. rewrite E1, flat_map_app, app_length in E. lia. }
    unfold field_value. change (l_parsed (unode ty (keep al 0 (firstn p its)))) with false. cbv iota.
    rewrite take_read_value by assumption. rewrite erun_bind, erun_bind. rewrite scan_stop by auto. rewrite El. reflexivity.
Qed.
Lemma value_missing k ty its al p rest : good G its -> Forall (fun x => matches false (IdName k) x = false) its ->
  erun (field_value Fu (IdName k) (unode ty (keep al 0 (firstn p its)))) (flat_map events (skipn p its) ++ ev_end :: rest) = Some Err.
Proof.
  intros [Fi Hf] No. unfold field_value. change (l_parsed (unode ty (keep al 0 (firstn p its)))) with false. cbv iota.
  rewrite take_read_value.
  2:{ apply keep_forall. intros x e _ Ex. rewrite Forall_forall in No. apply No. eapply firstn_in, nth_error_In; eauto. }
  rewrite erun_bind, erun_bind, scan_end; [reflexivity|now apply forall_skipn|now apply forall_skipn|]. pose proof (events_split p its). lia.
Qed.

Lemma flat_read ty its rest : good G its -> forall fs olds s vi ni al p, Forall (fun f => 0 < zlen (f_name f)) fs -> NoDup (map f_name fs) -> all_values fs -> clear_options fs its ->
  (forall i x, al i = false -> nth_error its i = Some x -> ~ In (doc_name x) (map f_name fs)) -> (forall i, (p <= i)%nat -> al i = true) -> (p <= length its)%nat ->
  exists n' tail, erun (paste_fields w pn Fu fs olds (unode ty (keep al 0 (firstn p its))) s vi ni) (flat_map events (skipn p its) ++ ev_end :: rest) =
     outcome (let* vs := flat w its fs olds in Ok (vs, n', s)) tail.
Proof.
  intros Gd. induction fs as [|f fs IH]; intros olds s vi ni al p Nm Nd Av Cl Al Alp Lp; cbn [flat paste_fields].
  { do 2 eexists. reflexivity. }
  destruct olds as [|old olds]; [exists (unode ty []), []; reflexivity|]. inversion Nm as [|? ? N1 N2]; subst. inversion Av as [|? ? V1 V2]; subst. cbn [map] in Nd. inversion Nd as [|? ? Nd1 Nd2]; subst.
  assert (Al' : forall i x, al i = false -> nth_error its i = Some x -> ~ In (doc_name x) (map f_name fs)) by (intros i x A Nx C; apply (Al _ _ A Nx); now right).
  assert (Cl' : clear_options fs its) by (intros g d I; apply Cl; now right).
  replace (0 <? zlen (f_name f)) with true by lia. rewrite V1. set (k := f_name f) in *.
  assert (There : forall q j kd v, (p <= q <= length its)%nat -> nth_match (of_name false k) 0 its = Some (j, DVal kd v) ->
    exists n' tail, erun (ebind (paste_field w pn Fu (f_type f) (IdName k) old (unode ty (keep al 0 (firstn q its))) s) (fun r =>
              let '(v, n1, s1) := r in
              ebind (paste_fields w pn Fu fs olds n1 s1 (vi + 1) ni) (fun r =>
                let '(vs, n', s') := r in ERet (v :: vs, n', s')))) (flat_map events (skipn q its) ++ ev_end :: rest) =
      outcome (let* x := paste_value w (f_type f) old v in let* vs := flat w its fs olds in Ok (x :: vs, n', s)) tail).
  { intros q j kd v Hq M. pose proof (nth_match_0 _ _ _ _ M) as (Nj & Mj & Bj).
    assert (Nk : kd = k) by (unfold of_name in Mj; apply andb_prop in Mj; destruct Mj as [_ Mj]; now apply bytes_eqb_eq in Mj).
    assert (Aj : al j = true). { destruct (al j) eqn:A; [reflexivity|]. exfalso. apply (Al _ _ A Nj). left. symmetry. exact Nk. }
    destruct (value_found k ty its al q j kd v rest Gd Nj Aj) as [c R].
    { rewrite matches_name. exact Mj. }
    { intros i x Hi _ Nx. rewrite matches_name. eapply Bj; eauto. }
    { intros i Hi. apply Alp. lia. }
    { lia. }
    unfold paste_field. rewrite V1, erun_bind, erun_bind, R. cbn [fst snd].
    assert (Hj : (j < length its)%nat) by (apply nth_error_Some; congruence).
    destruct (paste_value w (f_type f) old v) as [x| |b|]; cbn [elift ebind erun rbind]; try (exists (unode ty []), []; reflexivity).
    destruct (IH olds s (vi + 1) ni (less al j) (Nat.max q (S j)) N2 Nd2 V2 Cl') as (n' & tail & R1).
    - intros i y A Nx. unfold less in A. destruct (al i) eqn:A2; [|now apply (Al' _ _ A2)]. cbn [andb] in A.
      assert (i = j) by (destruct (Nat.eqb_spec i j); [assumption|discriminate]). subst i. rewrite Nj in Nx. injection Nx as <-. cbn [doc_name]. rewrite Nk. exact Nd1.
    - intros i Hi. unfold less. rewrite Alp by lia. replace (Nat.eqb i j) with false by lia. reflexivity.
    - lia.
    - exists n', tail. rewrite erun_bind, R1. destruct (flat w its fs olds); reflexivity. }
  pose proof (select_find false k its) as E. unfold select in E. unfold item_for. rewrite V1. fold k. rewrite <- E. clear E.
  destruct (f_opt f) eqn:Op.
  - rewrite erun_bind. rewrite (lazy_has G Fu FG) by
      (auto; try discriminate; try (destruct (existsb (of_name (negb false) k) its) eqn:Ex; [|reflexivity]; exfalso; apply existsb_exists in Ex; destruct Ex as (d & I & Ed); unfold of_name in Ed; apply andb_prop in Ed;
        destruct Ed as [Ed1 Ed2]; apply eqb_prop in Ed1; apply bytes_eqb_eq in Ed2; exact (Cl f d (or_introl eq_refl) Op I Ed1 Ed2));
       intros i x A Nx C; apply (Al _ _ A Nx); left; symmetry; exact C).
    destruct (nth_match (of_name false k) 0 its) as [[j d]|] eqn:M; cbn [fst snd negb].
    + pose proof (nth_match_0 _ _ _ _ M) as (Nj & Mj & _). destruct d as [kd v|]; [|cbn in Mj; discriminate].
      assert (Hj : (j < length its)%nat) by (apply nth_error_Some; congruence).
      destruct (There (Nat.max p (S j)) j kd v) as (n' & tail & R1); auto; [lia|]. exists n', tail. rewrite R1. now destruct (paste_value w (f_type f) old v), (flat w its fs olds).
    + cbn [rbind]. rewrite (eager_fields w Fu pn df PN). destruct (flat_eager w df (keep al 0 its) fs olds s vi ni N2 V2) as [u ->]. rewrite flat_keep by exact Al'.
      exists (pnode ty (keep al 0 its)), rest. destruct (flat w its fs olds); reflexivity.
  - cbn [ebind fst snd negb]. destruct (nth_match (of_name false k) 0 its) as [[j d]|] eqn:M.
    + pose proof (nth_match_0 _ _ _ _ M) as (Nj & Mj & _). destruct d as [kd v|]; [|cbn in Mj; discriminate].
      destruct (There p j kd v) as (n' & tail & R1); auto. exists n', tail. rewrite R1. now destruct (paste_value w (f_type f) old v), (flat w its fs olds).
    + exists (unode ty []), []. unfold paste_field. rewrite V1, erun_bind, erun_bind, value_missing; [reflexivity|exact Gd|].
      apply nth_match_none in M. eapply Forall_impl; [|exact M]. intros x Hx. rewrite matches_name. exact Hx.
Qed.
End Flat.

Theorem flat_restore F w c k ty its olds : deep_enough (DScope k ty its) -> named_class (w_cls w c) -> all_values (w_cls w c) -> clear_options (w_cls w c) its ->
  (S (length (events (DScope k ty its))) <= F)%nat ->
  exists tail, erun (restore_prog F w (CCls c) (VList olds)) (events (DScope k ty its)) = outcome (let* vs := flat w its (w_cls w c) olds in Ok (VList vs, rs_new)) tail.
Proof.
  intros De [Nm Nd] Av Cl HF. pose proof (good_doc _ _ _ De) as Gd. destruct De as (Sh & _ & D). apply shaped_scope in Sh. destruct Sh as [T Sh].
  destruct F as [|F]; [lia|]. unfold restore_prog. cbn [events erun]. change (v_type (val_type ty)) with ty. rewrite T. cbn [negb]. change (scoped (CCls c)) with true. cbv iota.
  rewrite erun_bind. cbn [paste_node paste_step]. change (n_type (l_node (mkL false (empty_node ty)))) with ty. rewrite T. cbn [negb]. rewrite erun_bind.
  change (mkL false (empty_node ty)) with (unode ty (keep (fun _ => true) 0 (firstn 0 its))). change (flat_map events its ++ [ev_end]) with (flat_map events (skipn 0 its) ++ [ev_end]).
  destruct (flat_read w (length (events (DScope k ty its))) F ltac:(lia) (paste_node F w) (said F w false) (fun t old k ty its s => eager_said F w t old k ty its s) ty its [] Gd (w_cls w c) olds rs_new 0 0 (fun _ => true) 0) as (n' & tail & R); auto; try lia; try discriminate.
  rewrite R. exists tail. destruct (flat w its (w_cls w c) olds); reflexivity.
Qed.
Theorem flat_tree F w c k ty its olds s : is_scope ty = true -> named_class (w_cls w c) -> all_values (w_cls w c) ->
  unwrap_prog (S F) w (CCls c) (VList olds) (doc_node (DScope k ty its)) s = elift (let* vs := flat w its (w_cls w c) olds in Ok (VList vs, s)).
Proof.
  intros T [Nm _] Av. rewrite doc_node_eq, (eager_says _ w _ _ k). f_equal. unfold says. change (scoped (CCls c)) with true. cbv iota. cbn [said dstep]. rewrite T. cbn [negb].
  destruct (flat_eager w (said F w false) its (w_cls w c) olds s 0 0 Nm Av) as [u ->]. destruct (flat w its (w_cls w c) olds); reflexivity.
Qed.

Lemma ecomp_block_ub {St R} (rd : St -> prog (St * event)) u : forall n (p : eprog R) st b st' es b',
  run_block (read_events rd n st) b = Ok ((st', es), b') -> erun p es = Some (UB u) -> run_block (ecomp rd p st) b = UB u.
Proof.
  induction n as [|n IH]; intros p st b st' es b' E Hp; cbn [read_events] in E.
  - cbn [run_block] in E. injection E as <- <- <-. destruct p; cbn [erun] in Hp; try discriminate. injection Hp as <-. reflexivity.
  - rewrite run_block_bind in E. destruct (run_block (rd st) b) as [[[st1 e] b1]| | |] eqn:E1; try discriminate E. cbn [rbind] in E.
    rewrite run_block_bind in E. destruct (run_block (read_events rd n st1) b1) as [[[st2 es2] b2]| | |] eqn:E2; try discriminate E.
    cbn [rbind run_block] in E. injection E as <- <- <-. destruct p as [r0| |u0| |k]; cbn [erun] in Hp; try discriminate; [injection Hp as <-; reflexivity|].
    cbn [ecomp]. rewrite run_block_bind, E1. cbn [rbind]. eapply IH; eauto.
Qed.
(** a document in an input, and a program that does not use all of it: all outcomes *)
Lemma holds_outcome {R} x F q b d (pr : eprog R) (r : res R) tail : holds x F q b d -> erun pr (events d) = outcome r tail ->
  match r with
  | Ok a => exists q' b', run_block (with_parser x F q pr) b = Ok ((q', a), b')
  | Err => run_block (with_parser x F q pr) b = Err
  | UB u => run_block (with_parser x F q pr) b = UB u
  | Fuel => True
  end.
Proof.
  intros H E. destruct r as [a| |u|]; unfold outcome in E; [exact (holds_run _ _ _ _ _ _ _ _ H E)| | |exact I]; destruct H as (q1 & b1 & H).
  - assert (G : forall {St} (rd : St -> prog (St * event)) (mk : St -> parser) st,
     run_block (let! (st', es) := read_events rd (length (events d)) st in Ret (mk st', es)) b = Ok ((q1, events d), b1) ->
     run_block (let! (st', r) := ecomp rd pr st in Ret (mk st', r)) b = Err).
    { intros St rd mk st H1. rewrite run_block_bind in *. destruct (run_block (read_events rd (length (events d)) st) b) as [[[st' es] b']| | |] eqn:H2; try discriminate.
      cbn [rbind run_block] in H1. injection H1 as _ -> _. now rewrite (ecomp_block_err rd _ _ _ _ _ _ _ H2 E). }
    unfold parse_items in H. unfold with_parser. destruct (parser_clear q); now apply G.
  - assert (G : forall {St} (rd : St -> prog (St * event)) (mk : St -> parser) st,
     run_block (let! (st', es) := read_events rd (length (events d)) st in Ret (mk st', es)) b = Ok ((q1, events d), b1) ->
     run_block (let! (st', r) := ecomp rd pr st in Ret (mk st', r)) b = UB u).
    { intros St rd mk st H1. rewrite run_block_bind in *. destruct (run_block (read_events rd (length (events d)) st) b) as [[[st' es] b']| | |] eqn:H2; try discriminate.
      cbn [rbind run_block] in H1. injection H1 as _ -> _. now rewrite (ecomp_block_ub rd _ _ _ _ _ _ _ _ H2 E). }
    unfold parse_items in H. unfold with_parser. destruct (parser_clear q); now apply G.
Qed.
Theorem flat_direct F w q b c d olds : holds (w_fp w) F q b d -> deep_enough d -> named_class (w_cls w c) -> all_values (w_cls w c) -> clear_options (w_cls w c) (items d) ->
  (S (length (events d)) <= F)%nat ->
  match flat w (items d) (w_cls w c) olds with
  | Ok vs => exists q' b', run_block (restore_object (w_fp w) F w q (CCls c) (VList olds)) b = Ok ((q', (VList vs, rs_new)), b')
  | Err => run_block (restore_object (w_fp w) F w q (CCls c) (VList olds)) b = Err
  | UB u => run_block (restore_object (w_fp w) F w q (CCls c) (VList olds)) b = UB u
  | Fuel => True
  end.
Proof.
  intros H De Nc Av Cl HF. destruct d as [|k ty its]; [destruct De as (_ & C & _); discriminate|]. destruct (flat_restore F w c k ty its olds De Nc Av Cl HF) as [tail E].
  pose proof (holds_outcome _ _ _ _ _ _ _ _ H E) as X. unfold restore_object. cbn [items]. destruct (flat w its (w_cls w c) olds); exact X.
Qed.
