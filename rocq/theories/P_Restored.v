(** Restoring from a tree, item by item (S_Restored). *)
From Coq Require Import ZArith List Bool Lia ZifyBool ZifyNat Sorted.
From Verif Require Import Base Lemmas M_Types S_Doc M_Tree S_Tree P_Tree M_Object S_Object S_Restored P_ObjEager P_ObjLazy.
Import ListNotations.
Open Scope Z_scope.

(** * Looking up *)
Lemma select_find sc k its : match select sc (IdName k) its with Some (_, d) => Some d | None => None end = find (fun d => Bool.eqb (is_sc d) sc && bytes_eqb (doc_name d) k) its.
Proof.
  unfold select. induction its as [|d its IH]; [reflexivity|]. cbn [nth_match find]. unfold of_name at 1.
  destruct (Bool.eqb (is_sc d) sc && bytes_eqb (doc_name d) k); [reflexivity|]. rewrite <- IH. now destruct (nth_match (of_name sc k) 0 its) as [[j e]|].
Qed.
Lemma existsb_find sc k its : existsb (of_name sc k) its = match find (fun d => Bool.eqb (is_sc d) sc && bytes_eqb (doc_name d) k) its with Some _ => true | None => false end.
Proof. induction its as [|d its IH]; [reflexivity|]. cbn [existsb find]. unfold of_name at 1. destruct (_ && _); [reflexivity|exact IH]. Qed.
Lemma find_kind t k its d : item_for t k its = Some d -> is_sc d = scoped t.
Proof. unfold item_for. intros H. apply find_some in H. destruct H as [_ H]. apply andb_prop in H. now apply eqb_prop. Qed.
Lemma kind_for t its : kind_items (scoped t) its = items_for t its.
Proof. reflexivity. Qed.

Lemma elift_ret {A} (r : res A) a : elift r = ERet a <-> r = Ok a.
Proof. destruct r; cbn [elift]; split; intros H; try discriminate; congruence. Qed.

Section One.
Variables (F : nat) (w : world).
Notation dn := (said F w false).

Lemma made_child t old d s v s' : is_sc d = scoped t -> (dchild w false dn t old d s = Ok (v, s') <-> made F w t old d s v s').
Proof.
  destruct d as [k x|k ty its]; intros K; unfold dchild, made.
  - destruct (paste_value w t old x); cbn [rbind]; split; intros H; try discriminate; try (destruct H as [H Hs]; discriminate H).
    + injection H as -> ->. now split.
    + destruct H as [[= ->] ->]. reflexivity.
  - rewrite doc_node_eq, (eager_says F w t old k), elift_ret. unfold says. cbn [is_sc] in K. rewrite <- K. unfold quiet. cbn [negb orb].
    destruct (dn t old (DScope k ty its) s) as [[[v0 s0] u]| | |]; cbn [rbind]; split; intros H; try discriminate; exact H.
Qed.
Lemma made_field t k old its s v s' : (exists u, dfield w false dn t (IdName k) old its s = Ok (v, s', u)) <-> exists d, item_for t k its = Some d /\ made F w t old d s v s'.
Proof.
  unfold dfield. pose proof (select_find (scoped t) k its) as E. fold (item_for t k its) in E. destruct (select (scoped t) (IdName k) its) as [[j d]|].
  - rewrite <- E. pose proof (find_kind t k its d (eq_sym E)) as K. split.
    + intros [u H]. exists d. split; [reflexivity|]. apply made_child; [exact K|]. destruct (dchild w false dn t old d s) as [[v0 s0]| | |]; cbn [rbind] in H; try discriminate. now injection H as -> -> _.
    + intros (e & [= <-] & M). apply made_child in M; [|exact K]. rewrite M. cbn [rbind]. eauto.
  - rewrite <- E. split; [intros [u H]; discriminate|intros (d & H & _); discriminate].
Qed.
Lemma members_said its : forall fs olds s vi ni vs s', Forall (fun f => 0 < zlen (f_name f)) fs ->
  ((exists u, dfields w false dn fs olds its s vi ni = Ok (vs, s', u)) <-> members F w its fs olds s vs s').
Proof.
  induction fs as [|f fs IH]; intros olds s vi ni vs s' Nm.
  - cbn [dfields]. split; [intros [u H]; injection H as <- <- _; constructor|]. intros H. inversion H; subst. eauto.
  - inversion Nm as [|? ? N1 N2]; subst. destruct olds as [|old olds]; cbn [dfields]; [split; [intros [u H]; discriminate|intros H; inversion H]|].
    rewrite andb_false_r. cbn [andb]. replace (0 <? zlen (f_name f)) with true by lia. rewrite existsb_find. fold (item_for (f_type f) (f_name f) its).
    assert (PR : forall d, item_for (f_type f) (f_name f) its = Some d ->
      ((exists u, (let* (v, s1, u1) := dfield w false dn (f_type f) (IdName (f_name f)) old its s in
        let* (vs, s2, u2) := dfields w false dn fs olds its s1 (if scoped (f_type f) then vi else vi + 1) (if scoped (f_type f) then ni + 1 else ni) in
        Ok (v :: vs, s2, Nat.max u1 u2)) = Ok (vs, s', u)) <-> members F w its (f :: fs) (old :: olds) s vs s')).
    { intros d E. split.
      - intros [u H]. destruct (dfield w false dn (f_type f) (IdName (f_name f)) old its s) as [[[v s1] u1]| | |] eqn:D; cbn [rbind] in H; try discriminate.
        destruct (dfields w false dn fs olds its s1 _ _) as [[[vs2 s2] u2]| | |] eqn:D2; cbn [rbind] in H; try discriminate. injection H as <- <- _.
        destruct (proj1 (made_field (f_type f) (f_name f) old its s v s1) (ex_intro _ u1 D)) as (d' & E' & M). eapply member_there; eauto.
        eapply IH; eauto.
      - intros M. inversion M as [|? ? ? ? d' ? v s1 vs2 ? E' M1 M2|]; subst; [|congruence].
        destruct (proj2 (made_field (f_type f) (f_name f) old its s v s1) (ex_intro _ d' (conj E' M1))) as [u1 ->]. cbn [rbind].
        eapply IH in M2; [|assumption]. destruct M2 as [u2 ->]. cbn [rbind]. eauto. }
    destruct (item_for (f_type f) (f_name f) its) as [d|] eqn:E; cbn [negb]; rewrite ?andb_false_r, ?andb_true_r.
    + now apply (PR d).
    + destruct (f_opt f) eqn:O.
      * split.
        -- intros [u H]. destruct (dfields w false dn fs olds its s vi ni) as [[[vs2 s2] u2]| | |] eqn:D2; cbn [rbind] in H; try discriminate. injection H as <- <- _.
           apply member_absent; auto. eapply IH; eauto.
        -- intros M. inversion M as [|? ? ? ? d' ? v s1 vs2 ? E' M1 M2|? ? ? ? ? ? ? E' O' M2]; subst; [congruence|].
           eapply IH in M2; [|assumption]. destruct M2 as [u2 ->]. cbn [rbind]. eauto.
      * split.
        -- intros [u H]. destruct (dfield w false dn (f_type f) (IdName (f_name f)) old its s) as [[[v s1] u1]| | |] eqn:D; cbn [rbind] in H; try discriminate.
           destruct (proj1 (made_field (f_type f) (f_name f) old its s v s1) (ex_intro _ u1 D)) as (d' & E' & M). congruence.
        -- intros M. inversion M as [|? ? ? ? d' ? v s1 vs2 ? E' M1 M2|? ? ? ? ? ? ? E' O' M2]; subst; congruence.
Qed.

Lemma elements_said {B} (add : cv -> B -> B) t : forall its acc s r s', Forall (fun d => is_sc d = scoped t) its ->
  (deach (delem w false dn add t) its acc s = Ok (r, s') <-> exists vs, elements F w t its s vs s' /\ r = fold_left (fun a v => add v a) vs acc).
Proof.
  induction its as [|d its IH]; intros acc s r s' K; cbn [deach].
  - split; [intros [= <- <-]; exists []; split; [constructor|reflexivity]|]. intros (vs & M & ->). inversion M; subst. reflexivity.
  - inversion K as [|? ? K1 K2]; subst. unfold delem at 1. split.
    + intros H. destruct (dchild w false dn t (w_new w t) d s) as [[v s1]| | |] eqn:C; cbn [rbind] in H; try discriminate.
      apply IH in H; [|assumption]. destruct H as (vs & M & ->). exists (v :: vs). split; [|reflexivity]. econstructor; [|exact M]. now apply made_child.
    + intros (vs & M & ->). inversion M as [|? ? ? v s1 vs2 ? M1 M2]; subst. apply made_child in M1; [|assumption]. rewrite M1. cbn [rbind].
      apply IH; [assumption|]. exists vs2. now split.
Qed.
Lemma table_said t : forall its acc s r s', Forall (fun d => is_sc d = scoped t) its ->
  (deach (dtab w false dn t) its acc s = Ok (r, s') <-> exists vs, elements F w t its s vs s' /\ r = fold_left (fun a q => tab_insert (fst q) (snd q) a) (combine (map doc_name its) vs) acc).
Proof.
  induction its as [|d its IH]; intros acc s r s' K; cbn [deach].
  - split; [intros [= <- <-]; exists []; split; [constructor|reflexivity]|]. intros (vs & M & ->). inversion M; subst. reflexivity.
  - inversion K as [|? ? K1 K2]; subst. unfold dtab at 1. split.
    + intros H. destruct (dchild w false dn t (w_new w t) d s) as [[v s1]| | |] eqn:C; cbn [rbind] in H; try discriminate.
      apply IH in H; [|assumption]. destruct H as (vs & M & ->). exists (v :: vs). split; [|reflexivity]. econstructor; [|exact M]. now apply made_child.
    + intros (vs & M & ->). inversion M as [|? ? ? v s1 vs2 ? M1 M2]; subst. apply made_child in M1; [|assumption]. rewrite M1. cbn [rbind].
      apply IH; [assumption|]. exists vs2. now split.
Qed.
Lemma entries_said k e : forall its acc s r s',
  (deach (dentry w false dn k e) its acc s = Ok (r, s') <-> exists l, entries F w k e its s l s' /\ r = fold_left (fun a q => emplace (w_lt w) fst q a) l acc).
Proof.
  induction its as [|d its IH]; intros acc s r s'; cbn [deach].
  - split; [intros [= <- <-]; exists []; split; [constructor|reflexivity]|]. intros (vs & M & ->). inversion M; subst. reflexivity.
  - unfold dentry at 1. unfold quiet. cbn [negb orb]. split.
    + intros H. destruct (dfield w false dn k (IdName str_key) (w_new w k) (items d) s) as [[[a s1] u1]| | |] eqn:C1; cbn [rbind] in H; try discriminate.
      destruct (dfield w false dn e (IdName str_value) (w_new w e) (items d) s1) as [[[b s2] u2]| | |] eqn:C2; cbn [rbind] in H; try discriminate.
      apply IH in H. destruct H as (l & M & ->). exists ((a, b) :: l). split; [|reflexivity].
      destruct (proj1 (made_field _ _ _ _ _ _ _) (ex_intro _ u1 C1)) as (dk & E1 & M1). destruct (proj1 (made_field _ _ _ _ _ _ _) (ex_intro _ u2 C2)) as (dv & E2 & M2). econstructor; eauto.
    + intros (l & M & ->). inversion M as [|? ? ? dk a s1 dv b s2 l2 ? E1 M1 E2 M2 M3]; subst.
      destruct (proj2 (made_field k str_key (w_new w k) (items d) s a s1) (ex_intro _ dk (conj E1 M1))) as [u1 ->].
      destruct (proj2 (made_field e str_value (w_new w e) (items d) s1 b s2) (ex_intro _ dv (conj E2 M2))) as [u2 C2]. cbn [rbind]. rewrite C2. cbn [rbind].
      apply IH. exists l2. now split.
Qed.
Lemma array_said t : forall olds its s vs s', length its = length olds -> Forall (fun d => is_sc d = scoped t) its ->
  (darray w false dn t olds its s = Ok (vs, s') <-> array_elements F w t olds its s vs s').
Proof.
  induction olds as [|old olds IH]; intros [|d its] s vs s' L K; try discriminate L; cbn [darray].
  - split; [intros [= <- <-]; constructor|]. intros M. inversion M; subst. reflexivity.
  - inversion K as [|? ? K1 K2]; subst. injection L as L. split.
    + intros H. destruct (dchild w false dn t old d s) as [[v s1]| | |] eqn:C; cbn [rbind] in H; try discriminate.
      destruct (darray w false dn t olds its s1) as [[vs2 s2]| | |] eqn:D; cbn [rbind] in H; try discriminate. injection H as <- <-.
      econstructor; [apply made_child; eauto|]. now apply IH.
    + intros M. inversion M as [|? ? ? ? ? v s1 vs2 ? M1 M2]; subst. apply made_child in M1; [|assumption]. rewrite M1. cbn [rbind]. apply IH in M2; [|assumption..]. rewrite M2. reflexivity.
Qed.
End One.

(** * Containers *)
Lemma find_app {A} (p : A -> bool) l l' : find p (l ++ l') = match find p l with Some x => Some x | None => find p l' end.
Proof. induction l as [|x l IH]; cbn [app find]; [reflexivity|]. now destruct (p x). Qed.
Lemma table_first : forall l acc, NoDup (map fst acc) ->
  let r := fold_left (fun a q => tab_insert (fst q) (snd q) a) l acc in
  NoDup (map fst r) /\ forall k, find (fun q => bytes_eqb (fst q) k) r = find (fun q : bytes * cv => bytes_eqb (fst q) k) (acc ++ l).
Proof.
  induction l as [|[k v] l IH]; intros acc N; cbn [fold_left].
  - split; [exact N|]. intros k. now rewrite app_nil_r.
  - cbn [fst snd]. destruct (existsb (fun q => bytes_eqb (fst q) k) acc) eqn:E; unfold tab_insert at 2 4; rewrite E.
    + destruct (IH acc N) as [A B]. split; [exact A|]. intros j. rewrite B, !find_app. cbn [find fst]. destruct (find (fun q => bytes_eqb (fst q) j) acc) eqn:Fj; [reflexivity|].
      destruct (bytes_eqb_spec k j) as [->|_]; [|reflexivity]. apply existsb_exists in E. destruct E as (x & I & Ex). pose proof (find_none _ _ Fj x I) as C. cbn beta in C. congruence.
    + assert (K : ~ In k (map fst acc)).
      { intros I. apply in_map_iff in I. destruct I as (x & <- & I). assert (existsb (fun q => bytes_eqb (fst q) (fst x)) acc = true); [|congruence].
        apply existsb_exists. exists x. split; [exact I|apply bytes_eqb_refl]. }
      destruct (IH (acc ++ [(k, v)])) as [A B].
      { rewrite map_app. cbn [map fst]. apply NoDup_rev in N. rewrite <- (rev_involutive (map fst acc ++ [k])). apply NoDup_rev. rewrite rev_app_distr. cbn [rev app].
        constructor; [|exact N]. rewrite <- in_rev. exact K. }
      split; [exact A|]. intros j. rewrite B, <- app_assoc. reflexivity.
Qed.

Section Order.
Variable lt : cv -> cv -> bool.
Variable P : cv -> Prop.
Hypothesis WO : weak_order P lt.
Lemma equiv_lt k a x : P k -> P a -> P x -> equiv lt k a = true -> lt a x = true -> lt k x = true.
Proof.
  destruct WO as (Ir & Tr & Eq). intros Pk Pa Px E L. destruct (lt k x) eqn:Kx; [reflexivity|]. exfalso. unfold equiv in E. apply andb_prop in E. destruct E as [E1 E2].
  destruct (lt x k) eqn:Xk; [rewrite (Tr _ _ _ Pa Px Pk L Xk) in E2; discriminate|].
  assert (C : equiv lt a x = true). { apply (Eq a k x); auto; unfold equiv; [now rewrite E1, E2|now rewrite Kx, Xk]. }
  unfold equiv in C. rewrite L in C. discriminate.
Qed.
Lemma emplace_first {A} (key : A -> cv) a : P (key a) -> forall l, Forall (fun x => P (key x)) l -> StronglySorted (fun x y => lt (key x) (key y) = true) l ->
  StronglySorted (fun x y => lt (key x) (key y) = true) (emplace lt key a l) /\
  (forall x, In x (emplace lt key a l) -> x = a \/ In x l) /\
  forall k, P k -> find (fun x => equiv lt k (key x)) (emplace lt key a l) = find (fun x => equiv lt k (key x)) (l ++ [a]).
Proof.
  intros Pa. pose proof WO as (Ir & Tr & Eq). induction l as [|b l IH]; intros Pl S; cbn [emplace app].
  - split; [repeat constructor|]. split; [intros x [<-|[]]; now left|reflexivity].
  - inversion S as [|? ? S1 S2]; inversion Pl as [|? ? Pb Pl']; subst. destruct (IH Pl' S1) as (I1 & I2 & I3). destruct (lt (key a) (key b)) eqn:Lab.
    + assert (All : forall y, In y (b :: l) -> lt (key a) (key y) = true).
      { rewrite Forall_forall in S2, Pl'. intros y [<-|Iy]; [exact Lab|]. apply (Tr (key a) (key b) (key y)); auto. }
      split; [constructor; [exact S|now apply Forall_forall]|]. split; [intros x [<-|I]; [now left|now right]|]. intros k Pk. change (b :: l ++ [a]) with ((b :: l) ++ [a]). rewrite find_app.
      change (find (fun x => equiv lt k (key x)) (a :: b :: l)) with (if equiv lt k (key a) then Some a else find (fun x => equiv lt k (key x)) (b :: l)).
      change (find (fun x => equiv lt k (key x)) [a]) with (if equiv lt k (key a) then Some a else None).
      destruct (equiv lt k (key a)) eqn:Ka.
      * replace (find (fun x => equiv lt k (key x)) (b :: l)) with (@None A); [reflexivity|]. symmetry.
        destruct (find (fun x => equiv lt k (key x)) (b :: l)) as [y|] eqn:Fy; [|reflexivity]. apply find_some in Fy. destruct Fy as [Iy Ey].
        assert (Py : P (key y)) by (rewrite Forall_forall in Pl; now apply Pl).
        pose proof (equiv_lt k (key a) (key y) Pk Pa Py Ka (All y Iy)) as C. unfold equiv in Ey. rewrite C in Ey. discriminate.
      * now destruct (find _ (b :: l)).
    + destruct (lt (key b) (key a)) eqn:Lba.
      * split.
        { constructor; [exact I1|]. apply Forall_forall. intros x I. destruct (I2 x I) as [->|J]; [exact Lba|]. rewrite Forall_forall in S2. now apply S2. }
        split; [intros x [<-|I]; [right; now left|destruct (I2 x I); [now left|right; now right]]|].
        intros k Pk. cbn [find]. now rewrite I3.
      * split; [exact S|]. split; [intros x I; now right|]. intros k Pk. change (b :: l ++ [a]) with ((b :: l) ++ [a]). rewrite find_app.
        change (find (fun x => equiv lt k (key x)) [a]) with (if equiv lt k (key a) then Some a else None).
        destruct (find (fun x => equiv lt k (key x)) (b :: l)) eqn:Fb; [reflexivity|]. destruct (equiv lt k (key a)) eqn:Ka; [|reflexivity].
        assert (C : equiv lt k (key b) = true) by (apply (Eq k (key a) (key b)); auto; unfold equiv; now rewrite Lab, Lba).
        pose proof (find_none _ _ Fb b (or_introl eq_refl)) as D. cbn beta in D. congruence.
Qed.
Lemma emplaced_first {A} (key : A -> cv) : forall l acc, Forall (fun x => P (key x)) l -> Forall (fun x => P (key x)) acc -> StronglySorted (fun x y => lt (key x) (key y) = true) acc ->
  let r := fold_left (fun s a => emplace lt key a s) l acc in
  StronglySorted (fun x y => lt (key x) (key y) = true) r /\ forall k, P k -> find (fun x => equiv lt k (key x)) r = find (fun x => equiv lt k (key x)) (acc ++ l).
Proof.
  induction l as [|a l IH]; intros acc Pl Pc S; cbn [fold_left].
  - split; [exact S|]. intros k _. now rewrite app_nil_r.
  - inversion Pl as [|? ? Pa Pl']; subst. destruct (emplace_first key a Pa acc Pc S) as (A1 & A2 & A3).
    assert (Pc' : Forall (fun x => P (key x)) (emplace lt key a acc)). { apply Forall_forall. rewrite Forall_forall in Pc. intros x I. destruct (A2 x I) as [->|J]; auto. }
    destruct (IH _ Pl' Pc' A1) as [B1 B2]. split; [exact B1|]. intros k Pk. rewrite B2, find_app, A3, <- find_app, <- app_assoc by exact Pk. reflexivity.
Qed.
End Order.

(** * The statements *)
Lemma unwrap_scoped F w t old d s v s' : is_sc d = true -> scoped t = true ->
  (unwrap_prog F w t old (doc_node d) s = ERet (v, s') <-> exists u, said F w false t old d s = Ok (v, s', u)).
Proof.
  destruct d as [|k ty its]; [discriminate|]. intros _ St. rewrite doc_node_eq, (eager_says F w t old k), elift_ret. unfold says. rewrite St.
  destruct (said F w false t old (DScope k ty its) s) as [[[v0 s0] u]| | |]; cbn [rbind]; split; intros H; try discriminate; try (destruct H as [u0 H]; discriminate H).
  - injection H as -> ->. eauto.
  - destruct H as [u' H]. now injection H as -> -> _.
Qed.
Lemma class_members F w c k ty its olds s vs s' : is_scope ty = true -> named_class (w_cls w c) ->
  (unwrap_prog (S F) w (CCls c) (VList olds) (doc_node (DScope k ty its)) s = ERet (VList vs, s') <-> members F w its (w_cls w c) olds s vs s').
Proof.
  intros T [Nm _]. rewrite unwrap_scoped by reflexivity. cbn [said dstep]. rewrite T. cbn [negb]. rewrite <- (members_said F w its _ olds s 0 0 vs s' Nm). split; intros [u H].
  - destruct (dfields w false (said F w false) (w_cls w c) olds its s 0 0) as [[[vs2 s2] u2]| | |]; cbn [rbind] in H; try discriminate. injection H as -> -> _. eauto.
  - rewrite H. cbn [rbind]. eauto.
Qed.
Lemma class_never_other F w c k ty its old s v s' : unwrap_prog F w (CCls c) old (doc_node (DScope k ty its)) s = ERet (v, s') -> exists olds vs, old = VList olds /\ v = VList vs.
Proof.
  intros H. apply unwrap_scoped in H; try reflexivity. destruct H as [u H]. destruct F as [|F]; [discriminate|]. cbn [said dstep] in H. destruct (negb (is_scope ty)); [discriminate|].
  destruct old; try discriminate. destruct (dfields w false (said F w false) (w_cls w c) vs its s 0 0) as [[[vs2 s2] u2]| | |]; cbn [rbind] in H; try discriminate. injection H as <- _ _. eauto.
Qed.
Lemma kinds t its : Forall (fun d => is_sc d = scoped t) (items_for t its).
Proof. unfold items_for. apply Forall_forall. intros d I. apply filter_In in I. destruct I as [_ I]. now apply eqb_prop. Qed.
Lemma seq_elements F w t k ty its old s vs s' : is_scope ty = true ->
  (unwrap_prog (S F) w (CSeq t) old (doc_node (DScope k ty its)) s = ERet (VList vs, s') <-> elements F w t (items_for t its) s vs s').
Proof.
  intros T. rewrite unwrap_scoped by reflexivity. cbn [said dstep]. rewrite T. cbn [negb]. rewrite kind_for.
  assert (FA : forall vs acc : list cv, fold_left (fun a v => a ++ [v]) vs acc = acc ++ vs).
  { intros l. induction l as [|x l IH]; intros acc; cbn [fold_left]; [now rewrite app_nil_r|]. now rewrite IH, <- app_assoc. }
  pose proof (fun r => elements_said F w (fun v acc => acc ++ [v]) t (items_for t its) [] s r s' (kinds t its)) as E.
  destruct (deach _ (items_for t its) [] s) as [[r s2]| | |] eqn:D; cbn [rbind].
  - split.
    + intros [u H]. injection H as -> -> _. destruct (proj1 (E vs) eq_refl) as (vs2 & M & Ev). rewrite FA in Ev. cbn [app] in Ev. now subst.
    + intros M. specialize (proj2 (E vs) (ex_intro _ vs (conj M (eq_sym (FA vs []))))) as X. injection X as -> ->. eauto.
  - split; [intros [u H]; discriminate|]. intros M. specialize (proj2 (E vs) (ex_intro _ vs (conj M (eq_sym (FA vs []))))) as X. discriminate.
  - split; [intros [u' H]; discriminate|]. intros M. specialize (proj2 (E vs) (ex_intro _ vs (conj M (eq_sym (FA vs []))))) as X. discriminate.
  - split; [intros [u' H]; discriminate|]. intros M. specialize (proj2 (E vs) (ex_intro _ vs (conj M (eq_sym (FA vs []))))) as X. discriminate.
Qed.
Lemma table_elements F w t k ty its old s v s' : unwrap_prog (S F) w (CTab t) old (doc_node (DScope k ty its)) s = ERet (v, s') ->
  ty = TObject /\ exists l vs, v = VTab l /\ elements F w t (items_for t its) s vs s' /\ first_counts (combine (map doc_name (items_for t its)) vs) l.
Proof.
  rewrite unwrap_scoped by reflexivity. cbn [said dstep]. intros [u H]. destruct (ty_eqb ty TObject) eqn:T; cbn [negb] in H; [|discriminate]. split; [now destruct ty|].
  destruct (deach _ (kind_items (scoped t) its) [] s) as [[r s2]| | |] eqn:D; cbn [rbind] in H; try discriminate. injection H as <- <- _.
  apply table_said in D; [|apply kinds]. destruct D as (vs & M & ->). exists (fold_left (fun a q => tab_insert (fst q) (snd q) a) (combine (map doc_name (items_for t its)) vs) []), vs.
  split; [reflexivity|]. split; [exact M|]. apply (table_first _ []). constructor.
Qed.
Lemma set_elements F w t k ty its old s v s' : unwrap_prog (S F) w (CSet t) old (doc_node (DScope k ty its)) s = ERet (v, s') ->
  exists l vs, v = VList l /\ elements F w t (items_for t its) s vs s' /\ ordered_first (w_lt w) (fun x => x) vs l.
Proof.
  rewrite unwrap_scoped by reflexivity. cbn [said dstep]. intros [u H]. destruct (is_scope ty) eqn:T; cbn [negb] in H; [|discriminate].
  destruct (deach _ (kind_items (scoped t) its) [] s) as [[r s2]| | |] eqn:D; cbn [rbind] in H; try discriminate. injection H as <- <- _.
  apply elements_said in D; [|apply kinds]. destruct D as (vs & M & ->). exists (fold_left (fun a v => emplace (w_lt w) (fun v => v) v a) vs []), vs.
  split; [reflexivity|]. split; [exact M|]. intros P WO Pl. apply (emplaced_first _ P WO (fun x => x) vs []); auto; constructor.
Qed.
Lemma map_entries F w a b k ty its old s v s' : unwrap_prog (S F) w (CMap a b) old (doc_node (DScope k ty its)) s = ERet (v, s') ->
  exists l xs, v = VMap l /\ entries F w a b (filter is_sc its) s xs s' /\ ordered_first (w_lt w) fst xs l.
Proof.
  rewrite unwrap_scoped by reflexivity. cbn [said dstep]. intros [u H]. destruct (is_scope ty) eqn:T; cbn [negb] in H; [|discriminate].
  assert (K : kind_items true its = filter is_sc its). { unfold kind_items. apply filter_ext. intros d. unfold of_kind. now destruct (is_sc d). }
  rewrite K in H. destruct (deach _ (filter is_sc its) [] s) as [[r s2]| | |] eqn:D; cbn [rbind] in H; try discriminate. injection H as <- <- _.
  apply entries_said in D. destruct D as (l & M & ->). do 2 eexists. split; [reflexivity|]. split; [exact M|]. intros P WO Pl. apply (emplaced_first _ P WO fst l []); auto; constructor.
Qed.
Lemma array_exact F w n t k ty its olds s vs s' : is_scope ty = true -> length olds = n ->
  (unwrap_prog (S F) w (CArr n t) (VList olds) (doc_node (DScope k ty its)) s = ERet (VList vs, s') <->
   length (items_for t its) = n /\ array_elements F w t olds (items_for t its) s vs s').
Proof.
  intros T L. rewrite unwrap_scoped by reflexivity. cbn [said dstep]. rewrite T. cbn [negb]. rewrite L, Nat.eqb_refl. cbn [negb]. rewrite kind_for.
  destruct (Nat.eqb_spec (length (items_for t its)) n) as [E|E]; cbn [negb].
  2:{ split; [intros [u H]; discriminate|intros [H _]; contradiction]. }
  pose proof (fun vs => array_said F w t olds (items_for t its) s vs s' ltac:(congruence) (kinds t its)) as A.
  split.
  - intros [u H]. split; [exact E|]. apply A. destruct (darray w false (said F w false) t olds (items_for t its) s) as [[v2 s2]| | |]; cbn [rbind] in H; try discriminate. now injection H as -> -> _.
  - intros [_ M]. apply A in M. rewrite M. cbn [rbind]. eauto.
Qed.
