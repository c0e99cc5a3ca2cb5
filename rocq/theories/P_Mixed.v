(** The order of the elements of sets and maps does not matter. *)
From Coq Require Import ZArith List Bool Lia ZifyBool ZifyNat Sorted Sorting.Permutation.
From Verif Require Import Base Lemmas M_Types M_Conv M_TpTools M_Charset S_Doc M_Tree S_Tree M_Object S_Object S_ObjSafe S_Again S_Restored S_Agree P_ObjEager P_ObjLazy P_Agree P_Restored S_Mixed.
Import ListNotations.
Open Scope Z_scope.

(** * Ordered insertion *)
Section Order.
Variables (lt : cv -> cv -> bool) (P : cv -> Prop).
Hypothesis WO : weak_order P lt.
Context {A : Type} (key : A -> cv).
Notation ins l acc := (fold_left (fun s a => emplace lt key a s) l acc).
Lemma emplace_length a l : Permutation (emplace lt key a l) (a :: l) \/ emplace lt key a l = l.
Proof.
  induction l as [|b l IH]; cbn [emplace]; [now left|]. destruct (lt (key a) (key b)); [now left|]. destruct (lt (key b) (key a)); [|now right].
  destruct IH as [IH|IH]; [left|right; now rewrite IH]. rewrite IH. apply perm_swap.
Qed.
Lemma ins_length l : forall acc, (length (ins l acc) <= length l + length acc)%nat /\ (length (ins l acc) = (length l + length acc)%nat -> Permutation (ins l acc) (l ++ acc)).
Proof.
  induction l as [|a l IH]; intros acc; cbn [fold_left length app Nat.add]; [split; [lia|reflexivity]|]. destruct (IH (emplace lt key a acc)) as [L Q]. destruct (emplace_length a acc) as [E|E].
  - pose proof (Permutation_length E) as El. cbn [length] in El. split; [lia|]. intros H. rewrite Q by lia. rewrite E. symmetry. apply Permutation_middle.
  - rewrite E in *. split; [lia|]. intros H. lia.
Qed.
Lemma emplace_in a l x : In x (emplace lt key a l) -> x = a \/ In x l.
Proof. destruct (emplace_length a l) as [E|E]; [|rewrite E; now right]. intros I. apply (Permutation_in x E) in I. destruct I as [<-|I]; auto. Qed.
Lemma ins_in l : forall acc x, In x (ins l acc) -> In x l \/ In x acc.
Proof.
  induction l as [|a l IH]; intros acc x I; [now right|]. cbn [fold_left] in I. destruct (IH _ _ I) as [J|J]; [left; now right|]. destruct (emplace_in _ _ _ J) as [->|K]; [left; now left|now right].
Qed.
Lemma sorted_unique (R : A -> A -> Prop) : forall l l', (forall a b, In a l -> In b l -> R a b -> R b a -> False) -> StronglySorted R l -> StronglySorted R l' ->
  (forall x, In x l <-> In x l') -> l = l'.
Proof.
  induction l as [|a l IH]; intros l' As S S' I.
  - destruct l' as [|b l']; [reflexivity|]. destruct (proj2 (I b)). now left.
  - destruct l' as [|b l']; [destruct (proj1 (I a)); now left|]. apply StronglySorted_inv in S, S'. destruct S as [S1 S2], S' as [S1' S2']. rewrite Forall_forall in S2, S2'.
    assert (Irr : forall x, In x (a :: l) -> ~ R x x) by (intros x Hx Rx; exact (As _ _ Hx Hx Rx Rx)).
    assert (E : a = b).
    { destruct (proj1 (I a) (or_introl eq_refl)) as [E|J]; [now symmetry|]. destruct (proj2 (I b) (or_introl eq_refl)) as [E|K]; [assumption|].
      exfalso. apply (As a b); [now left|now right| |]; auto. }
    subst b. f_equal. apply IH; auto.
    + intros x y Hx Hy. apply As; now right.
    + intros x. split; intros Hx.
      * destruct (proj1 (I x) (or_intror Hx)) as [<-|J]; [|assumption]. exfalso. apply (Irr a (or_introl eq_refl)). now apply S2.
      * destruct (proj2 (I x) (or_intror Hx)) as [<-|J]; [|assumption]. exfalso. apply (Irr a (or_introl eq_refl)). now apply S2'.
Qed.
Lemma sorted_differ vs : StronglySorted (fun x y => lt (key x) (key y) = true) vs -> forall x y, In x vs -> In y vs -> equiv lt (key x) (key y) = true -> x = y.
Proof.
  induction vs as [|a vs IH]; intros S x y Ix Iy E; [destruct Ix|]. apply StronglySorted_inv in S. destruct S as [S1 S2]. rewrite Forall_forall in S2.
  unfold equiv in E. destruct Ix as [<-|Ix], Iy as [<-|Iy]; auto.
  - specialize (S2 _ Iy). rewrite S2 in E. discriminate.
  - specialize (S2 _ Ix). rewrite S2, andb_false_r in E. discriminate.
Qed.
Theorem ins_perm us us' : Permutation us us' -> length (ins us []) = length us -> Forall (fun a => P (key a)) (ins us []) -> ins us' [] = ins us [].
Proof.
  intros Pm L Pv. destruct (ins_length us []) as [_ Q]. rewrite app_nil_r in Q. specialize (Q ltac:(cbn [length]; lia)).
  set (vs := ins us []) in *. assert (Pu : Forall (fun a => P (key a)) us) by (rewrite Forall_forall in *; intros x I; apply Pv; now rewrite Q).
  assert (Pu' : Forall (fun a => P (key a)) us') by (rewrite Forall_forall in *; intros x I; apply Pu; now rewrite Pm).
  destruct (emplaced_first lt P WO key us [] Pu (Forall_nil _) (SSorted_nil _)) as [S _].
  destruct (emplaced_first lt P WO key us' [] Pu' (Forall_nil _) (SSorted_nil _)) as [S' F']. cbn [app] in F'. fold vs in S.
  symmetry. apply sorted_unique with (R := fun x y => lt (key x) (key y) = true); auto.
  - rewrite Forall_forall in Pv. destruct WO as (Ir & Tr & _). intros a b Ia Ib H1 H2. pose proof (Tr _ _ _ (Pv _ Ia) (Pv _ Ib) (Pv _ Ia) H1 H2) as H. rewrite Ir in H by auto. discriminate.
  - intros x. split; intros I.
    + pose proof (proj1 (Forall_forall _ _) Pv x I) as Px. specialize (F' _ Px).
      assert (Ix : In x us') by (rewrite <- Pm, <- Q; exact I).
      destruct (find (fun a => equiv lt (key x) (key a)) us') as [y|] eqn:Fy.
      * destruct (find_some _ _ Fy) as [Iy Ey]. apply find_some in F'. destruct F' as [F' _].
        assert (Iv : In y vs) by (rewrite Q, Pm; exact Iy). now rewrite (sorted_differ vs S x y I Iv Ey).
      * pose proof (find_none _ _ Fy x Ix) as N. cbn beta in N. unfold equiv in N. destruct WO as (Ir & _). rewrite Ir in N by exact Px. discriminate.
    + apply ins_in in I. destruct I as [I|[]]. rewrite Q, Pm. exact I.
Qed.
End Order.

(** * Types without shared objects *)
Definition still2 {A} (g : rstate -> res (A * rstate)) : Prop := forall s a s', g s = Ok (a, s') -> s' = s /\ forall s2, g s2 = Ok (a, s2).
Definition still3 {A} (g : rstate -> res (A * rstate * nat)) : Prop := forall s a s' u, g s = Ok (a, s', u) -> s' = s /\ forall s2, g s2 = Ok (a, s2, u).

Section Still.
Variables (w : world) (strict : bool) (dn : ct -> cv -> doc -> rstate -> res (cv * rstate * nat)).
Hypothesis IH : forall t old d, unshared w t -> still3 (dn t old d).
Lemma still_child t old d : unshared w t -> still2 (dchild w strict dn t old d).
Proof.
  intros U s a s' H. destruct d as [k v|k ty its]; cbn [dchild] in *.
  - destruct (paste_value w t old v); try discriminate. cbn [rbind] in *. injection H as <- <-. now split.
  - destruct (dn t old (DScope k ty its) s) as [[[v s1] u]| | |] eqn:E; try discriminate. cbn [rbind] in H. destruct (IH _ _ _ U _ _ _ _ E) as [-> R].
    destruct (quiet strict its u) eqn:Q; [|discriminate]. injection H as <- <-. split; [reflexivity|]. intros s2. rewrite R. cbn [rbind]. now rewrite Q.
Qed.
Lemma still_field t id old its : unshared w t -> still3 (dfield w strict dn t id old its).
Proof.
  intros U s a s' u H. unfold dfield in *. destruct (select (scoped t) id its) as [[j d]|]; [|discriminate].
  destruct (dchild w strict dn t old d s) as [[v s1]| | |] eqn:E; try discriminate. cbn [rbind] in H. injection H as <- <- <-.
  destruct (still_child _ _ _ U _ _ _ E) as [-> R]. split; [reflexivity|]. intros s2. now rewrite R.
Qed.
Lemma still_fields its : forall fs olds vi ni, Forall (fun f => unshared w (f_type f)) fs -> still3 (fun s => dfields w strict dn fs olds its s vi ni).
Proof.
  induction fs as [|f fs IHf]; intros olds vi ni U s a s' u H; cbn [dfields] in *; [injection H as <- <- <-; now split|].
  inversion U as [|? ? U1 U2]; subst. destruct olds as [|old olds]; [discriminate|]. destruct (_ && _ && _); [discriminate|]. destruct (f_opt f && _).
  - destruct (dfields w strict dn fs olds its s vi ni) as [[[vs s1] u1]| | |] eqn:E; try discriminate. cbn [rbind] in H. injection H as <- <- <-.
    destruct (IHf olds vi ni U2 _ _ _ _ E) as [-> R]. split; [reflexivity|]. intros s2. now rewrite R.
  - destruct (dfield w strict dn (f_type f) _ old its s) as [[[v s1] u1]| | |] eqn:E; try discriminate. cbn [rbind] in H. destruct (still_field _ _ _ _ U1 _ _ _ _ E) as [-> R].
    destruct (dfields w strict dn fs olds its s _ _) as [[[vs s2] u2]| | |] eqn:E2; try discriminate. cbn [rbind] in H. injection H as <- <- <-.
    destruct (IHf olds _ _ U2 _ _ _ _ E2) as [-> R2]. split; [reflexivity|]. intros s2. rewrite R. cbn [rbind]. now rewrite R2.
Qed.
Lemma still_each {B} (f : doc -> B -> rstate -> res (B * rstate)) : (forall d a, still2 (f d a)) -> forall l acc, still2 (deach f l acc).
Proof.
  intros Hf. induction l as [|d l IHl]; intros acc s a s' H; cbn [deach] in *; [injection H as <- <-; now split|].
  destruct (f d acc s) as [[a1 s1]| | |] eqn:E; try discriminate. cbn [rbind] in H. destruct (Hf _ _ _ _ _ E) as [-> R]. destruct (IHl _ _ _ _ H) as [-> R2]. split; [reflexivity|].
  intros s2. rewrite R. cbn [rbind]. apply R2.
Qed.
Lemma still_elem {B} (add : cv -> B -> B) e d acc : unshared w e -> still2 (delem w strict dn add e d acc).
Proof.
  intros U s a s' H. unfold delem in *. destruct (dchild w strict dn e (w_new w e) d s) as [[v s1]| | |] eqn:E; try discriminate. cbn [rbind] in H. injection H as <- <-.
  destruct (still_child _ _ _ U _ _ _ E) as [-> R]. split; [reflexivity|]. intros s2. now rewrite R.
Qed.
Lemma still_tab e d acc : unshared w e -> still2 (dtab w strict dn e d acc).
Proof.
  intros U s a s' H. unfold dtab in *. destruct (dchild w strict dn e (w_new w e) d s) as [[v s1]| | |] eqn:E; try discriminate. cbn [rbind] in H. injection H as <- <-.
  destruct (still_child _ _ _ U _ _ _ E) as [-> R]. split; [reflexivity|]. intros s2. now rewrite R.
Qed.
(** what an entry of a map is made to *)
Lemma still_pair k e d s (x : list (cv * cv)) acc s' : unshared w k -> unshared w e -> dentry w strict dn k e d acc s = Ok (x, s') ->
  exists p, x = emplace (w_lt w) fst p acc /\ s' = s /\ forall acc2 s2, dentry w strict dn k e d acc2 s2 = Ok (emplace (w_lt w) fst p acc2, s2).
Proof.
  intros Uk Ue H. unfold dentry in *.
  destruct (dfield w strict dn k _ _ _ s) as [[[a s1] u1]| | |] eqn:E1; try discriminate. cbn [rbind] in H. destruct (still_field _ _ _ _ Uk _ _ _ _ E1) as [-> R1].
  destruct (dfield w strict dn e _ _ _ s) as [[[b s2] u2]| | |] eqn:E2; try discriminate. cbn [rbind] in H. destruct (still_field _ _ _ _ Ue _ _ _ _ E2) as [-> R2].
  destruct (quiet strict _ _) eqn:Q; [|discriminate]. injection H as <- <-. exists (a, b). split; [reflexivity|]. split; [reflexivity|]. intros acc2 s2. rewrite R1. cbn [rbind]. rewrite R2. cbn [rbind]. now rewrite Q.
Qed.
Lemma still_array e : unshared w e -> forall olds l, still2 (darray w strict dn e olds l).
Proof.
  intros U. induction olds as [|old olds IHo]; intros l s a s' H; cbn [darray] in *; [injection H as <- <-; now split|]. destruct l as [|d l]; [injection H as <- <-; now split|].
  destruct (dchild w strict dn e old d s) as [[v s1]| | |] eqn:E; try discriminate. cbn [rbind] in H. destruct (still_child _ _ _ U _ _ _ E) as [-> R].
  destruct (darray w strict dn e olds l s) as [[vs s2]| | |] eqn:E2; try discriminate. cbn [rbind] in H. injection H as <- <-. destruct (IHo _ _ _ _ E2) as [-> R2].
  split; [reflexivity|]. intros s2. rewrite R. cbn [rbind]. now rewrite R2.
Qed.
Lemma sub_unshared t e : (forall u, S_ObjSafe.part w e u -> S_ObjSafe.part w t u) -> unshared w t -> unshared w e.
Proof. intros H U x. split; intros K; [exact (proj1 (U x) (H _ K))|exact (proj2 (U x) (H _ K))]. Qed.
Lemma still_step t old k ty its : unshared w t -> still3 (dstep w strict dn t old k ty its).
Proof.
  intros U s a s' u0 H.
  assert (FS : forall fs old vi (u1 : nat) (mk : list cv -> cv), Forall (fun f => unshared w (f_type f)) fs ->
     still3 (fun s => match old with VList olds => let* (vs, s', u) := dfields w strict dn fs olds its s vi 0 in Ok (mk vs, s', Nat.max u1 u) | _ => Err end)).
  { intros fs [] vi u1 mk Uf z b z' u2 G; try discriminate. destruct (dfields w strict dn fs vs its z vi 0) as [[[x z1] u3]| | |] eqn:E; try discriminate. cbn [rbind] in G. injection G as <- <- <-.
    destruct (still_fields its fs vs vi 0 Uf _ _ _ _ E) as [-> R]. split; [reflexivity|]. intros s2. cbn beta in R. now rewrite R. }
  assert (EA : forall B (f : doc -> B -> rstate -> res (B * rstate)) l acc (mk : B -> cv) (n : nat), (forall d a, still2 (f d a)) ->
     still3 (fun s => let* (vs, s') := deach f l acc s in Ok (mk vs, s', n))).
  { intros B f l acc mk n Hf z b z' u2 G. destruct (deach f l acc z) as [[x z1]| | |] eqn:E; try discriminate. cbn [rbind] in G. injection G as <- <- <-.
    destruct (still_each f Hf l acc _ _ _ E) as [-> R]. split; [reflexivity|]. intros s2. now rewrite R. }
  unfold dstep in H |- *. cbv zeta in H |- *. destruct t as [| | | | |c|e|e|a1 e|e|n e|a1 b|c|e|e|e|e|c]; try discriminate H.
  - destruct (negb _); [discriminate|]. refine (FS _ _ _ _ _ _ _ _ _ _ H). apply Forall_forall. intros f I. apply (sub_unshared (CCls c)); [|exact U]. intros x. now apply pt_cls.
  - destruct (negb _); [discriminate|]. refine (EA _ _ _ _ VList _ _ _ _ _ _ H). intros d acc. apply still_elem. apply (sub_unshared (CSeq e)); [|exact U]. intros x. now apply pt_seq.
  - destruct (negb _); [discriminate|]. refine (EA _ _ _ _ VList _ _ _ _ _ _ H). intros d acc. apply still_elem. apply (sub_unshared (CSet e)); [|exact U]. intros x. now apply pt_set.
  - destruct (negb _); [discriminate|]. refine (EA _ _ _ _ VMap _ _ _ _ _ _ H). intros d acc z b z' G.
    destruct (still_pair a1 e d z b acc z') as (p & -> & -> & R); [| |exact G|split; [reflexivity|intros; apply R]].
    + apply (sub_unshared (CMap a1 e)); [|exact U]. intros x. now apply pt_key.
    + apply (sub_unshared (CMap a1 e)); [|exact U]. intros x. now apply pt_map.
  - destruct (negb _); [discriminate|]. refine (EA _ _ _ _ VTab _ _ _ _ _ _ H). intros d acc. apply still_tab. apply (sub_unshared (CTab e)); [|exact U]. intros x. now apply pt_tab.
  - destruct (negb _); [discriminate|]. destruct old; try discriminate. destruct (negb _); [discriminate|]. destruct (negb _); [discriminate|].
    destruct (darray w strict dn e vs _ s) as [[x s1]| | |] eqn:E; try discriminate. cbn [rbind] in H. injection H as <- <- <-.
    assert (Ue : unshared w e) by (apply (sub_unshared (CArr n e)); [|exact U]; intros y; now apply pt_arr).
    destruct (still_array e Ue _ _ _ _ _ E) as [-> R]. split; [reflexivity|]. intros s2. now rewrite R.
  - destruct (negb _); [discriminate|]. destruct old as [| |[|oa [|ob [|? ?]]]| | | | | |]; try discriminate.
    assert (Ua : unshared w a1) by (apply (sub_unshared (CPair a1 b)); [|exact U]; intros y; now apply pt_fst).
    assert (Ub : unshared w b) by (apply (sub_unshared (CPair a1 b)); [|exact U]; intros y; now apply pt_snd).
    destruct (dfield w strict dn a1 _ _ _ s) as [[[x s1] u1]| | |] eqn:E; try discriminate. cbn [rbind] in H. destruct (still_field _ _ _ _ Ua _ _ _ _ E) as [-> R].
    destruct (dfield w strict dn b _ _ _ s) as [[[y s2] u2]| | |] eqn:E2; try discriminate. cbn [rbind] in H. destruct (still_field _ _ _ _ Ub _ _ _ _ E2) as [-> R2].
    injection H as <- <- <-. split; [reflexivity|]. intros s2. rewrite R. cbn [rbind]. now rewrite R2.
  - destruct (negb _); [discriminate|]. refine (FS _ _ _ _ _ _ _ _ _ _ H). apply Forall_forall. intros f I. apply in_map_iff in I. destruct I as (g & <- & I). cbn [f_type].
    apply (sub_unshared (CTup c)); [|exact U]. intros x. now apply pt_tup.
  - destruct (dn e _ _ s) as [[[x s1] u]| | |] eqn:E; try discriminate. cbn [rbind] in H. injection H as <- <- <-.
    assert (Ue : unshared w e) by (apply (sub_unshared (CPtr e)); [|exact U]; intros y; now apply pt_ptr).
    destruct (IH _ _ _ Ue _ _ _ _ E) as [-> R]. split; [reflexivity|]. intros s2. now rewrite R.
  - destruct (dn e _ _ s) as [[[x s1] u]| | |] eqn:E; try discriminate. cbn [rbind] in H. injection H as <- <- <-.
    assert (Ue : unshared w e) by (apply (sub_unshared (CUniq e)); [|exact U]; intros y; now apply pt_uniq).
    destruct (IH _ _ _ Ue _ _ _ _ E) as [-> R]. split; [reflexivity|]. intros s2. now rewrite R.
  - destruct (proj1 (U e)). apply pt_self.
  - destruct (proj2 (U e)). apply pt_self.
  - destruct (negb _); [discriminate|]. destruct (select false (IdName str_type_id) its) as [[j [kk v|]]|]; try discriminate.
    destruct (_ && _); [discriminate|]. destruct (w_reg w c (v_data v, v_enc v)) as [[cc|]| | |] eqn:Rg; cbn [rbind] in *; try discriminate.
    refine (FS _ _ _ _ _ _ _ _ _ _ H). apply Forall_forall. intros f I. apply (sub_unshared (CPoly c)); [|exact U]. intros x. eapply pt_poly; eauto.
Qed.
End Still.
Lemma still_said F w strict t old d : unshared w t -> still3 (said F w strict t old d).
Proof.
  revert t old d. induction F as [|f IH]; intros t old d U s a s' u H; [discriminate|]. cbn [said] in *. destruct d as [|k ty its]; [discriminate|].
  exact (still_step w strict _ IH t old k ty its U s a s' u H).
Qed.

(** * Mixed documents *)
Lemma mixed_kind w t d d' : mixed w t d d' -> is_sc d' = is_sc d /\ doc_name d' = doc_name d.
Proof. induction 1; cbn [is_sc doc_name]; auto. Qed.
Definition keeps (R : doc -> doc -> Prop) : Prop := forall d d', R d d' -> is_sc d' = is_sc d /\ doc_name d' = doc_name d.
Lemma keeps_match (R : doc -> doc -> Prop) (p : doc -> bool) its its' : (forall d d', R d d' -> p d' = p d) -> Forall2 R its its' ->
  forall i, match nth_match p i its with
  | Some (j, x) => exists y, nth_match p i its' = Some (j, y) /\ R x y
  | None => nth_match p i its' = None end.
Proof.
  intros K F. induction F as [|d d' l l' D F IH]; intros i; [reflexivity|]. cbn [nth_match]. rewrite (K _ _ D). destruct (p d).
  - destruct i as [|i]; [eauto|]. specialize (IH i). destruct (nth_match p i l) as [[j x]|]; [|now rewrite IH]. destruct IH as (y & -> & Ry). eauto.
  - specialize (IH i). destruct (nth_match p i l) as [[j x]|]; [|now rewrite IH]. destruct IH as (y & -> & Ry). eauto.
Qed.
Lemma keeps_select R sc id its its' : keeps R -> Forall2 R its its' ->
  match select sc id its with
  | Some (j, x) => exists y, select sc id its' = Some (j, y) /\ R x y
  | None => select sc id its' = None end.
Proof.
  intros K F. unfold select. destruct id as [k|i].
  - apply keeps_match; [|exact F]. intros d d' D. destruct (K _ _ D) as [A B]. unfold of_name. now rewrite A, B.
  - destruct (i <? 0); [reflexivity|]. apply keeps_match; [|exact F]. intros d d' D. destruct (K _ _ D) as [A B]. unfold of_kind. now rewrite A.
Qed.
Lemma keeps_exists R sc k its its' : keeps R -> Forall2 R its its' -> existsb (of_name sc k) its' = existsb (of_name sc k) its.
Proof. intros K F. induction F as [|d d' l l' D F IH]; [reflexivity|]. cbn [existsb]. rewrite IH. destruct (K _ _ D) as [A B]. unfold of_name. now rewrite A, B. Qed.
Lemma keeps_items R sc its its' : keeps R -> Forall2 R its its' -> Forall2 R (kind_items sc its) (kind_items sc its').
Proof.
  intros K F. induction F as [|d d' l l' D F IH]; [constructor|]. unfold kind_items in *. cbn [filter]. destruct (K _ _ D) as [A _]. replace (of_kind sc d') with (of_kind sc d) by (unfold of_kind; now rewrite A). destruct (of_kind sc d); [now constructor|assumption].
Qed.
Lemma keeps_layout R its its' : keeps R -> Forall2 R its its' -> map is_sc its = map is_sc its'.
Proof. intros K F. induction F as [|d d' l l' D F IH]; [reflexivity|]. cbn [map]. now rewrite (proj1 (K _ _ D)), IH. Qed.
Lemma kind_perm sc l l' : Permutation l l' -> Permutation (kind_items sc l) (kind_items sc l').
Proof.
  unfold kind_items. induction 1; cbn [filter]; try reflexivity.
  - destruct (of_kind sc x); [now constructor|assumption].
  - destruct (of_kind sc x), (of_kind sc y); try reflexivity. apply perm_swap.
  - etransitivity; eauto.
Qed.
Lemma upto_layout sc : forall its its' n, map is_sc its = map is_sc its' -> upto sc n its = upto sc n its'.
Proof.
  induction its as [|d its IH]; intros [|d' its'] n H; try discriminate; [reflexivity|]. cbn [map] in H. injection H as H1 H2. destruct n as [|n]; [reflexivity|]. cbn [upto].
  unfold of_kind. rewrite H1. f_equal. now apply IH.
Qed.

Lemma F2_len {A B} (R : A -> B -> Prop) l l' : Forall2 R l l' -> length l = length l'.
Proof. induction 1; cbn; congruence. Qed.

(** a list of items, each of which is made to something, in another order *)
Section Items.
Context {A : Type} (lt : cv -> cv -> bool) (key : A -> cv) (step : doc -> list A -> rstate -> res (list A * rstate)).
Definition gives (d : doc) (a : A) : Prop := forall acc s, step d acc s = Ok (emplace lt key a acc, s).
Hypothesis Hs : forall d acc s x s', step d acc s = Ok (x, s') -> exists a, gives d a /\ x = emplace lt key a acc /\ s' = s.
Lemma each_gives : forall l acc s x s', deach step l acc s = Ok (x, s') -> exists us, Forall2 gives l us /\ x = fold_left (fun z a => emplace lt key a z) us acc /\ s' = s.
Proof.
  induction l as [|d l IH]; intros acc s x s' H; cbn [deach] in H; [injection H as <- <-; exists []; now repeat split|].
  destruct (step d acc s) as [[y s1]| | |] eqn:E; try discriminate. cbn [rbind] in H. destruct (Hs _ _ _ _ _ E) as (a & G & -> & ->). destruct (IH _ _ _ _ H) as (us & Gs & -> & ->).
  exists (a :: us). repeat split. now constructor.
Qed.
Lemma gives_each l us : Forall2 gives l us -> forall acc s, deach step l acc s = Ok (fold_left (fun z a => emplace lt key a z) us acc, s).
Proof. induction 1 as [|d a l us G Gs IH]; intros acc s; [reflexivity|]. cbn [deach]. rewrite G. cbn [rbind fold_left]. apply IH. Qed.
Lemma gives_perm l l' : Permutation l l' -> forall us, Forall2 gives l us -> exists us', Permutation us us' /\ Forall2 gives l' us'.
Proof.
  induction 1; intros us F.
  - inversion F; subst. exists []. now split.
  - inversion F as [|? a ? us0 G Gs]; subst. destruct (IHPermutation _ Gs) as (us' & P & F'). exists (a :: us'). split; [now constructor|now constructor].
  - inversion F as [|? a ? us0 G Gs]; subst. inversion Gs as [|? b ? us1 G1 Gs1]; subst. exists (b :: a :: us1). split; [apply perm_swap|]. repeat constructor; assumption.
  - destruct (IHPermutation1 _ F) as (us1 & P1 & F1). destruct (IHPermutation2 _ F1) as (us2 & P2 & F2). exists us2. split; [now transitivity us1|assumption].
Qed.
Theorem each_mixed (R : doc -> doc -> Prop) l mid l' s x s' P : weak_order P lt -> (forall d d' a, R d d' -> gives d a -> gives d' a) ->
  Permutation l mid -> Forall2 R mid l' -> deach step l [] s = Ok (x, s') -> length x = length l -> Forall (fun a => P (key a)) x -> deach step l' [] s = Ok (x, s').
Proof.
  intros WO HR Pm F H L Px. destruct (each_gives _ _ _ _ _ H) as (us & G & -> & ->). destruct (gives_perm _ _ Pm _ G) as (us' & Pu & G').
  assert (G2 : Forall2 gives l' us').
  { clear - F G' HR. revert us' G'. induction F as [|d d' m l' D F IH]; intros us' G; inversion G; subst; constructor; eauto. }
  rewrite (gives_each _ _ G2). do 2 f_equal. rewrite (ins_perm lt P WO key us us' Pu); [reflexivity| |exact Px]. rewrite L. now apply F2_len in G.
Qed.
End Items.

Section Step.
Variables (f : nat) (w : world) (strict : bool).
Notation dn := (said f w strict).
Definition fits (its its' : list doc) (u : nat) : Prop := map is_sc its = map is_sc its' \/ (length its <= u /\ length its' <= u)%nat.
Hypothesis IH : forall t old d d' s v s' u, mixed w t d d' -> dn t old d s = Ok (v, s', u) -> dn t old d' s = Ok (v, s', u) /\ fits (items d) (items d') u.
Lemma fits_quiet its its' u : fits its its' u -> quiet strict its u = true -> quiet strict its' u = true.
Proof.
  intros [L|[L1 L2]] Q; [now rewrite <- (quiet_layout strict its its' u L)|]. unfold quiet. rewrite skipn_all2 by exact L2. now rewrite orb_true_r.
Qed.
Lemma mix_child t old d d' s x : mixed w t d d' -> dchild w strict dn t old d s = Ok x -> dchild w strict dn t old d' s = Ok x.
Proof.
  intros M H. destruct (mixed_kind _ _ _ _ M) as [K N]. destruct d as [k v|k ty its].
  - destruct d' as [k' v'|]; [|discriminate]. assert (E : DVal k' v' = DVal k v).
    { clear - M. remember (DVal k v) as d eqn:Ed. remember (DVal k' v') as d' eqn:Ed'. revert Ed Ed'. induction M; intros; subst; try discriminate; auto. }
    now rewrite E.
  - destruct d' as [|k' ty' its']; [discriminate|]. cbn [dchild] in *. destruct (dn t old (DScope k ty its) s) as [[[v s1] u]| | |] eqn:E; try discriminate. cbn [rbind] in H.
    destruct (IH _ _ _ _ _ _ _ _ M E) as [R Ft]. rewrite R. cbn [rbind items] in *. destruct (quiet strict its u) eqn:Q; [|discriminate]. now rewrite (fits_quiet _ _ _ Ft Q).
Qed.
Lemma mix_field (R : doc -> doc -> Prop) t id old its its' s x : keeps R -> Forall2 R its its' -> (forall j d d', select (scoped t) id its = Some (j, d) -> R d d' -> mixed w t d d') ->
  dfield w strict dn t id old its s = Ok x -> dfield w strict dn t id old its' s = Ok x.
Proof.
  intros K F HR H. unfold dfield in *. pose proof (keeps_select R (scoped t) id its its' K F) as S. destruct (select (scoped t) id its) as [[j d]|] eqn:Sd; [|discriminate].
  destruct S as (d' & -> & Rd). destruct (dchild w strict dn t old d s) as [[v s1]| | |] eqn:E; try discriminate. rewrite (mix_child _ _ _ _ _ _ (HR _ _ _ eq_refl Rd) E). exact H.
Qed.
Lemma mix_fields (R : doc -> doc -> Prop) its its' : keeps R -> Forall2 R its its' -> forall fs olds s vi ni x, Forall (fun g => 0 < zlen (f_name g)) fs ->
  (forall g d d', In g fs -> In d its -> doc_name d = f_name g -> R d d' -> mixed w (f_type g) d d') ->
  dfields w strict dn fs olds its s vi ni = Ok x -> dfields w strict dn fs olds its' s vi ni = Ok x.
Proof.
  intros K F. induction fs as [|g fs IHf]; intros olds s vi ni x N HR H; [exact H|]. destruct olds as [|old olds]; [discriminate|]. inversion N as [|? ? N1 N2]; subst. cbn [dfields] in *.
  rewrite !(keeps_exists R _ _ its its' K F). destruct (_ && _ && _); [discriminate|]. assert (HR2 : forall g' d d', In g' fs -> In d its -> doc_name d = f_name g' -> R d d' -> mixed w (f_type g') d d') by (intros; eapply HR; eauto; now right).
  apply Z.ltb_lt in N1. rewrite N1 in *. destruct (f_opt g && _).
  - destruct (dfields w strict dn fs olds its s vi ni) as [[[vs s1] u]| | |] eqn:E; try discriminate. rewrite (IHf _ _ _ _ _ N2 HR2 E). rewrite (F2_len _ _ _ F) in H. exact H.
  - destruct (dfield w strict dn (f_type g) _ old its s) as [[[v s1] u1]| | |] eqn:E; try discriminate.
    assert (E' : dfield w strict dn (f_type g) (IdName (f_name g)) old its' s = Ok (v, s1, u1)).
    { refine (mix_field R _ _ _ _ _ _ _ K F _ E). intros j d d' S Rd. unfold select in S. destruct (nth_match_0 _ _ _ _ S) as (Nj & Pd & _). apply (HR g); [now left|now apply nth_error_In in Nj| |exact Rd].
      unfold of_name in Pd. apply andb_prop in Pd. destruct Pd as [_ Pd]. destruct (bytes_eqb_spec (doc_name d) (f_name g)); [assumption|discriminate]. }
    rewrite E'. cbn [rbind] in *. destruct (dfields w strict dn fs olds its s1 _ _) as [[[vs s2] u2]| | |] eqn:E2; try discriminate. now rewrite (IHf _ _ _ _ _ N2 HR2 E2).
Qed.
Lemma keeps_mixed e : keeps (mixed w e).
Proof. intros d d' M. exact (mixed_kind _ _ _ _ M). Qed.
Definition one_of (k1 : bytes) (t1 : ct) (k2 : bytes) (t2 : ct) (p q : doc) : Prop := p = q \/ (doc_name p = k1 /\ mixed w t1 p q) \/ (doc_name p = k2 /\ mixed w t2 p q).
Lemma keeps_one k1 t1 k2 t2 : keeps (one_of k1 t1 k2 t2).
Proof. intros d d' [->|[[_ M]|[_ M]]]; [now split|exact (mixed_kind _ _ _ _ M)|exact (mixed_kind _ _ _ _ M)]. Qed.
Lemma select_name sc k its j d : select sc (IdName k) its = Some (j, d) -> doc_name d = k.
Proof.
  intros S. unfold select in S. destruct (nth_match_0 _ _ _ _ S) as (_ & Pd & _). unfold of_name in Pd. apply andb_prop in Pd. destruct Pd as [_ Pd].
  destruct (bytes_eqb_spec (doc_name d) k); [assumption|discriminate].
Qed.
Lemma mix_one (t : ct) k1 t1 k2 t2 old its its' s x : k1 <> k2 -> Forall2 (one_of k1 t1 k2 t2) its its' ->
  (dfield w strict dn t1 (IdName k1) old its s = Ok x -> dfield w strict dn t1 (IdName k1) old its' s = Ok x) /\
  (dfield w strict dn t2 (IdName k2) old its s = Ok x -> dfield w strict dn t2 (IdName k2) old its' s = Ok x).
Proof.
  intros N F. split; apply (mix_field (one_of k1 t1 k2 t2)); try (apply keeps_one || exact F); intros j d d' S [->|[[E M]|[E M]]]; try constructor; try assumption; apply select_name in S; congruence.
Qed.
Lemma seq_step {B} (g : doc -> B -> rstate -> res (B * rstate)) (mk : B -> cv) e its its' s v s' u : (forall d d' a s x, mixed w e d d' -> g d a s = Ok x -> g d' a s = Ok x) ->
  Forall2 (mixed w e) its its' -> forall acc, (let* (vs, z) := deach g (kind_items (scoped e) its) acc s in Ok (mk vs, z, length its)) = Ok (v, s', u) ->
  (let* (vs, z) := deach g (kind_items (scoped e) its') acc s in Ok (mk vs, z, length its')) = Ok (v, s', u).
Proof.
  intros Hg F acc H. destruct (deach g (kind_items (scoped e) its) acc s) as [[x z]| | |] eqn:E; try discriminate.
  rewrite (agree_each (mixed w e) g Hg _ _ acc s _ (keeps_items _ (scoped e) its its' (keeps_mixed e) F) E). rewrite <- (F2_len _ _ _ F). exact H.
Qed.
Lemma mix_elem {B} (add : cv -> B -> B) e d d' acc s x : mixed w e d d' -> delem w strict dn add e d acc s = Ok x -> delem w strict dn add e d' acc s = Ok x.
Proof. unfold delem. intros A H. destruct (dchild w strict dn e _ d s) as [[v s1]| | |] eqn:G; try discriminate. now rewrite (mix_child _ _ _ _ _ _ A G). Qed.
Lemma mix_tab e d d' acc s x : mixed w e d d' -> dtab w strict dn e d acc s = Ok x -> dtab w strict dn e d' acc s = Ok x.
Proof. unfold dtab. intros A H. rewrite (proj2 (mixed_kind _ _ _ _ A)). destruct (dchild w strict dn e _ d s) as [[v s1]| | |] eqn:G; try discriminate. now rewrite (mix_child _ _ _ _ _ _ A G). Qed.
Lemma mix_array e l l' : Forall2 (mixed w e) l l' -> forall olds s x, darray w strict dn e olds l s = Ok x -> darray w strict dn e olds l' s = Ok x.
Proof.
  induction 1 as [|d d' l l' D F IHl]; intros [|old olds] s x E; try exact E. cbn [darray] in *.
  destruct (dchild w strict dn e old d s) as [[v s1]| | |] eqn:G; try discriminate. rewrite (mix_child _ _ _ _ _ _ D G). cbn [rbind] in *.
  destruct (darray w strict dn e olds l s1) as [[vs s2]| | |] eqn:K; try discriminate. now rewrite (IHl _ _ _ K).
Qed.
Definition entry_of (a e : ct) (x y : doc) : Prop := x = y \/ exists k' ty' l l', x = DScope k' ty' l /\ y = DScope k' ty' l' /\ Forall2 (one_of str_key a str_value e) l l'.
Lemma mix_entry a e d d' acc s x : entry_of a e d d' -> dentry w strict dn a e d acc s = Ok x -> dentry w strict dn a e d' acc s = Ok x.
Proof.
  intros [->|(k & ty & l & l' & -> & -> & F)] H; [exact H|]. unfold dentry in *. cbn [items] in *.
  destruct (dfield w strict dn a _ _ _ s) as [[[y s1] u1]| | |] eqn:E1; try discriminate. cbn [rbind] in H. rewrite (proj1 (mix_one a str_key a str_value e _ l l' s _ ltac:(discriminate) F) E1). cbn [rbind].
  destruct (dfield w strict dn e _ _ _ s1) as [[[z s2] u2]| | |] eqn:E2; try discriminate. cbn [rbind] in H. rewrite (proj2 (mix_one a str_key a str_value e _ l l' s1 _ ltac:(discriminate) F) E2). cbn [rbind].
  now rewrite <- (quiet_layout strict l l' _ (keeps_layout _ _ _ (keeps_one str_key a str_value e) F)).
Qed.
Lemma keeps_entry a e : keeps (entry_of a e).
Proof. intros d d' [->|(k & ty & l & l' & -> & -> & _)]; now split. Qed.
Lemma still_dn t old d : unshared w t -> still3 (dn t old d).
Proof. apply still_said. Qed.

Theorem mix_step t old d d' s v s' u : mixed w t d d' -> said (S f) w strict t old d s = Ok (v, s', u) -> said (S f) w strict t old d' s = Ok (v, s', u) /\ fits (items d) (items d') u.
Proof.
  intros M H. destruct M as [t d|e k ty its mid its' U AD Pm F|a e k ty its mid its' Ua Ue AD Pm F|e k ty its its' F|n e k ty its its' F|e k ty its its' F|a b k ty its its' F|c k ty its its' [Nm Nd] F|e d d' M|e d d' M].
  - split; [exact H|now left].
  - pose proof (F2_len _ _ _ F) as Lf. pose proof (Permutation_length Pm) as Lp. specialize (AD (S f) strict old s).
    cbn [said] in *. unfold dstep in H, AD |- *. cbv zeta in H, AD |- *. destruct (negb (is_scope ty)); [discriminate|].
    destruct (deach _ (kind_items (scoped e) its) [] s) as [[vs z]| | |] eqn:E; try discriminate. cbn [rbind] in H, AD. injection H as <- <- <-.
    destruct (AD _ _ _ eq_refl) as (L & P & WO & Pv).
    rewrite (each_mixed (w_lt w) (fun v => v) (delem w strict dn (emplace (w_lt w) (fun v => v)) e)) with (R := mixed w e) (l := kind_items (scoped e) its) (mid := kind_items (scoped e) mid) (x := vs) (s' := z) (P := P).
    + cbn [rbind items]. split; [replace (length its') with (length its) by congruence; reflexivity|right; lia].
    + intros d acc q x q' G. unfold delem in G. destruct (dchild w strict dn e _ d q) as [[y q1]| | |] eqn:C; try discriminate. cbn [rbind] in G. injection G as <- <-.
      destruct (still_child w strict dn still_dn _ _ _ U _ _ _ C) as [-> R]. exists y. split; [|now split]. intros acc2 q2. unfold delem. now rewrite R.
    + exact WO.
    + intros d d' y D G acc2 q2. exact (mix_elem _ e d d' acc2 q2 _ D (G acc2 q2)).
    + now apply kind_perm.
    + apply keeps_items; [apply keeps_mixed|exact F].
    + exact E.
    + exact L.
    + exact Pv.
  - change (Forall2 (entry_of a e) mid its') in F. pose proof (F2_len _ _ _ F) as Lf. pose proof (Permutation_length Pm) as Lp. specialize (AD (S f) strict old s).
    cbn [said] in *. unfold dstep in H, AD |- *. cbv zeta in H, AD |- *. destruct (negb (is_scope ty)); [discriminate|].
    destruct (deach _ (kind_items true its) [] s) as [[vs z]| | |] eqn:E; try discriminate. cbn [rbind] in H, AD. injection H as <- <- <-.
    destruct (AD _ _ _ eq_refl) as (L & P & WO & Pv).
    rewrite (each_mixed (w_lt w) fst (dentry w strict dn a e)) with (R := entry_of a e) (l := kind_items true its) (mid := kind_items true mid) (x := vs) (s' := z) (P := P).
    + cbn [rbind items]. split; [replace (length its') with (length its) by congruence; reflexivity|right; lia].
    + intros d acc q x q' G. destruct (still_pair w strict dn still_dn a e d q x acc q' Ua Ue G) as (p & -> & -> & R). exists p. split; [|now split]. intros acc2 q2. apply R.
    + exact WO.
    + intros d d' y D G acc2 q2. exact (mix_entry a e d d' acc2 q2 _ D (G acc2 q2)).
    + now apply kind_perm.
    + apply keeps_items; [apply keeps_entry|exact F].
    + exact E.
    + exact L.
    + exact Pv.
  - split; [|left; exact (keeps_layout _ _ _ (keeps_mixed e) F)]. cbn [said] in *. unfold dstep in *. cbv zeta in *. destruct (negb (is_scope ty)); [discriminate|].
    refine (seq_step _ VList e its its' s v s' u _ F [] H). intros d d' a q x. apply mix_elem.
  - split; [|left; exact (keeps_layout _ _ _ (keeps_mixed e) F)]. cbn [said] in *. unfold dstep in *. cbv zeta in *. destruct (negb (is_scope ty)); [discriminate|].
    destruct old; try discriminate. destruct (negb _); [discriminate|]. pose proof (keeps_items _ (scoped e) _ _ (keeps_mixed e) F) as Fk. rewrite <- (F2_len _ _ _ Fk). destruct (negb _); [discriminate|].
    destruct (darray w strict dn e vs _ s) as [[x z]| | |] eqn:E; try discriminate. rewrite (mix_array e _ _ Fk _ _ _ E). rewrite <- (upto_layout (scoped e) its its' n (keeps_layout _ _ _ (keeps_mixed e) F)). exact H.
  - split; [|left; exact (keeps_layout _ _ _ (keeps_mixed e) F)]. cbn [said] in *. unfold dstep in *. cbv zeta in *. destruct (negb _); [discriminate|].
    refine (seq_step _ VTab e its its' s v s' u _ F [] H). intros d d' a q x. apply mix_tab.
  - change (Forall2 (one_of str_first a str_second b) its its') in F. split; [|left; exact (keeps_layout _ _ _ (keeps_one str_first a str_second b) F)]. cbn [said] in *. unfold dstep in *. cbv zeta in *. destruct (negb _); [discriminate|].
    destruct old as [| |[|oa [|ob [|? ?]]]| | | | | |]; try discriminate.
    destruct (dfield w strict dn a _ _ _ s) as [[[y s1] u1]| | |] eqn:E1; try discriminate. cbn [rbind] in H. rewrite (proj1 (mix_one a str_first a str_second b _ its its' s _ ltac:(discriminate) F) E1). cbn [rbind].
    destruct (dfield w strict dn b _ _ _ s1) as [[[z s2] u2]| | |] eqn:E2; try discriminate. cbn [rbind] in H. rewrite (proj2 (mix_one a str_first a str_second b _ its its' s1 _ ltac:(discriminate) F) E2). exact H.
  - set (R := fun p q => p = q \/ exists g, In g (w_cls w c) /\ doc_name p = f_name g /\ mixed w (f_type g) p q) in *.
    assert (K : keeps R) by (intros d d' [->|(g & _ & _ & M)]; [now split|exact (mixed_kind _ _ _ _ M)]).
    split; [|left; exact (keeps_layout _ _ _ K F)]. cbn [said] in *. unfold dstep in *. cbv zeta in *. destruct (negb (is_scope ty)); [discriminate|]. destruct old; try discriminate.
    destruct (dfields w strict dn (w_cls w c) vs its s 0 0) as [[[x z] u1]| | |] eqn:E; try discriminate.
    rewrite (mix_fields R its its' K F (w_cls w c) vs s 0 0 _ Nm) with (2 := E); [exact H|].
    intros g d d' I _ Eg [->|(g2 & I2 & E2 & M)]; [constructor|]. replace g with g2; [exact M|].
    assert (Em : f_name g2 = f_name g) by congruence. clear - Nd I I2 Em. induction (w_cls w c) as [|h l IHl]; [destruct I|]. cbn [map] in Nd. inversion Nd as [|? ? N1 N2]; subst.
    destruct I as [->|I], I2 as [->|I2]; auto; exfalso; apply N1; [rewrite <- Em|rewrite Em]; now apply in_map.
  - assert (Es : is_sc d = true) by (destruct d; [discriminate|reflexivity]). pose proof (proj1 (mixed_kind _ _ _ _ M)) as Es'. rewrite Es in Es'. destruct d as [|k ty its]; [discriminate|]. destruct d' as [|k' ty' its']; [discriminate|].
    cbn [said dstep] in *. destruct (dn e _ (DScope k ty its) s) as [[[x z] u1]| | |] eqn:E; try discriminate. destruct (IH _ _ _ _ _ _ _ _ M E) as [R Ft]. rewrite R. cbn [rbind] in *. injection H as <- <- <-. now split.
  - assert (Es : is_sc d = true) by (destruct d; [discriminate|reflexivity]). pose proof (proj1 (mixed_kind _ _ _ _ M)) as Es'. rewrite Es in Es'. destruct d as [|k ty its]; [discriminate|]. destruct d' as [|k' ty' its']; [discriminate|].
    cbn [said dstep] in *. destruct (dn e _ (DScope k ty its) s) as [[[x z] u1]| | |] eqn:E; try discriminate. destruct (IH _ _ _ _ _ _ _ _ M E) as [R Ft]. rewrite R. cbn [rbind] in *. injection H as <- <- <-. now split.
Qed.
End Step.
Theorem mixed_said : forall F w strict t old d d' s v s' u, mixed w t d d' -> said F w strict t old d s = Ok (v, s', u) -> said F w strict t old d' s = Ok (v, s', u) /\ fits (items d) (items d') u.
Proof.
  induction F as [|f IH]; intros w strict t old d d' s v s' u M H; [discriminate|]. exact (mix_step f w strict (fun t old d d' s v s' u => IH w strict t old d d' s v s' u) t old d d' s v s' u M H).
Qed.
Theorem mixed_says F w strict t old d d' s r : scoped t = true -> mixed w t d d' -> says F w strict t old d s = Ok r -> says F w strict t old d' s = Ok r.
Proof.
  unfold says. intros -> M H. destruct (said F w strict t old d s) as [[[v s'] u]| | |] eqn:E; try discriminate. rewrite (proj1 (mixed_said _ _ _ _ _ _ _ _ _ _ _ M E)). exact H.
Qed.
