(** Restoring makes no cycles. *)
From Coq Require Import ZArith List Bool Lia ZifyBool ZifyNat.
From Verif Require Import Base Lemmas M_Types S_Doc M_Event M_PSrl M_MsgPack M_Json M_Tree M_TreeIO M_Object M_ObjIO S_ObjStore S_Agree S_Cycle P_ObjSafe P_ObjPart P_Cycle M_In.
From Verif Require Import P_ObjStore.
Import ListNotations.
Open Scope Z_scope.

(** * What programs return *)
Fixpoint pok {R} (p : prog R) (Q : R -> Prop) : Prop :=
  match p with
  | Ret r => Q r | Throw | OutOfFuel | Undef _ => True
  | NotNull k | Move _ k | Peek _ k | Adv _ k | Anchor _ k => pok k Q
  | TryPeek _ k => forall b, pok (k b) Q
  | Deref _ k | LeftM1 k => forall c, pok (k c) Q
  | Back _ k => forall bs, pok (k bs) Q
  end.
Lemma pok_block {R} (p : prog R) Q : pok p Q -> forall b r b', run_block p b = Ok (r, b') -> Q r.
Proof.
  induction p; cbn [pok run_block]; intros PK bb r' b' E; try discriminate E; eauto.
  - injection E as <- <-. exact PK.
  - destruct (b_done bb), (b_rest bb); try discriminate E; eauto.
  - destruct (two63 <=? n); [discriminate|]. destruct (n <=? zlen (b_rest bb)); [eauto|discriminate].
  - destruct (two63 <=? n); [discriminate|]. destruct (n <=? zlen (b_rest bb)); [eauto|discriminate].
  - destruct (nth_error (b_rest bb) off); [eauto|discriminate].
  - destruct (n <=? length (b_rest bb))%nat; [eauto|discriminate].
  - match type of E with (if ?c then _ else _) = _ => destruct c end; [eauto|discriminate].
Qed.
Lemma pok_stream {R} (p : prog R) Q : pok p Q -> forall b r b', run_stream p b = Ok (r, b') -> Q r.
Proof.
  induction p; cbn [pok run_stream]; intros PK bb r' b' E; try discriminate E; eauto.
  - injection E as <- <-. exact PK.
  - destruct (two63 <=? n); [discriminate|]. destruct (need n bb) as [[] ?]; [eauto|discriminate].
  - destruct (two63 <=? n); [discriminate|]. destruct (need n bb) as [[] ?]; [eauto|discriminate].
  - destruct (need n bb) as [ok ?]; eauto.
  - destruct (nth_error _ _); [eauto|discriminate].
  - match type of E with (if ?c then _ else _) = _ => destruct c end; [eauto|discriminate].
  - destruct b; eauto.
  - match type of E with (if ?c then _ else _) = _ => destruct c end; [eauto|discriminate].
Qed.
Lemma pok_any {R} (p : prog R) : pok p (fun _ => True).
Proof. induction p; cbn [pok]; auto. Qed.
Lemma pok_bind {A B} (p : prog A) (f : A -> prog B) Q : (forall a, pok (f a) Q) -> pok (pbind p f) Q.
Proof. intros H. induction p; cbn [pok pbind]; auto. Qed.
Lemma pok_weaken {A} (p : prog A) (Q R : A -> Prop) : pok p Q -> (forall a, Q a -> R a) -> pok p R.
Proof. intros H W. induction p; cbn [pok] in *; eauto. Qed.
Lemma pok_bind2 {A B} (p : prog A) (f : A -> prog B) P Q : pok p P -> (forall a, P a -> pok (f a) Q) -> pok (pbind p f) Q.
Proof. intros H W. induction p; cbn [pok pbind] in *; eauto. Qed.
Definition any_event (e : event) : Prop := True.
Definition any_ub (u : ub) : Prop := True.
Notation gives p Q := (eok any_event any_ub p Q).
Lemma pok_ecomp {St R} (rd : St -> prog (St * event)) (p : eprog R) Q : gives p Q -> forall st, pok (ecomp rd p st) (fun r => Q (snd r)).
Proof.
  induction p as [r| |u| |k IH]; cbn [eok ecomp]; intros H st; cbn [pok]; auto. apply pok_bind. intros [st' e]. apply IH. apply H. exact I.
Qed.
Lemma pok_parser {R} x F q (p : eprog R) Q : gives p Q -> pok (with_parser x F q p) (fun r => Q (snd r)).
Proof.
  intros H. unfold with_parser. destruct (parser_clear q) as [st|st|st]; (eapply pok_bind2; [apply (pok_ecomp _ _ _ H)|]); intros [st' r] Hr; exact Hr.
Qed.

(** * The references in a value *)
Fixpoint bounded (n : nat) (v : cv) : Prop :=
  match v with
  | VNum _ | VStr _ | VNone => True
  | VList vs | VPoly _ vs => (fix all l := match l with [] => True | x :: l' => bounded n x /\ all l' end) vs
  | VMap l => (fix all l := match l with [] => True | q :: l' => (bounded n (fst q) /\ bounded n (snd q)) /\ all l' end) l
  | VTab l => (fix all l := match l with [] => True | q :: l' => bounded n (snd q) /\ all l' end) l
  | VSome x => bounded n x
  | VRef a => (a < n)%nat
  end.
Lemma bounded_list n vs : bounded n (VList vs) <-> Forall (bounded n) vs.
Proof. cbn. induction vs as [|x vs IH]; cbn; split; intros H; auto; [constructor; tauto|inversion H; tauto]. Qed.
Lemma bounded_poly n c vs : bounded n (VPoly c vs) <-> Forall (bounded n) vs.
Proof. exact (bounded_list n vs). Qed.
Lemma bounded_map n l : bounded n (VMap l) <-> Forall (fun q => bounded n (fst q) /\ bounded n (snd q)) l.
Proof. cbn. induction l as [|x l IH]; cbn; split; intros H; auto; [constructor; tauto|inversion H; tauto]. Qed.
Lemma bounded_tab n l : bounded n (VTab l) <-> Forall (fun q => bounded n (snd q)) l.
Proof. cbn. induction l as [|x l IH]; cbn; split; intros H; auto; [constructor; tauto|inversion H; tauto]. Qed.
Lemma bounded_mono n m : (n <= m)%nat -> forall v, bounded n v -> bounded m v.
Proof.
  intros L. apply (cv_ind2 (fun v => bounded n v -> bounded m v)); auto.
  - intros vs IH H. apply bounded_list in H. apply bounded_list. rewrite Forall_forall in *. auto.
  - intros l I1 I2 H. apply bounded_map in H. apply bounded_map. rewrite Forall_forall in *. intros q I. destruct (H q I). split; [apply I1|apply I2]; auto; now apply in_map.
  - intros l I2 H. apply bounded_tab in H. apply bounded_tab. rewrite Forall_forall in *. intros q I. apply I2; auto. now apply in_map.
  - intros a H. cbn in *. lia.
  - intros c vs IH H. apply bounded_poly in H. apply bounded_poly. rewrite Forall_forall in *. auto.
Qed.
Lemma plain_bounded n : forall v, plain v = true -> bounded n v.
Proof.
  apply (cv_ind2 (fun v => plain v = true -> bounded n v)); auto.
  - cbn; auto.
  - cbn; auto.
  - intros vs IH H. cbn in H. rewrite forallb_forall in H. apply bounded_list. rewrite Forall_forall in *. auto.
  - intros l I1 I2 H. cbn in H. rewrite forallb_forall in H. apply bounded_map. rewrite Forall_forall in *. intros q I. specialize (H q I). apply andb_prop in H. destruct H. split; [apply I1|apply I2]; auto; now apply in_map.
  - intros l I2 H. cbn in H. rewrite forallb_forall in H. apply bounded_tab. rewrite Forall_forall in *. intros q I. apply I2; auto. now apply in_map.
  - cbn; auto.
  - discriminate.
  - intros c vs IH H. cbn in H. rewrite forallb_forall in H. apply bounded_poly. rewrite Forall_forall in *. auto.
Qed.
Lemma emplace_Forall {A} lt key (P : A -> Prop) a : P a -> forall l, Forall P l -> Forall P (emplace lt key a l).
Proof. intros H. induction l as [|b l IH]; intros F; cbn [emplace]; [auto|]. inversion F; subst. destruct (lt (key a) (key b)); [auto|]. destruct (lt (key b) (key a)); auto. Qed.

(** * Objects refer to objects made before *)
Definition ordered (h : heap_t) : Prop := forall a e x, nth_error h a = Some (e, x) -> bounded a x.
Lemma into_bounded h v s x : ordered h -> bounded (length h) v -> into h v s = Some x -> bounded (length h) x.
Proof.
  intros O B E. destruct v, s; try discriminate E; cbn [into] in E.
  - apply bounded_list in B. rewrite Forall_forall in B. apply B. eapply nth_error_In; eauto.
  - apply bounded_map in B. destruct (nth_error l i) eqn:N; [|discriminate]. injection E as <-. rewrite Forall_forall in B. apply (B p). eapply nth_error_In; eauto.
  - apply bounded_map in B. destruct (nth_error l i) eqn:N; [|discriminate]. injection E as <-. rewrite Forall_forall in B. apply (B p). eapply nth_error_In; eauto.
  - apply bounded_tab in B. destruct (nth_error l i) eqn:N; [|discriminate]. injection E as <-. rewrite Forall_forall in B. apply (B p). eapply nth_error_In; eauto.
  - injection E as <-. exact B.
  - destruct (nth_error h a) as [[e y]|] eqn:N; [|discriminate]. injection E as <-. apply (bounded_mono a); [cbn in B; lia|]. eapply O; eauto.
  - apply bounded_poly in B. rewrite Forall_forall in B. apply B. eapply nth_error_In; eauto.
Qed.
Lemma ordered_grounded h : ordered h -> forall n v, bounded n v -> grounded h v.
Proof.
  intros O. induction n as [n IHn] using lt_wf_ind. apply (cv_ind2 (fun v => bounded n v -> grounded h v)).
  - intros; now apply ground_leaf.
  - intros; now apply ground_leaf.
  - intros vs IH B. apply bounded_list in B. apply ground_list. rewrite Forall_forall in *. auto.
  - intros l I1 I2 B. apply bounded_map in B. rewrite Forall_forall in *. apply ground_map; apply Forall_forall; intros x I; [apply I1; auto|apply I2; auto]; apply in_map_iff in I; destruct I as (q & <- & I); apply (B q I).
  - intros l I2 B. apply bounded_tab in B. rewrite Forall_forall in *. apply ground_tab; apply Forall_forall; intros x I; apply I2; auto; apply in_map_iff in I; destruct I as (q & <- & I); apply (B q I).
  - intros; now apply ground_leaf.
  - intros x IH B. apply ground_some. auto.
  - intros a B. cbn in B. destruct (nth_error h a) as [[e x]|] eqn:N.
    + eapply ground_ref; [exact N|]. apply (IHn a B). eapply O; eauto.
    + constructor. intros y [s H]. destruct s; try discriminate H. cbn in H. rewrite N in H. discriminate.
  - intros c vs IH B. apply bounded_poly in B. apply ground_poly. rewrite Forall_forall in *. auto.
Qed.

Section Steps.
Variable w : world.
Hypothesis NEW : forall t, plain (w_new w t) = true.
Definition size (s : rstate) : nat := length (r_heap s).
(** [r] made in a state from [s] on: more objects, and the value refers to them *)
Definition after {A} (B : nat -> A -> Prop) (s : rstate) (v : A) (s' : rstate) : Prop := (size s <= size s')%nat /\ ordered (r_heap s') /\ B (size s') v.
Definition made {A} (B : nat -> A -> Prop) (s : rstate) (r : A * lnode * rstate) : Prop := after B s (fst (fst r)) (snd r).
Lemma after_trans {A B} (P : nat -> A -> Prop) (Q : nat -> B -> Prop) s v s1 v1 s2 : after P s v s1 -> after Q s1 v1 s2 -> after Q s v1 s2.
Proof. intros (L1 & _ & _) (L2 & O & H). split; [lia|auto]. Qed.
Lemma value_bounded n : forall t old v x, bounded n old -> paste_value w t old v = Ok x -> bounded n x.
Proof.
  induction t; intros old v x B E; cbn [paste_value] in E; try discriminate E.
  - apply bind_ok in E. destruct E as (z & _ & E). injection E as <-. exact I.
  - destruct (ty_eqb (v_type v) TNull); [now injection E as <-|]. destruct (ty_eqb (v_type v) TString); [apply bind_ok in E; destruct E as (z & _ & E); injection E as <-; exact I|].
    destruct (negb _); [discriminate|]. apply bind_ok in E. destruct E as (z & _ & E). apply bind_ok in E. destruct E as (z' & _ & E). injection E as <-. exact I.
  - apply bind_ok in E. destruct E as (z & _ & E). injection E as <-. exact I.
  - destruct old; try discriminate. apply bind_ok in E. destruct E as (z & _ & E). injection E as <-. exact I.
  - destruct (v_type v); try discriminate; [|injection E as <-; exact I]. destruct (Nat.eqb _ 0); [injection E as <-; exact I|]. apply bind_ok in E. destruct E as (z & _ & E). injection E as <-. exact I.
  - destruct (ty_eqb (v_type v) TNull); [injection E as <-; exact I|]. apply bind_ok in E. destruct E as (z & E1 & E). injection E as <-. cbn. eapply IHt; [|exact E1]. now apply plain_bounded.
  - apply bind_ok in E. destruct E as (z & E1 & E). injection E as <-. cbn. eapply IHt; [|exact E1]. now apply plain_bounded.
Qed.
Lemma gives_any {A} (p : eprog A) : gives p (fun _ => True).
Proof. induction p; cbn; auto; exact I. Qed.
Lemma gives_bind {A B} (p : eprog A) (f : A -> eprog B) P Q : gives p P -> (forall a, P a -> gives (f a) Q) -> gives (ebind p f) Q.
Proof. intros H W. apply eok_bind. eapply eok_weaken; eauto. Qed.
Lemma gives_res {A} (r : res A) (Q : A -> Prop) : (forall a, r = Ok a -> Q a) -> gives (elift r) Q.
Proof. destruct r; cbn; auto. exact (fun _ => I). Qed.

Variable pn : ct -> cv -> lnode -> rstate -> eprog (cv * lnode * rstate).
Variable F : nat.
Hypothesis PN : forall t old n s, bounded (size s) old -> ordered (r_heap s) -> gives (pn t old n s) (made bounded s).
Lemma field_made t id old n s : bounded (size s) old -> ordered (r_heap s) -> gives (paste_field w pn F t id old n s) (made bounded s).
Proof.
  intros B O. unfold paste_field. destruct (scoped t).
  - eapply gives_bind; [apply gives_any|]. intros [c n1] _. eapply gives_bind; [now apply PN|]. intros [[v c'] s'] M. destruct (l_parsed n); [exact M|]. eapply gives_bind; [apply gives_any|]. intros _ _. exact M.
  - eapply gives_bind; [apply gives_any|]. intros [[v cp] n1] _. eapply gives_bind; [apply gives_res; intros x E; exact (value_bounded (size s) _ _ _ _ B E)|]. intros x Hx. repeat split; auto.
Qed.
Lemma fields_made : forall fs olds n s vi ni, Forall (bounded (size s)) olds -> ordered (r_heap s) -> gives (paste_fields w pn F fs olds n s vi ni) (made (fun k => Forall (bounded k)) s).
Proof.
  induction fs as [|f fs IH]; intros olds n s vi ni B O; cbn [paste_fields]; [repeat split; cbn; auto|]. destruct olds as [|old olds]; [exact I|]. inversion B as [|? ? B1 B2]; subst.
  eapply gives_bind; [apply gives_any|]. intros [h n1] _. cbn [fst snd]. destruct (negb h).
  - eapply gives_bind; [apply IH; auto|]. intros [[vs n'] s'] (L & O' & Bs). repeat split; auto. constructor; [|exact Bs]. eapply bounded_mono; eauto.
  - eapply gives_bind; [apply field_made; auto|]. intros [[v n2] s1] (L & O' & Bv). cbn [fst snd] in *. eapply gives_bind; [apply IH; auto; eapply Forall_impl; [|exact B2]; intros; eapply bounded_mono; eauto|].
    intros [[vs n'] s'] (L2 & O2 & Bs). cbn [fst snd] in *. repeat split; cbn [fst snd]; auto; [lia|]. constructor; [|exact Bs]. eapply bounded_mono; eauto.
Qed.
(** containers: what is made of the elements so far, [P] *)
Section Each.
Context {B : Type}.
Variable P : nat -> B -> Prop.
Lemma stored_made {A} (f : bytes * A -> B -> rstate -> eprog (B * rstate)) :
  (forall a acc s, P (size s) acc -> ordered (r_heap s) -> gives (f a acc s) (fun r => after P s (fst r) (snd r))) ->
  forall l acc s, P (size s) acc -> ordered (r_heap s) -> gives (each_stored f l acc s) (fun r => after P s (fst r) (snd r)).
Proof.
  intros H. induction l as [|a l IH]; intros acc s Pa O; cbn [each_stored]; [repeat split; auto|]. eapply gives_bind; [apply H; auto|]. intros [acc1 s1] M. cbn [fst snd] in *.
  eapply eok_weaken; [apply IH; apply M|]. intros [acc2 s2] M2. eapply after_trans; eauto.
Qed.
Lemma values_made (f : bytes * value -> B -> rstate -> eprog (B * rstate)) :
  (forall a acc s, P (size s) acc -> ordered (r_heap s) -> gives (f a acc s) (fun r => after P s (fst r) (snd r))) ->
  forall fuel acc n s, P (size s) acc -> ordered (r_heap s) -> gives (each_value_read F f fuel acc n s) (made P s).
Proof.
  intros H. induction fuel as [|fuel IH]; intros acc n s Pa O; cbn [each_value_read]; [exact I|]. eapply gives_bind; [apply gives_any|]. intros [[[[k v] cp]|] n1] _; cbn [fst snd]; [|repeat split; auto].
  destruct (l_parsed n1); [repeat split; auto|]. eapply gives_bind; [apply H; auto|]. intros [acc1 s1] M. cbn [fst snd] in *.
  eapply eok_weaken; [apply IH; apply M|]. intros [[acc2 n2] s2] M2. exact (after_trans _ _ _ _ _ _ _ M M2).
Qed.
Lemma nodes_made (f : bytes * lnode -> B -> rstate -> eprog (B * lnode * rstate)) :
  (forall a acc s, P (size s) acc -> ordered (r_heap s) -> gives (f a acc s) (made P s)) ->
  forall fuel acc n s, P (size s) acc -> ordered (r_heap s) -> gives (each_node_read F f fuel acc n s) (made P s).
Proof.
  intros H. induction fuel as [|fuel IH]; intros acc n s Pa O; cbn [each_node_read]; [exact I|]. eapply gives_bind; [apply gives_any|]. intros [[c|] n1] _; cbn [fst snd]; [|repeat split; auto].
  destruct (l_parsed n1); [repeat split; auto|]. eapply gives_bind; [apply H; auto|]. intros [[acc1 c'] s1] M. eapply gives_bind; [apply gives_any|]. intros _ _.
  eapply eok_weaken; [apply IH; apply M|]. intros [[acc2 n2] s2] M2. exact (after_trans _ _ _ _ _ _ _ M M2).
Qed.
Lemma items_made sc fv fn acc n s :
  (forall a acc s, P (size s) acc -> ordered (r_heap s) -> gives (fv a acc s) (fun r => after P s (fst r) (snd r))) ->
  (forall a acc s, P (size s) acc -> ordered (r_heap s) -> gives (fn a acc s) (made P s)) ->
  P (size s) acc -> ordered (r_heap s) -> gives (each_item F sc fv fn acc n s) (made P s).
Proof.
  intros HV HN Pa O. unfold each_item. destruct (l_parsed n).
  - eapply gives_bind with (P := fun r => after P s (fst r) (snd r)); [|intros [a s1] M; exact M]. destruct sc; apply stored_made; auto. intros a acc1 s1 Pa1 O1. eapply gives_bind; [apply HN; auto|]. intros [[a1 c1] s2] M. exact M.
  - destruct sc; [apply nodes_made|apply values_made]; auto.
Qed.
End Each.
Lemma new_bounded n t : bounded n (w_new w t).
Proof. now apply plain_bounded. Qed.
Lemma elem_value_made {B} (P : nat -> B -> Prop) add e : (forall n v acc, bounded n v -> P n acc -> P n (add v acc)) -> forall a acc s, P (size s) acc -> ordered (r_heap s) -> gives (elem_value w add e a acc s) (fun r => after P s (fst r) (snd r)).
Proof. intros H a acc s Pa O. unfold elem_value. eapply gives_bind; [apply gives_res; intros x E; exact (value_bounded (size s) _ _ _ _ (new_bounded _ e) E)|]. intros x Hx. repeat split; cbn [fst snd]; auto. Qed.
Lemma elem_node_made {B} (P : nat -> B -> Prop) add e : (forall n v acc, bounded n v -> P n acc -> P n (add v acc)) -> (forall n m acc, (n <= m)%nat -> P n acc -> P m acc) ->
  forall a acc s, P (size s) acc -> ordered (r_heap s) -> gives (elem_node w pn add e a acc s) (made P s).
Proof.
  intros H MO a acc s Pa O. unfold elem_node. eapply gives_bind; [apply PN; [apply new_bounded|exact O]|]. intros [[v c'] s'] (L & O' & Bv). cbn [fst snd] in *. repeat split; cbn [fst snd]; auto. apply H; auto. eapply MO; eauto.
Qed.
Lemma mono_list n m (vs : list cv) : (n <= m)%nat -> Forall (bounded n) vs -> Forall (bounded m) vs.
Proof. intros L H. eapply Forall_impl; [|exact H]. intros. eapply bounded_mono; eauto. Qed.
Lemma array_stored_made {A} (f : cv -> bytes * A -> rstate -> eprog (cv * rstate)) :
  (forall old a s, bounded (size s) old -> ordered (r_heap s) -> gives (f old a s) (fun r => after bounded s (fst r) (snd r))) ->
  forall olds l s, Forall (bounded (size s)) olds -> ordered (r_heap s) -> gives (array_stored f olds l s) (fun r => after (fun k => Forall (bounded k)) s (fst r) (snd r)).
Proof.
  intros H. induction olds as [|old olds IH]; intros l s B O; cbn [array_stored]; [repeat split; cbn; auto|]. destruct l as [|a l]; [repeat split; cbn; auto|]. inversion B; subst.
  eapply gives_bind; [apply H; auto|]. intros [v s1] (L & O1 & B1). cbn [fst snd] in *. eapply gives_bind; [apply IH; auto; eapply mono_list; eauto|]. intros [vs s2] (L2 & O2 & B2). cbn [fst snd] in *.
  repeat split; cbn [fst snd]; auto; [lia|]. constructor; auto. eapply bounded_mono; eauto.
Qed.
Lemma array_read_made e : forall olds count n s, Forall (bounded (size s)) olds -> ordered (r_heap s) -> gives (array_read w pn F e count olds n s) (made (fun k => Forall (bounded k)) s).
Proof.
  induction olds as [|old olds IH]; intros count n s B O; cbn [array_read]; [repeat split; cbn; auto|]. destruct (l_parsed n); [exact I|]. inversion B; subst.
  eapply gives_bind; [apply field_made; auto|]. intros [[v n1] s1] (L & O1 & B1). cbn [fst snd] in *. eapply gives_bind; [apply IH; auto; eapply mono_list; eauto|]. intros [[vs n2] s2] (L2 & O2 & B2). cbn [fst snd] in *.
  repeat split; cbn [fst snd]; auto; [lia|]. constructor; auto. eapply bounded_mono; eauto.
Qed.
Lemma shared_made e old n s (t := CShared e) : ordered (r_heap s) -> gives (paste_step w pn F t old n s) (made bounded s) /\ gives (paste_step w pn F (CWeak e) old n s) (made bounded s).
Proof.
  intros O. enough (H : gives (paste_step w pn F t old n s) (made bounded s)) by (split; exact H). unfold t, paste_step. cbv zeta.
  eapply gives_bind; [apply field_made; [exact I|exact O]|]. intros [[k n1] s1] (L1 & O1 & _). cbn [fst snd] in *. destruct k as [key| | | | | | | |]; try exact I. destruct (find_key key (r_tab s1)) as [a|].
  - destruct (nth_error (r_heap s1) a) as [[u y]|] eqn:N; [|exact I]. destruct (ct_eqb u e); [|exact I]. repeat split; cbn [fst snd]; auto. cbn. apply nth_error_Some. unfold size in *. congruence.
  - eapply gives_bind; [apply field_made; [apply new_bounded|exact O1]|]. intros [[x n2] s2] (L2 & O2 & B2). cbn [fst snd] in *. repeat split; cbn [fst snd r_heap]; unfold size in *; cbn [r_heap]; rewrite ?app_length; cbn [length bounded]; try lia.
    intros a e' y N. destruct (lt_dec a (length (r_heap s2))) as [La|La].
    + rewrite nth_error_app1 in N by lia. eapply O2; eauto.
    + rewrite nth_error_app2 in N by lia. assert (a = length (r_heap s2)) as -> by (destruct (a - length (r_heap s2))%nat as [|[|k]] eqn:D; cbn in N; try discriminate; lia). rewrite Nat.sub_diag in N. injection N as <- <-. exact B2.
Qed.
Lemma step_made t old n s : bounded (size s) old -> ordered (r_heap s) -> gives (paste_step w pn F t old n s) (made bounded s).
Proof.
  intros B O. unfold paste_step. cbv zeta.
  assert (MB : forall fs old n s vi mk, (forall k vs, Forall (bounded k) vs -> bounded k (mk vs)) -> bounded (size s) old -> ordered (r_heap s) ->
    gives (match old with VList olds => ebind (paste_fields w pn F fs olds n s vi 0) (fun r => let '(vs, n', s') := r in ERet (mk vs, n', s')) | _ => EThrow end) (made bounded s)).
  { clear B O. clear old n s t. intros fs old n s vi mk MK B O. destruct old; try exact I. apply bounded_list in B. eapply gives_bind; [apply fields_made; auto|]. intros [[vs' n'] s'] (L & O' & Bs). repeat split; cbn [fst snd] in *; auto. }
  assert (VL : forall k vs, Forall (bounded k) vs -> bounded k (VList vs)) by (intros; now apply bounded_list).
  destruct t; try exact I.
  - destruct (negb _); [exact I|]. now apply MB.
  - destruct (negb _); [exact I|]. eapply gives_bind; [apply (items_made (fun k => Forall (bounded k)))|].
    + apply (elem_value_made (fun k => Forall (bounded k))). intros k v acc Bv Ba. apply Forall_app. auto.
    + apply (elem_node_made (fun k => Forall (bounded k))); [|intros; eapply mono_list; eauto]. intros k v acc Bv Ba. apply Forall_app. auto.
    + constructor.
    + exact O.
    + intros [[vs n'] s'] (L & O' & Bs). repeat split; cbn [fst snd] in *; auto.
  - destruct (negb _); [exact I|]. eapply gives_bind; [apply (items_made (fun k => Forall (bounded k)))|].
    + apply (elem_value_made (fun k => Forall (bounded k))). intros k v acc Bv Ba. now apply emplace_Forall.
    + apply (elem_node_made (fun k => Forall (bounded k))); [|intros; eapply mono_list; eauto]. intros k v acc Bv Ba. now apply emplace_Forall.
    + constructor.
    + exact O.
    + intros [[vs n'] s'] (L & O' & Bs). repeat split; cbn [fst snd] in *; auto.
  - destruct (negb _); [exact I|]. eapply gives_bind; [apply (items_made (fun k => Forall (fun q => bounded k (fst q) /\ bounded k (snd q))))|].
    + intros; exact I.
    + intros a acc s0 Pa O0. unfold elem_entry. eapply gives_bind; [apply field_made; [apply new_bounded|exact O0]|]. intros [[key c1] s1] (L1 & O1 & B1). cbn [fst snd] in *.
      eapply gives_bind; [apply field_made; [apply new_bounded|exact O1]|]. intros [[val c2] s2] (L2 & O2 & B2). cbn [fst snd] in *. repeat split; cbn [fst snd]; auto; [lia|].
      apply emplace_Forall; [cbn; split; [eapply bounded_mono; eauto|exact B2]|]. eapply Forall_impl; [|exact Pa]. intros q [X Y]. split; (eapply bounded_mono; [|eassumption]); lia.
    + constructor.
    + exact O.
    + intros [[l n'] s'] (L & O' & Bs). repeat split; cbn [fst snd] in *; auto. now apply bounded_map.
  - destruct (negb _); [exact I|].
    assert (TI : forall k (key : bytes) v acc, bounded k v -> Forall (fun q => bounded k (snd q)) acc -> Forall (fun q => bounded k (snd q)) (tab_insert key v acc)).
    { intros k key v acc Bv Ba. unfold tab_insert. destruct (existsb _ acc); [exact Ba|]. apply Forall_app. auto. }
    eapply gives_bind; [apply (items_made (fun k => Forall (fun q => bounded k (snd q))))|].
    + intros a acc s0 Pa O0. unfold entry_value. eapply gives_bind; [apply gives_res; intros x E; exact (value_bounded (size s0) _ _ _ _ (new_bounded _ t) E)|]. intros x Hx. repeat split; cbn [fst snd]; auto.
    + intros a acc s0 Pa O0. unfold entry_node. eapply gives_bind; [apply PN; [apply new_bounded|exact O0]|]. intros [[v c'] s'] (L & O' & Bv). cbn [fst snd] in *. repeat split; cbn [fst snd]; auto. apply TI; [exact Bv|]. eapply Forall_impl; [|exact Pa]. intros q X. eapply bounded_mono; eauto.
    + constructor.
    + exact O.
    + intros [[l n'] s'] (L & O' & Bs). repeat split; cbn [fst snd] in *; auto. now apply bounded_tab.
  - destruct (negb _); [exact I|]. destruct old; try exact I. apply bounded_list in B. destruct (negb _); [exact I|]. destruct (l_parsed n).
    + destruct (scoped t); (destruct (negb _); [exact I|]); (eapply gives_bind; [apply array_stored_made; [|exact B|exact O]|intros [vs1 s1] (L & O' & Bs); repeat split; cbn [fst snd] in *; auto]).
      * intros old a s0 B0 O0. eapply gives_bind; [apply PN; auto|]. intros [[v c'] s'] M. exact M.
      * intros old a s0 B0 O0. eapply gives_bind; [apply gives_res; intros x E; exact (value_bounded (size s0) _ _ _ _ B0 E)|]. intros x Hx. repeat split; cbn [fst snd]; auto.
    + eapply gives_bind; [apply array_read_made; auto|]. intros [[vs1 n1] s1] (L & O' & Bs). repeat split; cbn [fst snd] in *; auto.
  - destruct (negb _); [exact I|]. destruct old as [| |[|oa [|ob [|? ?]]]| | | | | |]; try exact I. apply bounded_list in B. inversion B as [|? ? Ba Bb]; subst. inversion Bb; subst.
    eapply gives_bind; [apply field_made; auto|]. intros [[x n1] s1] (L1 & O1 & B1). cbn [fst snd] in *. eapply gives_bind; [apply field_made; auto; eapply bounded_mono; eauto|]. intros [[y n2] s2] (L2 & O2 & B2). cbn [fst snd] in *.
    split; [cbn [fst snd]; lia|]. split; [exact O2|]. cbn [fst snd]. apply bounded_list. constructor; [eapply bounded_mono; eauto|auto].
  - destruct (negb _); [exact I|]. now apply MB.
  - eapply gives_bind; [apply PN; [apply new_bounded|exact O]|]. intros [[x n1] s1] M. exact M.
  - eapply gives_bind; [apply PN; [apply new_bounded|exact O]|]. intros [[x n1] s1] M. exact M.
  - now apply shared_made.
  - now apply shared_made.
  - destruct (negb _); [exact I|]. eapply gives_bind; [apply gives_any|]. intros [[v cp] n1] _. destruct (negb _ && _); [exact I|]. destruct (cp && _ && _); [exact I|].
    eapply gives_bind; [apply gives_any|]. intros [c|] _; [|exact I]. apply MB; [|apply new_bounded|exact O]. intros k vs H. now apply bounded_poly.
Qed.
End Steps.

Theorem node_made w : (forall t, plain (w_new w t) = true) -> forall F t old n s, bounded (size s) old -> ordered (r_heap s) -> gives (paste_node F w t old n s) (made bounded s).
Proof. intros NEW. induction F as [|F IH]; intros t old n s B O; cbn [paste_node]; [exact I|]. now apply step_made. Qed.
Lemma root_made w F t old n : (forall t, plain (w_new w t) = true) -> plain old = true ->
  gives (ebind (if scoped t then paste_node F w t old n rs_new else paste_field w (paste_node F w) F t (IdPos 0) old n rs_new) (fun r => ERet (fst (fst r), snd r)))
    (fun r => ordered (r_heap (snd r)) /\ bounded (length (r_heap (snd r))) (fst r)).
Proof.
  intros NEW PO. assert (O0 : ordered (r_heap rs_new)) by (intros a e x E; destruct a; discriminate E). assert (B0 : bounded (size rs_new) old) by now apply plain_bounded.
  eapply gives_bind with (P := made bounded rs_new); [|intros [[v n'] s] (_ & O & B); exact (conj O B)].
  destruct (scoped t); [now apply node_made|]. apply field_made; auto. intros. now apply node_made.
Qed.
Definition sound (r : cv * rstate) : Prop := ~ cyclic (r_heap (snd r)) (fst r) /\ forall a, ~ cyclic (r_heap (snd r)) (VRef a).
Lemma ordered_sound r : ordered (r_heap (snd r)) /\ bounded (length (r_heap (snd r))) (fst r) -> sound r.
Proof. intros [O B]. split; [|intros a]; apply grounded_acyclic; [eapply ordered_grounded; eauto|eapply (ordered_grounded _ O (S a)); cbn; lia]. Qed.
Lemma restore_sound w F t old : (forall t, plain (w_new w t) = true) -> plain old = true -> gives (restore_prog F w t old) sound.
Proof.
  intros NEW PO. unfold restore_prog. intros [name v] _. destruct (negb _); [exact I|]. cbv zeta. eapply eok_weaken; [now apply root_made|]. apply ordered_sound.
Qed.
Theorem restore_no_cycle w F q t old : (forall t, plain (w_new w t) = true) -> plain old = true ->
  (forall b q' r b', run_block (restore_object (w_fp w) F w q t old) b = Ok ((q', r), b') -> sound r) /\
  (forall b q' r b', run_stream (restore_object (w_fp w) F w q t old) b = Ok ((q', r), b') -> sound r).
Proof.
  intros NEW PO. pose proof (pok_parser (w_fp w) F q _ _ (restore_sound w F t old NEW PO)) as P.
  split; intros b q' r b' E; [exact (pok_block _ _ P _ _ _ E)|exact (pok_stream _ _ P _ _ _ E)].
Qed.
Lemma gives_run {A} (p : eprog A) Q : gives p Q -> forall r, p = ERet r -> Q r.
Proof. intros H r ->. exact H. Qed.
Theorem unwrap_no_cycle w F t old n r : (forall t, plain (w_new w t) = true) -> plain old = true -> unwrap_prog F w t old n rs_new = ERet r -> sound r.
Proof. intros NEW PO E. apply ordered_sound. exact (gives_run _ _ (root_made w F t old (mkL true n) NEW PO) r E). Qed.
Theorem cycle_differs hp v c s : cyclic hp v -> ~ cyclic (r_heap s) c -> ~ exists r, same_object r v c /\ same_heap r hp (r_heap s).
Proof.
  intros (p & q & a & P & NE & Q) NC (r & SO & SH). pose proof (same_part r hp (r_heap s) SH p v c SO) as X. rewrite P in X.
  destruct (part (r_heap s) c p) as [y|] eqn:PC; [|contradiction]. inversion X as [| | | | | | | |? b RB]; subst. pose proof (same_part r hp (r_heap s) SH q _ _ X) as Y. rewrite Q in Y.
  destruct (part (r_heap s) (VRef b) q) as [z|] eqn:QC; [|contradiction]. inversion Y as [| | | | | | | |? b' RB']; subst. destruct SH as (U & _ & _). rewrite (U _ _ _ RB' RB) in QC.
  apply NC. exists p, q, b. auto.
Qed.

