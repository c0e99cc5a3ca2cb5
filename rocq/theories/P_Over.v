(** Restoring into objects with different contents. *)
From Coq Require Import ZArith List Bool Lia ZifyBool ZifyNat.
From Verif Require Import Base Lemmas M_Types M_Conv M_TpTools M_Charset M_In S_Doc M_Env M_Event M_Tree S_Tree M_TreeIO M_Object M_ObjIO S_Object S_ObjStore S_ObjIO
  P_In P_Tree P_TreeSafe P_ObjEager P_ObjIO P_Pack S_Over.
Import ListNotations.
Open Scope Z_scope.

Section Over.
Variables (strs : bool) (w : world).
Let ok (v : value) : Prop := strs = true -> v_type v <> TNull.

(** two programs that do the same on the items allowed; [Q]: the results *)
Inductive both {A} (Q : A -> Prop) : eprog A -> eprog A -> Prop :=
| bo_ret a : Q a -> both Q (ERet a) (ERet a)
| bo_throw : both Q EThrow EThrow
| bo_undef u : both Q (EUndef u) (EUndef u)
| bo_fuel : both Q EFuel EFuel
| bo_read k k' : (forall e, ok (snd e) -> both Q (k e) (k' e)) -> both Q (ERead k) (ERead k').
Lemma bo_bind {A B} (Q : A -> Prop) (Q' : B -> Prop) p p' f f' : both Q p p' -> (forall a, Q a -> both Q' (f a) (f' a)) -> both Q' (ebind p f) (ebind p' f').
Proof. intros H G. induction H; cbn [ebind]; try (constructor; auto; fail). now apply G. Qed.
Lemma bo_lift {A} (Q : A -> Prop) (r : res A) : (forall a, r = Ok a -> Q a) -> both Q (elift r) (elift r).
Proof. intros H. destruct r; cbn [elift]; constructor; auto. Qed.
Lemma bo_lift' {A} (r : res A) : both (fun _ => True) (elift r) (elift r).
Proof. apply bo_lift. auto. Qed.

(** * Nodes without such values *)
Inductive clean : node -> Prop :=
| cl_node t vs ns : Forall (fun q : bytes * value => ok (snd q)) vs -> Forall (fun q : bytes * node => clean (snd q)) ns -> clean (mkNode t vs ns).
Definition lclean (n : lnode) : Prop := clean (l_node n).
Lemma cl_empty t : clean (empty_node t).
Proof. constructor; constructor. Qed.
Lemma cl_value n k v : clean n -> ok v -> clean (mkNode (n_type n) (n_values n ++ [(k, v)]) (n_nodes n)).
Proof. intros H N. inversion H; subst. constructor; auto. apply Forall_app. split; [assumption|]. constructor; [exact N|constructor]. Qed.
Lemma cl_child n k c : clean n -> clean c -> clean (mkNode (n_type n) (n_values n) (n_nodes n ++ [(k, c)])).
Proof. intros H N. inversion H; subst. constructor; auto. apply Forall_app. split; [assumption|]. constructor; [exact N|constructor]. Qed.
Lemma erase_forall {A} (P : A -> Prop) : forall i l, Forall P l -> Forall P (erase i l).
Proof. induction i as [|i IH]; intros [|a l] H; cbn [erase]; auto; inversion H; subst; auto. Qed.
Lemma pick_forall {A} (P : A -> Prop) l i a : Forall P l -> pick l i = Some a -> P a.
Proof. intros H E. destruct i as [i|]; [|discriminate]. cbn [pick] in E. rewrite Forall_forall in H. apply H. eapply nth_error_In; eauto. Qed.

(** * Reading items *)
Lemma bo_source : forall f d n, clean n -> both clean (read_source f d n) (read_source f d n).
Proof.
  induction f as [|f IH]; intros d n C; cbn [read_source]; constructor. intros [name v] N. cbn [snd] in N. destruct (ty_eqb _ _); [now constructor|]. destruct (negb _).
  - rewrite store_value_utf8. cbn [elift ebind]. apply IH. now apply cl_value.
  - destruct (_ <? _); [constructor|]. eapply bo_bind; [apply IH, cl_empty|]. intros c Cc. rewrite store_node_utf8. cbn [elift ebind]. apply IH. now apply cl_child.
Qed.
Lemma bo_keep f n name v : lclean n -> ok v -> both lclean (keep_item f n name v) (keep_item f n name v).
Proof.
  intros C N. unfold keep_item. destruct (is_scope (v_type v)).
  - eapply bo_bind; [apply bo_source, cl_empty|]. intros c Cc. rewrite store_node_utf8. cbn [elift ebind]. constructor. now apply cl_child.
  - rewrite store_value_utf8. cbn [elift ebind]. constructor. now apply cl_value.
Qed.
Lemma bo_scan : forall f want p n, lclean n -> both (fun r => (forall k v, fst r = Some (k, v) -> ok v) /\ lclean (snd r)) (scan f want p n) (scan f want p n).
Proof.
  induction f as [|f IH]; intros want p n C; cbn [scan]; [constructor|]. destruct (l_parsed n); [constructor; split; [discriminate|exact C]|]. constructor. intros [name v] N. cbn [snd] in N.
  destruct (ty_eqb _ _); [constructor; split; [discriminate|exact C]|]. destruct (_ && _); [constructor; split; [intros k x [= <- <-]; exact N|exact C]|].
  eapply bo_bind; [now apply bo_keep|]. intros n' C'. now apply IH.
Qed.
Lemma bo_consume_node F id n : lclean n -> both (fun r => (forall k c, fst r = Some (k, c) -> lclean c) /\ lclean (snd r)) (consume_node F id n) (consume_node F id n).
Proof.
  intros C. unfold consume_node. destruct (l_node n) as [t vs ns] eqn:L. assert (C' : clean (mkNode t vs ns)) by (rewrite <- L; exact C). inversion C' as [? ? ? C1 C2]; subst.
  eapply bo_bind; [apply (bo_lift (fun _ => True)); auto|]. intros i _. destruct (pick ns i) as [[k c]|] eqn:P.
  - constructor. cbn [fst snd]. split; [intros k' c' [= <- <-]; exact (pick_forall _ _ _ _ C2 P)|]. constructor; [exact C1|now apply erase_forall].
  - eapply bo_bind; [now apply bo_scan|]. intros [o n'] [O1 O2]. constructor. cbn [fst snd] in *. split; [|exact O2]. destruct o as [[k v]|]; [|discriminate]. intros k' c [= <- <-]. apply cl_empty.
Qed.
Lemma bo_consume_value F id n : lclean n -> both (fun r => (forall k v b, fst r = Some (k, v, b) -> ok v) /\ lclean (snd r)) (consume_value F id n) (consume_value F id n).
Proof.
  intros C. unfold consume_value. destruct (l_node n) as [t vs ns] eqn:L. assert (C' : clean (mkNode t vs ns)) by (rewrite <- L; exact C). inversion C' as [? ? ? C1 C2]; subst.
  eapply bo_bind; [apply (bo_lift (fun _ => True)); auto|]. intros i _. destruct (pick vs i) as [[k v]|] eqn:P.
  - constructor. cbn [fst snd]. split; [intros k' v' b [= <- <- <-]; exact (pick_forall _ _ _ _ C1 P)|]. constructor; [now apply erase_forall|exact C2].
  - eapply bo_bind; [now apply bo_scan|]. intros [o n'] [O1 O2]. constructor. cbn [fst snd] in *. split; [|exact O2]. destruct o as [[k v]|]; [|discriminate]. intros k' v' b [= <- <- <-]. now apply (O1 k v).
Qed.
Lemma bo_scope F n : both (fun _ => True) (consume_scope F n) (consume_scope F n).
Proof.
  unfold consume_scope. destruct (l_parsed n); [now constructor|]. generalize 0. induction F as [|F IH]; intros d; cbn [consume_scope_loop]; constructor. intros e _. destruct (is_scope _); [apply IH|].
  destruct (ty_eqb _ _); [|apply IH]. destruct (_ <=? _); [now constructor|apply IH].
Qed.
Lemma bo_scan_item : forall F h k n, lclean n -> both (fun r => lclean (snd r)) (scan_item F h k n) (scan_item F h k n).
Proof.
  induction F as [|F IH]; intros h k n C; cbn [scan_item]; [constructor|]. destruct (l_parsed n); [now constructor|]. constructor. intros [name v] N. destruct (ty_eqb _ _); [now constructor|].
  eapply bo_bind; [now apply bo_keep|]. intros n' C'. eapply bo_bind; [apply bo_lift'|]. intros b _. destruct b; [now constructor|now apply IH].
Qed.
Lemma bo_item F k n : lclean n -> both (fun r => lclean (snd r)) (consume_item F k n) (consume_item F k n).
Proof.
  intros C. unfold consume_item. eapply bo_bind; [apply bo_lift'|]. intros [i|] _; [now constructor|]. eapply bo_bind; [apply bo_lift'|]. intros [j|] _; [now constructor|].
  eapply bo_bind; [apply bo_lift'|]. intros h _. now apply bo_scan_item.
Qed.
Lemma bo_has F b k n : lclean n -> both (fun r => lclean (snd r)) (has_field F b k n) (has_field F b k n).
Proof.
  intros C. unfold has_field. destruct (l_parsed n).
  - eapply bo_bind; [apply bo_lift'|]. intros h _. now constructor.
  - eapply bo_bind; [now apply bo_item|]. intros [o n'] C'. now constructor.
Qed.
Lemma lookup_in {A} (l : list (bytes * A)) k q : M_Tree.lookup l k = Ok q -> In q l.
Proof.
  unfold M_Tree.lookup. destruct (hash_string k); cbn [rbind]; try discriminate. destruct (find_link true _ l) as [i| | |]; cbn [rbind]; try discriminate. unfold deref. destruct (pick l i) eqn:P; [|discriminate]. intros [= ->].
  destruct i as [i|]; [|discriminate]. eapply nth_error_In; eauto.
Qed.
Lemma at_in {A} (l : list (bytes * A)) i q : (let* o := link_at true i l in deref o) = Ok q -> In q l.
Proof.
  unfold link_at. destruct (_ && _); cbn [rbind]; [|discriminate]. destruct (nth_error l (Z.to_nat i)) eqn:E; cbn [deref]; [|discriminate]. intros [= <-]. eapply nth_error_In; eauto.
Qed.
Lemma bo_field_node F id n : lclean n -> both (fun r => lclean (fst r) /\ lclean (snd r)) (field_node F id n) (field_node F id n).
Proof.
  intros C. unfold field_node. destruct (l_parsed n).
  - eapply (bo_bind (fun c => clean (snd c))).
    + apply bo_lift. intros [k c] E. assert (I : In (k, c) (n_nodes (l_node n))) by (destruct id; [eapply lookup_in|eapply at_in]; exact E).
      unfold lclean in C. destruct (l_node n) as [t vs ns]. inversion C as [? ? ? _ C2]; subst. rewrite Forall_forall in C2. exact (C2 _ I).
    + intros c Cc. constructor. split; [exact Cc|exact C].
  - eapply bo_bind; [now apply bo_consume_node|]. intros [[[k c]|] n'] [O1 O2]; cbn [fst snd need ebind] in *; constructor. split; [now apply (O1 k)|exact O2].
Qed.
Lemma bo_field_value F id n : lclean n -> both (fun r => ok (fst (fst r)) /\ lclean (snd r)) (field_value F id n) (field_value F id n).
Proof.
  intros C. unfold field_value. destruct (l_parsed n).
  - eapply (bo_bind (fun c => ok (snd c))).
    + apply bo_lift. intros [k c] E. assert (I : In (k, c) (n_values (l_node n))) by (destruct id; [eapply lookup_in|eapply at_in]; exact E).
      unfold lclean in C. destruct (l_node n) as [t vs ns]. inversion C as [? ? ? C2 _]; subst. rewrite Forall_forall in C2. exact (C2 _ I).
    + intros c Cc. constructor. split; [exact Cc|exact C].
  - eapply bo_bind; [now apply bo_consume_value|]. intros [[[[k v] b]|] n'] [O1 O2]; cbn [fst snd need ebind] in *; constructor. split; [now apply (O1 k v b)|exact O2].
Qed.

(** * Pasting *)
Definition alike (t : ct) (a b : cv) : Prop := a = b \/ rewritten strs w t /\ shape w t a /\ shape w t b.
Lemma alike_same t a : alike t a a.
Proof. now left. Qed.
Lemma rw_str e : rewritten strs w (CStr e) -> strs = true.
Proof. intros R. remember (CStr e) as t. destruct R as [t M| | | |]; try discriminate; rewrite Heqt in M; exact M. Qed.
Lemma rw_chars e n : ~ rewritten strs w (CChars e n).
Proof. intros R. remember (CChars e n) as t. destruct R as [t M| | | |]; try discriminate; rewrite Heqt in M; exact M. Qed.
Lemma alike_value t a b v : alike t a b -> ok v -> paste_value w t a v = paste_value w t b v.
Proof.
  intros [->|(R & _)] O; [reflexivity|]. destruct t; try reflexivity; [|destruct (rw_chars _ _ R)]. cbn [paste_value].
  destruct (ty_eqb (v_type v) TNull) eqn:E; [|reflexivity]. destruct (O (rw_str _ R)). destruct (v_type v); try discriminate; reflexivity.
Qed.
Definition node_done (r : cv * lnode * rstate) : Prop := lclean (snd (fst r)).
Section Step.
Variable pn : ct -> cv -> lnode -> rstate -> eprog (cv * lnode * rstate).
Variable F : nat.
Hypothesis Hp : forall t a b n s, alike t a b -> lclean n -> both node_done (pn t a n s) (pn t b n s).

Lemma bo_field t id a b n s : alike t a b -> lclean n -> both node_done (paste_field w pn F t id a n s) (paste_field w pn F t id b n s).
Proof.
  intros A C. unfold paste_field. destruct (scoped t).
  - eapply bo_bind; [now apply bo_field_node|]. intros [c n'] [C1 C2]. cbn [fst snd] in *. eapply bo_bind; [now apply Hp|]. intros [[v c'] s'] C3. cbn [fst snd] in *. destruct (l_parsed n); [now constructor|].
    eapply bo_bind; [apply bo_scope|]. intros _ _. now constructor.
  - eapply bo_bind; [now apply bo_field_value|]. intros [[v c] n'] [C1 C2]. cbn [fst snd] in *. rewrite (alike_value t a b v A C1). eapply bo_bind; [apply bo_lift'|]. intros x _. now constructor.
Qed.
Definition fields_done (r : list cv * lnode * rstate) : Prop := lclean (snd (fst r)).
Lemma bo_fields : forall fs os os' n s vi ni, os = os' \/ Forall (fun f => f_opt f = false) fs /\ Forall2 (fun f ab => alike (f_type f) (fst ab) (snd ab)) fs (combine os os') /\ length os = length os' -> lclean n ->
  both fields_done (paste_fields w pn F fs os n s vi ni) (paste_fields w pn F fs os' n s vi ni).
Proof.
  induction fs as [|f fs IH]; intros os os' n s vi ni A C; [now constructor|]. cbn [paste_fields].
  assert (X : (os = [] /\ os' = []) \/ exists a l b l', os = a :: l /\ os' = b :: l' /\ alike (f_type f) a b /\ (f_opt f = true -> a = b) /\
    (l = l' \/ Forall (fun f => f_opt f = false) fs /\ Forall2 (fun f ab => alike (f_type f) (fst ab) (snd ab)) fs (combine l l') /\ length l = length l')).
  { destruct A as [<-|(A1 & A2 & A3)].
    - destruct os as [|a l]; [now left|right]. exists a, l, a, l. repeat split; auto. now left.
    - right. inversion A2 as [|? [a b] ? l0 A4 A5 A6 A7]; subst. destruct os as [|x l]; [discriminate|]. destruct os' as [|y l']; [discriminate|]. cbn [combine] in A7. injection A7 as -> -> ->.
      inversion A1; subst. exists x, l, y, l'. repeat split; auto. congruence. }
  destruct X as [[-> ->]|(a & l & b & l' & -> & -> & Aa & Ao & Al)]; [constructor|].
  eapply (bo_bind (fun h => lclean (snd h) /\ (f_opt f = false -> fst h = true))).
  - destruct (f_opt f); [|now constructor]. pose proof (bo_has F (scoped (f_type f)) (f_name f) n C) as H. clear - H. induction H; constructor; auto. split; [assumption|discriminate].
  - intros [h n'] [C' O]. cbn [fst snd] in *. destruct h; cbn [negb].
    + eapply bo_bind; [now apply bo_field|]. intros [[v n1] s1] C1. eapply bo_bind; [apply IH; [exact Al|exact C1]|]. intros [[vs n2] s2] C2. now constructor.
    + destruct (f_opt f); [|discriminate (O eq_refl)]. rewrite (Ao eq_refl). eapply bo_bind; [now apply IH|]. intros [[vs n2] s2] C2. now constructor.
Qed.
(** elements are made anew: both programs are the same *)
Lemma bo_stored {A B} (P : A -> Prop) (f : bytes * A -> B -> rstate -> eprog (B * rstate)) : (forall a acc s, P (snd a) -> both (fun _ => True) (f a acc s) (f a acc s)) ->
  forall l acc s, Forall (fun q => P (snd q)) l -> both (fun _ => True) (each_stored f l acc s) (each_stored f l acc s).
Proof. intros H. induction l as [|a l IH]; intros acc s C; cbn [each_stored]; [now constructor|]. inversion C; subst. eapply bo_bind; [now apply H|]. intros r _. now apply IH. Qed.
Definition acc_done {B} (r : B * lnode * rstate) : Prop := lclean (snd (fst r)).
Lemma bo_values_read {B} (f : bytes * value -> B -> rstate -> eprog (B * rstate)) : (forall a acc s, ok (snd a) -> both (fun _ => True) (f a acc s) (f a acc s)) ->
  forall k acc n s, lclean n -> both acc_done (each_value_read F f k acc n s) (each_value_read F f k acc n s).
Proof.
  intros H. induction k as [|k IH]; intros acc n s C; cbn [each_value_read]; [constructor|]. eapply bo_bind; [now apply bo_consume_value|]. intros [[[[name v] c]|] n'] [C1 C2]; cbn [fst snd] in *; [|now constructor].
  destruct (l_parsed n'); [now constructor|]. eapply bo_bind; [apply H, (C1 name v c); reflexivity|]. intros q _. now apply IH.
Qed.
Lemma bo_nodes_read {B} (f : bytes * lnode -> B -> rstate -> eprog (B * lnode * rstate)) : (forall a acc s, lclean (snd a) -> both acc_done (f a acc s) (f a acc s)) ->
  forall k acc n s, lclean n -> both acc_done (each_node_read F f k acc n s) (each_node_read F f k acc n s).
Proof.
  intros H. induction k as [|k IH]; intros acc n s C; cbn [each_node_read]; [constructor|]. eapply bo_bind; [now apply bo_consume_node|]. intros [[[name c]|] n'] [C1 C2]; cbn [fst snd] in *; [|now constructor].
  destruct (l_parsed n'); [now constructor|]. eapply bo_bind; [apply H, (C1 name); reflexivity|]. intros [[acc' c'] s'] _. eapply bo_bind; [apply bo_scope|]. intros _ _. now apply IH.
Qed.
Lemma bo_each {B} sc (fv : bytes * value -> B -> rstate -> eprog (B * rstate)) fn acc n s :
  (forall a acc s, ok (snd a) -> both (fun _ => True) (fv a acc s) (fv a acc s)) -> (forall a acc s, lclean (snd a) -> both acc_done (fn a acc s) (fn a acc s)) -> lclean n ->
  both acc_done (each_item F sc fv fn acc n s) (each_item F sc fv fn acc n s).
Proof.
  intros Hv Hn C. unfold each_item. destruct (l_parsed n).
  - eapply (bo_bind (fun _ => True)); [|intros r _; now constructor]. unfold lclean in C. destruct (l_node n) as [t vs ns]. inversion C as [? ? ? C1 C2]; subst. destruct sc.
    + apply (bo_stored clean); [|exact C2]. intros a acc' s' Ca. eapply bo_bind; [now apply Hn|]. intros q _. now constructor.
    + now apply (bo_stored ok).
  - destruct sc; [now apply bo_nodes_read|now apply bo_values_read].
Qed.
Lemma bo_elem_value {B} (add : cv -> B -> B) e a acc s : both (fun _ => True) (elem_value w add e a acc s) (elem_value w add e a acc s).
Proof. unfold elem_value. eapply bo_bind; [apply bo_lift'|]. intros v _. now constructor. Qed.
Lemma bo_elem_node {B} (add : cv -> B -> B) e a acc s : lclean (snd a) -> both acc_done (elem_node w pn add e a acc s) (elem_node w pn add e a acc s).
Proof. intros C. unfold elem_node. eapply bo_bind; [apply Hp; [apply alike_same|exact C]|]. intros [[v c'] s'] D. now constructor. Qed.
Lemma bo_entry k e a acc s : lclean (snd a) -> both acc_done (elem_entry w pn F k e a acc s) (elem_entry w pn F k e a acc s).
Proof.
  intros C. unfold elem_entry. eapply bo_bind; [apply bo_field; [apply alike_same|exact C]|]. intros [[v c1] s1] C1. eapply bo_bind; [apply bo_field; [apply alike_same|exact C1]|]. intros [[x c2] s2] C2. now constructor.
Qed.
Lemma bo_entry_value e a acc s : both (fun _ => True) (entry_value w e a acc s) (entry_value w e a acc s).
Proof. unfold entry_value. eapply bo_bind; [apply bo_lift'|]. intros v _. now constructor. Qed.
Lemma bo_entry_node e a acc s : lclean (snd a) -> both acc_done (entry_node w pn e a acc s) (entry_node w pn e a acc s).
Proof. intros C. unfold entry_node. eapply bo_bind; [apply Hp; [apply alike_same|exact C]|]. intros [[v c'] s'] D. now constructor. Qed.
(** arrays *)
Lemma bo_array_stored {A} (P : A -> Prop) e (f : cv -> bytes * A -> rstate -> eprog (cv * rstate)) : (forall a b x s, alike e a b -> P (snd x) -> both (fun _ => True) (f a x s) (f b x s)) ->
  forall os os' l s, Forall2 (alike e) os os' -> Forall (fun q => P (snd q)) l -> both (fun _ => True) (array_stored f os l s) (array_stored f os' l s).
Proof.
  intros H os os' l s Al. revert l s. induction Al as [|a b os os' A1 A2 IH]; intros [|x l] s C; cbn [array_stored]; try now constructor. inversion C; subst.
  eapply bo_bind; [now apply H|]. intros r _. eapply bo_bind; [now apply IH|]. intros q _. now constructor.
Qed.
Lemma bo_array_read e : forall os os', Forall2 (alike e) os os' -> forall c n s, lclean n -> both fields_done (array_read w pn F e c os n s) (array_read w pn F e c os' n s).
Proof.
  induction 1 as [|a b os os' A1 A2 IH]; intros c n s C; cbn [array_read]; [now constructor|]. destruct (l_parsed n); [constructor|].
  eapply bo_bind; [now apply bo_field|]. intros [[v n1] s1] C1. eapply bo_bind; [now apply IH|]. intros [[vs n2] s2] C2. now constructor.
Qed.
Lemma alike_list e : forall os os', length os = length os' -> rewritten strs w e -> Forall (shape w e) os -> Forall (shape w e) os' -> Forall2 (alike e) os os'.
Proof.
  induction os as [|a os IH]; intros [|b os'] L R A B; try discriminate; constructor; inversion A; inversion B; subst; [right; auto|]. apply IH; auto.
Qed.
Lemma same_list e : forall os, Forall2 (alike e) os os.
Proof. induction os; constructor; auto using alike_same. Qed.
Lemma alike_fields fs os os' : Forall (fun f => rewritten strs w (f_type f)) fs -> Forall2 (fun f v => shape w (f_type f) v) fs os -> Forall2 (fun f v => shape w (f_type f) v) fs os' ->
  Forall2 (fun f ab => alike (f_type f) (fst ab) (snd ab)) fs (combine os os') /\ length os = length os'.
Proof.
  intros R A. revert os'. induction A as [|f a fs os A1 A2 IH]; intros os' B; inversion B; subst; [now split; [constructor|]|]. inversion R; subst. cbn [combine length].
  destruct (IH ltac:(assumption) _ ltac:(eassumption)) as [I1 I2]. split; [|now rewrite I2]. constructor; [right; cbn [fst snd]; auto|exact I1].
Qed.
Lemma bo_members os os' fs n s vi mk : os = os' \/ Forall (fun f => f_opt f = false) fs /\ Forall2 (fun f ab => alike (f_type f) (fst ab) (snd ab)) fs (combine os os') /\ length os = length os' -> lclean n ->
  both node_done (ebind (paste_fields w pn F fs os n s vi 0) (fun r => let '(vs, n', s') := r in ERet (mk vs, n', s'))) (ebind (paste_fields w pn F fs os' n s vi 0) (fun r => let '(vs, n', s') := r in ERet (mk vs, n', s'))).
Proof. intros O C. eapply bo_bind; [now apply bo_fields|]. intros [[vs n'] s'] D. now constructor. Qed.
Lemma bo_step t a b n s : alike t a b -> lclean n -> both node_done (paste_step w pn F t a n s) (paste_step w pn F t b n s).
Proof.
  intros A C. destruct t; cbn [paste_step]; try (constructor; fail).
  - (* class *) destruct (negb _); [constructor|].
    destruct A as [<-|(R & A & B)]; [destruct a; try (constructor; fail); apply bo_members; [now left|exact C]|]. inversion R as [? M|? M| | |]; subst; [contradiction|]. inversion A; subst; [contradiction|]. inversion B; subst; [contradiction|]. apply bo_members; [right|exact C].
    split; [eapply Forall_impl; [|exact M]; now intros f []|]. apply alike_fields; auto. eapply Forall_impl; [|exact M]. now intros f [].
  - (* sequence *) destruct (negb _); [constructor|]. eapply bo_bind; [apply bo_each; [intros; apply bo_elem_value|intros; now apply bo_elem_node|exact C]|]. intros [[vs n'] s'] D. now constructor.
  - (* set *) destruct (negb _); [constructor|]. eapply bo_bind; [apply bo_each; [intros; apply bo_elem_value|intros; now apply bo_elem_node|exact C]|]. intros [[vs n'] s'] D. now constructor.
  - (* map *) destruct (negb _); [constructor|]. eapply bo_bind; [apply bo_each; [intros; constructor|intros; now apply bo_entry|exact C]|]. intros [[vs n'] s'] D. now constructor.
  - (* table *) destruct (negb _); [constructor|]. eapply bo_bind; [apply bo_each; [intros; apply bo_entry_value|intros; now apply bo_entry_node|exact C]|]. intros [[vs n'] s'] D. now constructor.
  - (* array *) destruct (negb _); [constructor|].
    assert (Fa : forall os os', Forall2 (alike t) os os' -> length os = length os' -> both node_done
      (if negb (Nat.eqb (length os) n0) then EThrow
       else if l_parsed n then
         if scoped t then
           if negb (Nat.eqb (length (n_nodes (l_node n))) n0) then EThrow
           else ebind (array_stored (fun old a s => ebind (pn t old (mkL true (snd a)) s) (fun q => ERet (fst (fst q), snd q))) os (n_nodes (l_node n)) s) (fun r => ERet (VList (fst r), n, snd r))
         else
           if negb (Nat.eqb (length (n_values (l_node n))) n0) then EThrow
           else ebind (array_stored (fun old a s => ebind (elift (paste_value w t old (snd a))) (fun v => ERet (v, s))) os (n_values (l_node n)) s) (fun r => ERet (VList (fst r), n, snd r))
       else ebind (array_read w pn F t 0 os n s) (fun r => let '(vs, n', s') := r in ERet (VList vs, n', s')))
      (if negb (Nat.eqb (length os') n0) then EThrow
       else if l_parsed n then
         if scoped t then
           if negb (Nat.eqb (length (n_nodes (l_node n))) n0) then EThrow
           else ebind (array_stored (fun old a s => ebind (pn t old (mkL true (snd a)) s) (fun q => ERet (fst (fst q), snd q))) os' (n_nodes (l_node n)) s) (fun r => ERet (VList (fst r), n, snd r))
         else
           if negb (Nat.eqb (length (n_values (l_node n))) n0) then EThrow
           else ebind (array_stored (fun old a s => ebind (elift (paste_value w t old (snd a))) (fun v => ERet (v, s))) os' (n_values (l_node n)) s) (fun r => ERet (VList (fst r), n, snd r))
       else ebind (array_read w pn F t 0 os' n s) (fun r => let '(vs, n', s') := r in ERet (VList vs, n', s')))).
    { intros os os' L E. rewrite E. destruct (negb _); [constructor|]. destruct (l_parsed n).
      - pose proof C as C'. unfold lclean in C'. destruct (l_node n) as [ty vs ns] eqn:Ln. inversion C' as [? ? ? C1 C2]; subst. cbn [n_nodes n_values]. destruct (scoped t); destruct (negb _); try (constructor; fail).
        + eapply bo_bind; [apply (bo_array_stored clean t)|intros r _; now constructor]; [|exact L|exact C2]. intros x y q s' Axy Cq. eapply bo_bind; [apply Hp; [exact Axy|exact Cq]|]. intros z _. now constructor.
        + eapply bo_bind; [apply (bo_array_stored ok t)|intros r _; now constructor]; [|exact L|exact C1]. intros x y q s' Axy Cq. rewrite (alike_value t x y (snd q) Axy Cq). eapply bo_bind; [apply bo_lift'|]. intros z _. now constructor.
      - eapply bo_bind; [now apply bo_array_read|]. intros [[vs n'] s'] D. now constructor. }
    destruct A as [<-|(R & A & B)]; [destruct a; try (constructor; fail); apply Fa; [apply same_list|reflexivity]|]. inversion R as [? M| | |? ? M|]; subst; [contradiction|]. inversion A; subst; [contradiction|]. inversion B; subst; [contradiction|].
    apply Fa; [apply alike_list; auto|]; congruence.
  - (* pair *) destruct (negb _); [constructor|].
    assert (Fp : forall oa ob oa' ob', alike t1 oa oa' -> alike t2 ob ob' -> both node_done
      (ebind (paste_field w pn F t1 (IdName str_first) oa n s) (fun r => let '(x, n1, s1) := r in ebind (paste_field w pn F t2 (IdName str_second) ob n1 s1) (fun r => let '(y, n2, s2) := r in ERet (VList [x; y], n2, s2))))
      (ebind (paste_field w pn F t1 (IdName str_first) oa' n s) (fun r => let '(x, n1, s1) := r in ebind (paste_field w pn F t2 (IdName str_second) ob' n1 s1) (fun r => let '(y, n2, s2) := r in ERet (VList [x; y], n2, s2))))).
    { intros oa ob oa' ob' A1 A2. eapply bo_bind; [now apply bo_field|]. intros [[x n1] s1] C1. eapply bo_bind; [now apply bo_field|]. intros [[y n2] s2] C2. now constructor. }
    destruct A as [<-|(R & A & B)].
    + destruct a as [| |[|oa [|ob [|]]]| | | | | |]; try (constructor; fail). apply Fp; apply alike_same.
    + inversion R as [? M| | | |? ? M1 M2]; subst; [contradiction|]. inversion A; subst; [contradiction|]. inversion B; subst; [contradiction|]. apply Fp; right; auto.
  - (* tuple *) destruct (negb _); [constructor|].
    destruct A as [<-|(R & A & B)]; [destruct a; try (constructor; fail); apply bo_members; [now left|exact C]|]. inversion R as [? M| |? M| |]; subst; [contradiction|]. inversion A as [? ? X| |? vs E1| | |]; subst; [contradiction|]. inversion B as [? ? X| |? vs' E2| | |]; subst; [contradiction|]. apply bo_members; [right|exact C].
    destruct (alike_fields _ vs vs' M E1 E2) as [L1 L2]. split; [|split; [|exact L2]].
    + clear. induction (w_cls w c); constructor; auto.
    + clear - L1. remember (combine vs vs') as l eqn:E. clear E. induction L1; constructor; auto.
  - eapply bo_bind; [apply Hp; [apply alike_same|exact C]|]. intros [[x n'] s'] D. now constructor.
  - eapply bo_bind; [apply Hp; [apply alike_same|exact C]|]. intros [[x n'] s'] D. now constructor.
  - eapply bo_bind; [apply bo_field; [apply alike_same|exact C]|]. intros [[k n1] s1] C1. destruct k; try (constructor; fail). destruct (find_key _ _).
    + destruct (nth_error _ _) as [[u y]|]; [|constructor]. destruct (ct_eqb _ _); [now constructor|constructor].
    + eapply bo_bind; [apply bo_field; [apply alike_same|exact C1]|]. intros [[x n2] s2] C2. now constructor.
  - eapply bo_bind; [apply bo_field; [apply alike_same|exact C]|]. intros [[k n1] s1] C1. destruct k; try (constructor; fail). destruct (find_key _ _).
    + destruct (nth_error _ _) as [[u y]|]; [|constructor]. destruct (ct_eqb _ _); [now constructor|constructor].
    + eapply bo_bind; [apply bo_field; [apply alike_same|exact C1]|]. intros [[x n2] s2] C2. now constructor.
  - (* polymorphic *) destruct (negb _); [constructor|]. eapply bo_bind; [now apply bo_field_value|]. intros [[v cp] n1] [C1 C2]. cbn [fst snd] in *. destruct (_ && _); [constructor|]. destruct (_ && _); [constructor|].
    eapply bo_bind; [apply bo_lift'|]. intros [c|] _; [|constructor]. destruct (w_new w (CCls c)); try (constructor; fail). apply bo_members; [now left|exact C2].
Qed.
End Step.
Lemma bo_node : forall F t a b n s, alike t a b -> lclean n -> both node_done (paste_node F w t a n s) (paste_node F w t b n s).
Proof. induction F as [|F IH]; intros t a b n s A C; cbn [paste_node]; [constructor|]. apply bo_step; auto. Qed.
Lemma bo_unwrap F t a b n s : alike t a b -> clean n -> both (fun _ => True) (unwrap_prog F w t a n s) (unwrap_prog F w t b n s).
Proof.
  intros A C. unfold unwrap_prog. eapply (bo_bind node_done); [|intros r _; now constructor]. destruct (scoped t); [now apply bo_node|]. apply bo_field; [|exact A|exact C]. intros. now apply bo_node.
Qed.
Lemma bo_restore F t a b : alike t a b -> both (fun _ => True) (restore_prog F w t a) (restore_prog F w t b).
Proof.
  intros A. unfold restore_prog. constructor. intros [name v] _. destruct (negb _); [constructor|]. eapply (bo_bind node_done); [|intros r _; now constructor].
  destruct (scoped t); [apply bo_node; [exact A|apply cl_empty]|]. apply bo_field; [|exact A|apply cl_empty]. intros. now apply bo_node.
Qed.
Lemma both_erun {A} (Q : A -> Prop) p p' : both Q p p' -> forall es, Forall (fun e : event => ok (snd e)) es -> erun p es = erun p' es.
Proof. induction 1; intros es H'; cbn [erun]; try reflexivity. destruct es as [|e es]; [reflexivity|]. inversion H'; subst. auto. Qed.
End Over.

Lemma over_block {St A} strs (rd : St -> prog (St * event)) (Q : A -> Prop) p p' : both strs Q p p' -> forall st b,
  (forall n st' es b', run_block (ecomp rd (first_items n) st) b = Ok ((st', es), b') -> strs = true -> no_null es) -> run_block (ecomp rd p st) b = run_block (ecomp rd p' st) b.
Proof.
  induction 1 as [| | | |k k' H IH]; intros st b N; cbn [ecomp]; try reflexivity. rewrite !run_block_bind. destruct (run_block (rd st) b) as [[[st1 e] b1]| | |] eqn:R; cbn [rbind]; try reflexivity. apply IH.
  - intros S. specialize (N 1%nat st1 [e] b1). cbn [first_items ebind ecomp] in N. rewrite run_block_bind, R in N. specialize (N eq_refl S). now inversion N.
  - intros n st' es b' E S. specialize (N (Datatypes.S n) st' (e :: es) b'). cbn [first_items ecomp] in N. rewrite run_block_bind, R in N. cbn [rbind] in N. rewrite ecomp_bind in N.
    rewrite run_block_bind, E in N. specialize (N eq_refl S). now inversion N.
Qed.
Lemma ecomp_bind_stream {St A B} (rd : St -> prog (St * event)) (p : eprog A) (f : A -> eprog B) : forall st b,
  run_stream (ecomp rd (ebind p f) st) b = run_stream (let! (st', a) := ecomp rd p st in ecomp rd (f a) st') b.
Proof.
  induction p as [a| |u| |k IH]; intros st b; cbn [ebind ecomp]; try reflexivity. rewrite !run_stream_bind. destruct (run_stream (rd st) b) as [[[st1 e] b1]| | |]; cbn [rbind]; try reflexivity. rewrite IH, run_stream_bind. reflexivity.
Qed.
Lemma over_stream {St A} strs (rd : St -> prog (St * event)) (Q : A -> Prop) p p' : both strs Q p p' -> forall st b,
  (forall n st' es b', run_stream (ecomp rd (first_items n) st) b = Ok ((st', es), b') -> strs = true -> no_null es) -> run_stream (ecomp rd p st) b = run_stream (ecomp rd p' st) b.
Proof.
  induction 1 as [| | | |k k' H IH]; intros st b N; cbn [ecomp]; try reflexivity. rewrite !run_stream_bind. destruct (run_stream (rd st) b) as [[[st1 e] b1]| | |] eqn:R; cbn [rbind]; try reflexivity. apply IH.
  - intros S. specialize (N 1%nat st1 [e] b1). cbn [first_items ebind ecomp] in N. rewrite run_stream_bind, R in N. specialize (N eq_refl S). now inversion N.
  - intros n st' es b' E S. specialize (N (Datatypes.S n) st' (e :: es) b'). cbn [first_items ecomp] in N. rewrite run_stream_bind, R in N. cbn [rbind] in N. rewrite ecomp_bind_stream in N.
    rewrite run_stream_bind, E in N. specialize (N eq_refl S). now inversion N.
Qed.
Lemma restore_over_block strs F w q t a b i : rewritten strs w t -> shape w t a -> shape w t b -> (strs = true -> block_without_null (w_fp w) F q i) ->
  run_block (restore_object (w_fp w) F w q t a) i = run_block (restore_object (w_fp w) F w q t b) i.
Proof.
  intros R A B N. assert (H : both strs (fun _ => True) (restore_prog F w t a) (restore_prog F w t b)) by (apply bo_restore; right; auto).
  unfold restore_object, block_without_null, with_parser in *. destruct (parser_clear q); rewrite !run_block_bind; (rewrite (over_block _ _ _ _ _ H); [reflexivity|]);
  intros n st' es b' E S; eapply (N S n); rewrite run_block_bind, E; reflexivity.
Qed.
Lemma restore_over_stream strs F w q t a b i : rewritten strs w t -> shape w t a -> shape w t b -> (strs = true -> stream_without_null (w_fp w) F q i) ->
  run_stream (restore_object (w_fp w) F w q t a) i = run_stream (restore_object (w_fp w) F w q t b) i.
Proof.
  intros R A B N. assert (H : both strs (fun _ => True) (restore_prog F w t a) (restore_prog F w t b)) by (apply bo_restore; right; auto).
  unfold restore_object, stream_without_null, with_parser in *. destruct (parser_clear q); rewrite !run_stream_bind; (rewrite (over_stream _ _ _ _ _ H); [reflexivity|]);
  intros n st' es b' E S; eapply (N S n); rewrite run_stream_bind, E; reflexivity.
Qed.
Lemma without_clean strs : forall n, (strs = true -> tree_without_null n) -> clean strs n.
Proof.
  induction n as [t vs ns IH] using node_ind'. intros H. constructor.
  - apply Forall_forall. intros q I S. specialize (H S). inversion H as [? ? ? H1 _]; subst. rewrite Forall_forall in H1. exact (H1 q I).
  - rewrite Forall_forall in IH |- *. intros q I. apply (IH q I). intros S. specialize (H S). inversion H as [? ? ? _ H1]; subst. rewrite Forall_forall in H1. exact (H1 q I).
Qed.
Lemma unwrap_over strs F w t a b n s : rewritten strs w t -> shape w t a -> shape w t b -> (strs = true -> tree_without_null n) ->
  unwrap_prog F w t a n s = unwrap_prog F w t b n s.
Proof.
  intros R A B N. assert (H : both strs (fun _ => True) (unwrap_prog F w t a n s) (unwrap_prog F w t b n s)) by (apply bo_unwrap; [right; auto|now apply without_clean]).
  rewrite <- (doc_node_tree n []) in *. destruct (tree_doc_scope [] n) as (ty & its & E). rewrite E, doc_node_eq in *. rewrite !(eager_says F w t _ []) in *.
  destruct (says F w false t a (DScope [] ty its) s) as [x| |u|]; cbn [elift] in *; inversion H; reflexivity.
Qed.
(** an input of [N] items *)
Lemma items_step {St} (rd : St -> prog (St * event)) n st b : run_block (ecomp rd (first_items (S n)) st) b =
  let* (r, b1) := run_block (rd st) b in let* (r2, b2) := run_block (ecomp rd (first_items n) (fst r)) b1 in Ok ((fst r2, snd r :: snd r2), b2).
Proof.
  cbn [first_items ecomp]. rewrite run_block_bind. destruct (run_block (rd st) b) as [[[s1 e] b1]| | |]; cbn [rbind fst snd]; try reflexivity. rewrite ecomp_bind, run_block_bind.
  destruct (run_block (ecomp rd (first_items n) s1) b1) as [[[s2 es2] b2]| | |]; reflexivity.
Qed.
Lemma items_prefix {St} (rd : St -> prog (St * event)) : forall m n st b st' es b', run_block (ecomp rd (first_items (n + m)) st) b = Ok ((st', es), b') ->
  exists st1 b1, run_block (ecomp rd (first_items n) st) b = Ok ((st1, firstn n es), b1).
Proof.
  intros m. induction n as [|n IH]; intros st b st' es b' H; [exists st, b; reflexivity|]. cbn [Nat.add] in H. rewrite items_step in H. destruct (run_block (rd st) b) as [[[s1 e] b1]| | |] eqn:R; cbn [rbind fst snd] in H; try discriminate.
  destruct (run_block (ecomp rd (first_items (n + m)) s1) b1) as [[[s2 es2] b2]| | |] eqn:E; cbn [rbind fst snd] in H; try discriminate. injection H as <- <- <-.
  destruct (IH _ _ _ _ _ E) as (s3 & b3 & E3). exists s3, b3. rewrite items_step, R. cbn [rbind fst snd]. rewrite E3. reflexivity.
Qed.
Lemma items_det x F q (i : blk) N q' es i' : run_block (with_parser x F q (first_items N)) i = Ok ((q', es), i') -> no_null es ->
  (forall r, run_block (with_parser x F q (first_items (S N))) i <> Ok r) -> block_without_null x F q i.
Proof.
  intros H Nn E n q1 es1 i1 H1.
  assert (G : forall {St} (rd : St -> prog (St * event)) (mk : St -> parser) st,
    run_block (let! (st', r) := ecomp rd (first_items N) st in Ret (mk st', r)) i = Ok ((q', es), i') -> (forall r, run_block (let! (st', r) := ecomp rd (first_items (S N)) st in Ret (mk st', r)) i <> Ok r) ->
    run_block (let! (st', r) := ecomp rd (first_items n) st in Ret (mk st', r)) i = Ok ((q1, es1), i1) -> no_null es1).
  { intros St rd mk st A B C. rewrite run_block_bind in A, C.
    destruct (run_block (ecomp rd (first_items N) st) i) as [[[sa ea] ia]| | |] eqn:Ea; try discriminate. cbn in A. injection A as _ -> _.
    destruct (run_block (ecomp rd (first_items n) st) i) as [[[sc ec] ic]| | |] eqn:Ec; try discriminate. cbn in C. injection C as _ -> _.
    destruct (Nat.le_gt_cases n N) as [L|L].
    - replace N with (n + (N - n))%nat in Ea by lia. destruct (items_prefix rd _ _ _ _ _ _ _ Ea) as (s3 & b3 & E3). rewrite E3 in Ec. injection Ec as _ <- _.
      unfold no_null in *. rewrite Forall_forall in *. intros e I. apply Nn. clear - I. rewrite <- (firstn_skipn n es). apply in_or_app. now left.
    - replace n with (S N + (n - S N))%nat in Ec by lia. destruct (items_prefix rd _ _ _ _ _ _ _ Ec) as (s3 & b3 & E3). destruct (B ((mk s3, firstn (S N) es1), b3)). rewrite run_block_bind, E3. reflexivity. }
  unfold with_parser in *. destruct (parser_clear q); eauto.
Qed.
