(** Tree::pack and Tree::unpack against Tree::store and Tree::restore of a class with the same members. *)
From Coq Require Import ZArith List Bool Lia ZifyBool ZifyNat Permutation.
From Verif Require Import Base Lemmas M_Types M_Conv M_TpTools M_Charset M_In S_Doc M_OutOps M_Env M_Event M_PSrl M_MsgPack M_Json M_Heap M_Out M_Tree M_TreeIO S_Tree S_TreeIO
  M_Object M_ObjIO S_Object S_ObjStore S_ObjIO M_Pack S_Pack P_In P_Tree P_ObjEager P_ObjLazy P_ObjStore P_ObjIO P_ObjFit P_ObjMore.
Import ListNotations.
Open Scope Z_scope.

(** * Storing *)
Lemma pack_emits (f : ct -> cv -> bytes -> shared_tab -> res (doc * shared_tab)) : forall its tab,
  emits (fun fv : field * cv => f (f_type (fst fv)) (snd fv) (f_name (fst fv))) (combine (map (fun i => mkField (i_name i) false (i_type i)) its) (map i_val its)) tab =
  emits (fun i => f (i_type i) (i_val i) (i_name i)) its tab.
Proof.
  induction its as [|i its IH]; intros tab; [reflexivity|]. cbn [map combine emits fst snd f_type f_name].
  destruct (f (i_type i) (i_val i) (i_name i) tab) as [[d tab1]| | |]; cbn [rbind]; try reflexivity. rewrite IH. reflexivity.
Qed.
Lemma pack_stored F w hp c its tab : class_of w c its -> pack_doc F w hp its tab = stored_doc F w hp (CCls c) (VList (map i_val its)) [] tab.
Proof.
  intros C. unfold stored_doc. change (null_root (CCls c) (VList (map i_val its))) with false. change (scoped (CCls c)) with true. cbv iota. destruct F as [|F]; [reflexivity|]. cbn [pack_doc emit]. unfold class_of in C. cbv zeta. rewrite !C, !map_length, Nat.eqb_refl.
  pose proof (pack_emits (emit F w hp) its tab) as E. cbv beta in E. rewrite E. destruct (emits _ its tab) as [[ds tab1]| | |]; reflexivity.
Qed.
Theorem pack_store x F w hp c p h its : class_of w c its -> pack_object x F w hp p h its = store_object x F w hp p h [] (CCls c) (VList (map i_val its)).
Proof. intros C. unfold pack_object, store_object. now rewrite (pack_stored F w hp c its [] C). Qed.
Theorem pack_anew F w hp its e e' : tree_pack F w hp its e = tree_pack F w hp its e'.
Proof. unfold tree_pack. destruct e, e'; reflexivity. Qed.

(** * Programs that differ in the result *)
Inductive esame {A B} (f : A -> B) : eprog A -> eprog B -> Prop :=
| es_ret a : esame f (ERet a) (ERet (f a))
| es_throw : esame f EThrow EThrow
| es_undef u : esame f (EUndef u) (EUndef u)
| es_fuel : esame f EFuel EFuel
| es_read k k' : (forall e, esame f (k e) (k' e)) -> esame f (ERead k) (ERead k').
Lemma es_refl {A} (p : eprog A) : esame (fun a => a) p p.
Proof. induction p; constructor; auto. Qed.
Lemma es_bind {A B A' B'} (f : A -> A') (g : B -> B') p p' (k : A -> eprog B) (k' : A' -> eprog B') :
  esame f p p' -> (forall a, esame g (k a) (k' (f a))) -> esame g (ebind p k) (ebind p' k').
Proof. intros H G. induction H; cbn [ebind]; try (constructor; auto; fail). apply G. Qed.
Lemma es_after {A B C} (f : A -> B) (g : A -> C) p p' (k : B -> eprog C) : esame f p p' -> (forall a, k (f a) = ERet (g a)) -> esame g p (ebind p' k).
Proof. intros H G. induction H; cbn [ebind]; try (constructor; auto; fail). rewrite G. constructor. Qed.
Lemma es_block {St A B} (rd : St -> prog (St * event)) (f : A -> B) p p' : esame f p p' -> forall st b,
  run_block (ecomp rd p' st) b = let* (r, b') := run_block (ecomp rd p st) b in Ok ((fst r, f (snd r)), b').
Proof.
  induction 1; intros st b; cbn [ecomp]; try reflexivity. rewrite !run_block_bind. destruct (run_block (rd st) b) as [[[st' e] b']| | |]; cbn [rbind]; auto.
Qed.
Lemma es_stream {St A B} (rd : St -> prog (St * event)) (f : A -> B) p p' : esame f p p' -> forall st b,
  run_stream (ecomp rd p' st) b = let* (r, b') := run_stream (ecomp rd p st) b in Ok ((fst r, f (snd r)), b').
Proof.
  induction 1; intros st b; cbn [ecomp]; try reflexivity. rewrite !run_stream_bind. destruct (run_stream (rd st) b) as [[[st' e] b']| | |]; cbn [rbind]; auto.
Qed.
Lemma es_parser {A B} x F q (f : A -> B) p p' : esame f p p' ->
  (forall b, run_block (with_parser x F q p') b = let* (r, b') := run_block (with_parser x F q p) b in Ok ((fst r, f (snd r)), b')) /\
  (forall b, run_stream (with_parser x F q p') b = let* (r, b') := run_stream (with_parser x F q p) b in Ok ((fst r, f (snd r)), b')).
Proof.
  intros H. unfold with_parser. split; intros b; destruct (parser_clear q); rewrite ?run_block_bind, ?run_stream_bind;
  rewrite ?(es_block _ f p p' H), ?(es_stream _ f p p' H);
  match goal with |- context[rbind (run_block ?P ?Q) _] => destruct (run_block P Q) as [[[st' a] b']| | |] | |- context[rbind (run_stream ?P ?Q) _] => destruct (run_stream P Q) as [[[st' a] b']| | |] end; reflexivity.
Qed.

Lemma items_fields F w : forall its n s vi ni, named its ->
  esame (fun r => r) (paste_items F w its n s) (paste_fields w (paste_node F w) F (map (fun i => mkField (i_name i) false (i_type i)) its) (map i_val its) n s vi ni).
Proof.
  induction its as [|i its IH]; intros n s vi ni Nm; cbn [map paste_items paste_fields]; [apply es_refl|]. inversion Nm as [|? ? N1 N2]; subst. cbn [f_opt f_type f_name ebind fst snd negb].
  replace (0 <? zlen (i_name i)) with true by lia. eapply es_bind; [apply es_refl|]. intros [[v n1] s1]. eapply es_bind; [apply IH; assumption|]. intros [[vs n'] s']. apply es_refl.
Qed.
Lemma unpack_restore F w c its : class_of w c its -> named its ->
  esame (fun r => (VList (fst r), snd r)) (unpack_prog F w its) (restore_prog F w (CCls c) (VList (map i_val its))).
Proof.
  intros C Nm. unfold unpack_prog, restore_prog. constructor. intros [name v]. destruct (is_scope (v_type v)) eqn:T; cbn [negb]; [|constructor].
  change (scoped (CCls c)) with true. cbv iota. destruct F as [|F]; [constructor|]. cbn [paste_node paste_step]. change (n_type (l_node (mkL false (empty_node (v_type v))))) with (v_type v).
  rewrite T. cbn [negb]. rewrite C.
  eapply (es_bind (fun r => (VList (fst (fst r)), snd (fst r), snd r))); [|intros [[vs n'] s']; apply (es_ret (fun r => (VList (fst r), snd r)) (vs, s'))].
  eapply es_after; [apply items_fields; assumption|]. intros [[vs n'] s']. reflexivity.
Qed.

(** * Objects without shared pointers do not depend on the objects shared so far *)
Definition alone {A} (g : rstate -> res (A * rstate)) : Prop := forall s a s', g s = Ok (a, s') -> s' = s /\ forall s0, g s0 = Ok (a, s0).
Definition alone_u {A} (g : rstate -> res (A * rstate * nat)) : Prop := forall s a s' u, g s = Ok (a, s', u) -> s' = s /\ forall s0, g s0 = Ok (a, s0, u).
Ltac step H := match type of H with (rbind ?r _) = Ok _ => let E := fresh "E" in destruct r as [?| | |] eqn:E; cbn [rbind] in H; try discriminate H end.

Section Alone.
Variables (w : world) (st : bool) (dn : ct -> cv -> doc -> rstate -> res (cv * rstate * nat)) (U : ct -> Prop).
Hypothesis HD : forall t old d, U t -> alone_u (dn t old d).
Hypothesis UC : forall t u, U t -> part_types w t u -> U u.
Hypothesis US : forall e, ~ U (CShared e) /\ ~ U (CWeak e).

Lemma al_child t old d : U t -> alone (dchild w st dn t old d).
Proof.
  intros Ut s v s' H. destruct d as [k x|k ty its]; cbn [dchild] in *.
  - destruct (paste_value w t old x); cbn [rbind] in *; try discriminate H. injection H as <- <-. now split.
  - destruct (dn t old (DScope k ty its) s) as [[[v1 s1] u1]| | |] eqn:E; cbn [rbind] in H; try discriminate H. destruct (quiet st its u1) eqn:Q; [|discriminate H]. injection H as <- <-.
    destruct (HD t old _ Ut _ _ _ _ E) as [-> E0]. split; [reflexivity|]. intros s0. rewrite E0. cbn [rbind]. now rewrite Q.
Qed.
Lemma al_field t id old its : U t -> alone_u (dfield w st dn t id old its).
Proof.
  intros Ut s v s' u H. unfold dfield in *. destruct (select (scoped t) id its) as [[j d]|]; [|discriminate H].
  destruct (dchild w st dn t old d s) as [[v1 s1]| | |] eqn:E; cbn [rbind] in H; try discriminate H. injection H as <- <- <-.
  destruct (al_child t old d Ut _ _ _ E) as [-> E0]. split; [reflexivity|]. intros s0. now rewrite E0.
Qed.
Lemma al_fields its : forall fs olds vi ni, Forall (fun f => U (f_type f)) fs -> alone_u (fun s => dfields w st dn fs olds its s vi ni).
Proof.
  induction fs as [|f fs IH]; intros olds vi ni Uf s vs s' u H; cbn [dfields] in *; [injection H as <- <- <-; now split|]. destruct olds as [|old olds]; [discriminate H|].
  inversion Uf as [|? ? U1 U2]; subst. destruct (f_opt f && st && _); [discriminate H|]. destruct (f_opt f && negb _).
  - destruct (dfields w st dn fs olds its s vi ni) as [[[v1 s1] u1]| | |] eqn:E; cbn [rbind] in H; try discriminate H. injection H as <- <- <-.
    destruct (IH olds vi ni U2 _ _ _ _ E) as [-> E0]. split; [reflexivity|]. intros s0. now rewrite E0.
  - destruct (dfield w st dn (f_type f) _ old its s) as [[[v1 s1] u1]| | |] eqn:E; cbn [rbind] in H; try discriminate H. destruct (al_field _ _ _ _ U1 _ _ _ _ E) as [-> E0].
    destruct (dfields w st dn fs olds its s _ _) as [[[v2 s2] u2]| | |] eqn:E2; cbn [rbind] in H; try discriminate H. injection H as <- <- <-.
    destruct (IH olds _ _ U2 _ _ _ _ E2) as [-> E3]. split; [reflexivity|]. intros s0. rewrite E0. cbn [rbind]. now rewrite E3.
Qed.
Lemma al_each {B} (f : doc -> B -> rstate -> res (B * rstate)) : (forall d acc, alone (f d acc)) -> forall l acc, alone (deach f l acc).
Proof.
  intros G. induction l as [|d l IH]; intros acc s r s' H; cbn [deach] in *; [injection H as <- <-; now split|].
  destruct (f d acc s) as [[v1 s1]| | |] eqn:E; cbn [rbind] in H; try discriminate H. destruct (G d acc _ _ _ E) as [-> E0]. destruct (IH v1 _ _ _ H) as [-> E1].
  split; [reflexivity|]. intros s0. rewrite E0. cbn [rbind]. apply E1.
Qed.
Lemma al_elem {B} (add : cv -> B -> B) e d acc : U e -> alone (delem w st dn add e d acc).
Proof.
  intros Ue s r s' H. unfold delem in *. destruct (dchild w st dn e (w_new w e) d s) as [[v1 s1]| | |] eqn:E; cbn [rbind] in H; try discriminate H. injection H as <- <-.
  destruct (al_child _ _ _ Ue _ _ _ E) as [-> E0]. split; [reflexivity|]. intros s0. now rewrite E0.
Qed.
Lemma al_tab e d acc : U e -> alone (dtab w st dn e d acc).
Proof.
  intros Ue s r s' H. unfold dtab in *. destruct (dchild w st dn e (w_new w e) d s) as [[v1 s1]| | |] eqn:E; cbn [rbind] in H; try discriminate H. injection H as <- <-.
  destruct (al_child _ _ _ Ue _ _ _ E) as [-> E0]. split; [reflexivity|]. intros s0. now rewrite E0.
Qed.
Lemma al_entry k e d acc : U k -> U e -> alone (dentry w st dn k e d acc).
Proof.
  intros Uk Ue s r s' H. unfold dentry in *. destruct (dfield w st dn k _ _ (items d) s) as [[[v1 s1] u1]| | |] eqn:E; cbn [rbind] in H; try discriminate H.
  destruct (al_field _ _ _ _ Uk _ _ _ _ E) as [-> E0]. destruct (dfield w st dn e _ _ (items d) s) as [[[v2 s2] u2]| | |] eqn:E2; cbn [rbind] in H; try discriminate H.
  destruct (al_field _ _ _ _ Ue _ _ _ _ E2) as [-> E3]. destruct (quiet st (items d) (Nat.max u1 u2)) eqn:Q; [|discriminate H]. injection H as <- <-. split; [reflexivity|].
  intros s0. rewrite E0. cbn [rbind]. rewrite E3. cbn [rbind]. now rewrite Q.
Qed.
Lemma al_array e : U e -> forall olds l, alone (darray w st dn e olds l).
Proof.
  intros Ue. induction olds as [|old olds IH]; intros l s r s' H; cbn [darray] in *; [injection H as <- <-; now split|]. destruct l as [|d l]; [injection H as <- <-; now split|].
  destruct (dchild w st dn e old d s) as [[v1 s1]| | |] eqn:E; cbn [rbind] in H; try discriminate H. destruct (al_child _ _ _ Ue _ _ _ E) as [-> E0].
  destruct (darray w st dn e olds l s) as [[v2 s2]| | |] eqn:E2; cbn [rbind] in H; try discriminate H. injection H as <- <-. destruct (IH l _ _ _ E2) as [-> E3].
  split; [reflexivity|]. intros s0. rewrite E0. cbn [rbind]. now rewrite E3.
Qed.
Lemma al_members fs old its vi u0 (mk : list cv -> cv) : Forall (fun f => U (f_type f)) fs ->
  alone_u (fun s => match old with VList olds => let* (vs, s', u) := dfields w st dn fs olds its s vi 0 in Ok (mk vs, s', Nat.max u0 u) | _ => Err end).
Proof.
  intros Uf s v s' u H. destruct old; try discriminate H. destruct (dfields w st dn fs vs its s vi 0) as [[[v1 s1] u1]| | |] eqn:E; cbn [rbind] in H; try discriminate H. injection H as <- <- <-.
  destruct (al_fields its fs vs vi 0 Uf _ _ _ _ E) as [-> E0]. split; [reflexivity|]. intros s0. now rewrite E0.
Qed.
Lemma al_end {A} (g : rstate -> res (A * rstate)) (mk : A -> cv) n : alone g -> alone_u (fun s => let* (a, s') := g s in Ok (mk a, s', n)).
Proof.
  intros G s v s' u H. destruct (g s) as [[v1 s1]| | |] eqn:E; cbn [rbind] in H; try discriminate H. injection H as <- <- <-. destruct (G _ _ _ E) as [-> E0]. split; [reflexivity|]. intros s0. now rewrite E0.
Qed.
Lemma class_parts c t : U t -> (forall f, In f (w_cls w c) -> part_types w t (f_type f)) -> Forall (fun f => U (f_type f)) (w_cls w c).
Proof. intros Ut P. apply Forall_forall. intros f I. eapply UC; eauto. Qed.
Lemma al_step t old k ty its : U t -> alone_u (fun s => dstep w st dn t old k ty its s).
Proof.
  intros Ut. unfold dstep. cbv zeta. destruct t as [n|e|e|e n| |c|e|e|k1 e|e|n e|a b|c|e|e|e|e|]; try (intros s v s' u H; discriminate H).
  all: try (exfalso; first [exact (proj1 (US _) Ut) | exact (proj2 (US _) Ut)]).
  all: try (destruct (negb (is_scope ty)); [intros s v s' z H; discriminate H|]); try (destruct (negb (ty_eqb ty TObject)); [intros s v s' z H; discriminate H|]).
  - apply al_members. apply (class_parts c (CCls c) Ut). intros f I. exists f. now split.
  - apply al_end, al_each. intros. apply al_elem. now apply (UC _ e Ut).
  - apply al_end, al_each. intros. apply al_elem. now apply (UC _ e Ut).
  - apply al_end, al_each. intros. apply al_entry; [apply (UC _ k1 Ut)|apply (UC _ e Ut)]; cbn; auto.
  - apply al_end, al_each. intros. apply al_tab. now apply (UC _ e Ut).
  - intros s v s' u H. destruct old; try discriminate H. destruct (negb (Nat.eqb (length vs) n)); [discriminate H|]. destruct (negb _); [discriminate H|]. revert s v s' u H. apply al_end, al_array. now apply (UC _ e Ut).
  - intros s v s' u H. destruct old as [|?|[|oa [|ob [|? ?]]]|?|?| |?|?|?]; try discriminate H.
    destruct (dfield w st dn a _ _ its s) as [[[v1 s1] u1]| | |] eqn:E; cbn [rbind] in H; try discriminate H. destruct (al_field _ _ _ _ (UC _ a Ut (or_introl eq_refl)) _ _ _ _ E) as [-> E0].
    destruct (dfield w st dn b _ _ its s) as [[[v2 s2] u2]| | |] eqn:E2; cbn [rbind] in H; try discriminate H. destruct (al_field _ _ _ _ (UC _ b Ut (or_intror eq_refl)) _ _ _ _ E2) as [-> E3].
    injection H as <- <- <-. split; [reflexivity|]. intros s0. rewrite E0. cbn [rbind]. now rewrite E3.
  - apply al_members. apply Forall_forall. intros f I. apply in_map_iff in I. destruct I as (g & <- & I). apply (UC _ _ Ut). exists g. now split.
  - intros s v s' u H. destruct (dn e (w_new w e) _ s) as [[[v1 s1] u1]| | |] eqn:E; cbn [rbind] in H; try discriminate H. injection H as <- <- <-. destruct (HD _ _ _ (UC _ e Ut eq_refl) _ _ _ _ E) as [-> E0].
    split; [reflexivity|]. intros s0. now rewrite E0.
  - intros s v s' u H. destruct (dn e (w_new w e) _ s) as [[[v1 s1] u1]| | |] eqn:E; cbn [rbind] in H; try discriminate H. injection H as <- <- <-. destruct (HD _ _ _ (UC _ e Ut eq_refl) _ _ _ _ E) as [-> E0].
    split; [reflexivity|]. intros s0. now rewrite E0.
  - destruct (select false (IdName str_type_id) its) as [[j [kk x|]]|]; try (intros s v s' z H; discriminate H). destruct (negb _ && negb _); [intros s v s' z H; discriminate H|].
    destruct (w_reg w _ (v_data x, v_enc x)) as [[c|]| | |] eqn:R; cbn [rbind]; try (intros ? ? ? ? H; discriminate H). apply al_members, (class_parts c _ Ut). intros f I. exists (v_data x, v_enc x), c, f. auto.
Qed.
End Alone.
Lemma al_said w st (U : ct -> Prop) : (forall t u, U t -> part_types w t u -> U u) -> (forall e, ~ U (CShared e) /\ ~ U (CWeak e)) -> forall F t old d, U t -> alone_u (said F w st t old d).
Proof.
  intros UC US. induction F as [|F IH]; intros t old d Ut; cbn [said]; [intros s v s' u H; discriminate H|]. destruct d as [k x|k ty its]; [intros s v s' u H; discriminate H|]. now apply (al_step _ _ _ U).
Qed.

(** * Packing and unpacking *)
Lemma packs_stores w hp c p its bs : class_of w c its -> stores_as w hp p [] (CCls c) (VList (map i_val its)) bs -> packs_as w hp p its bs.
Proof. intros C (size & p' & H). exists size, p'. intros F m L1 L2. destruct (H F m L1 L2) as [h E]. exists h. now rewrite (pack_store _ _ _ _ c). Qed.
Lemma unpacks_run w F q c ask b q' vs s b' : class_of w c ask -> named ask ->
  run_block (restore_object (w_fp w) F w q (CCls c) (VList (map i_val ask))) b = Ok ((q', (VList vs, s)), b') -> run_block (unpack_object (w_fp w) F w q ask) b = Ok ((q', (vs, s)), b').
Proof.
  intros C Nm H. unfold restore_object in H. rewrite (proj1 (es_parser (w_fp w) F q _ _ _ (unpack_restore F w c ask C Nm)) b) in H. unfold unpack_object.
  destruct (run_block _ b) as [[[q1 [vs1 s1]] b1]| | |]; cbn [rbind fst snd] in H; try discriminate H. now injection H as -> -> -> ->.
Qed.
Lemma unpacks_restores w p bs c ask vs s : class_of w c ask -> named ask -> restores_as w p bs (CCls c) (VList (map i_val ask)) (VList vs) s -> unpacks_as w p bs ask vs s.
Proof.
  intros C Nm (size & H). exists size. intros q F before rest Sf L. destruct (H q F before rest Sf L) as (q' & b' & E). exists q', b'. now apply (unpacks_run w F q c).
Qed.
Lemma pastes_run F w c ask n vs s s0 : class_of w c ask -> named ask -> unwrap_prog (S F) w (CCls c) (VList (map i_val ask)) n s0 = ERet (VList vs, s) -> paste_tree F w ask n s0 = ERet (vs, s).
Proof.
  intros C Nm H. unfold unwrap_prog in H. change (scoped (CCls c)) with true in H. cbv iota in H. cbn [paste_node paste_step] in H. change (n_type (l_node (mkL true n))) with (n_type n) in H.
  destruct (is_scope (n_type n)); cbn [negb] in H; [|discriminate H]. rewrite C in H.
  pose proof (items_fields F w ask (mkL true n) s0 0 0 Nm) as E. unfold paste_tree. revert H. inversion E as [a| |u| |k k' _]; subst; cbn [ebind]; try discriminate.
  destruct a as [[vs1 n1] s1]. cbn [ebind fst snd]. intros [= <- <-]. reflexivity.
Qed.
Lemma pastes_unwraps w p bs c ask vs s : class_of w c ask -> named ask -> unwraps_as w p bs (CCls c) (VList (map i_val ask)) (VList vs) s -> pastes_as w p bs ask vs s.
Proof. intros C Nm (size & k & n & L & H). exists size, k, n. split; [exact L|]. intros F HF. apply (pastes_run F w c ask n vs s rs_new C Nm). apply H. lia. Qed.
Theorem pack_unpack w p hp lev n c its old : regular w -> constructs w -> S_ObjStore.heap_ok w hp lev (carried (w_fp w) p) -> class_of w c its -> named its ->
  Forall (fun i => storable w hp lev (carried (w_fp w) p) n (i_type i) (i_val i)) its ->
  map i_name old = map i_name its -> map i_type old = map i_type its -> Forall (fun o => shape w (i_type o) (i_val o)) old -> names_fit w p hp (VList (map i_val its)) ->
  exists d tab size, (forall F, (size <= F)%nat -> pack_doc F w hp its [] = Ok (d, tab)) /\
  (size_fits p d -> exists bs vs s r, packs_as w hp p its bs /\ unpacks_as w p bs old vs s /\ pastes_as w p bs old vs s /\ Forall2 (same_object r) (map i_val its) vs /\ same_heap r hp (r_heap s)).
Proof.
  intros RG NW HP C Nm ST ON OT SH NF.
  assert (Co : class_of w c old). { unfold class_of in *. rewrite C. clear - ON OT. revert old ON OT. induction its as [|i its IH]; intros [|o old] ON OT; try discriminate; [reflexivity|]. cbn [map] in *. injection ON as A1 A2. injection OT as B1 B2. rewrite A1, B1. f_equal. now apply IH. }
  assert (No : named old). { unfold named in *. clear - ON Nm. revert old ON. induction Nm; intros [|o old] ON; try discriminate; [constructor|]. cbn [map] in ON. injection ON as A1 A2. constructor; [now rewrite A1|auto]. }
  assert (ST' : storable w hp lev (carried (w_fp w) p) n (CCls c) (VList (map i_val its))). { apply st_cls. rewrite C. clear - ST. induction ST; constructor; auto. }
  assert (SH' : shape w (CCls c) (VList (map i_val old))). { apply sh_cls. rewrite Co. clear - SH. induction SH; constructor; auto. }
  assert (NE : name_fits p []). { split; [split; [constructor|reflexivity]|]. intros _. split; intros []. }
  destruct (object_kept w p hp lev n (CCls c) _ [] (VList (map i_val old)) RG NW HP ST' SH' NE NF) as (d & tab & size & A & B). exists d, tab, size. split.
  - intros F L. rewrite (pack_stored F w hp c its [] C). now apply A.
  - intros Z. destruct (B Z) as (bs & v & s & r & B1 & B2 & B3 & B4 & B5 & _). inversion B4 as [| | |? vs B6| | | | |]; subst. exists bs, vs, s, r. split; [now apply (packs_stores w hp c)|].
    split; [now apply (unpacks_restores w p bs c)|]. split; [now apply (pastes_unwraps w p bs c)|]. now split.
Qed.

(** * Any of the objects, in any order *)
Lemma each_member w st dn (U : ct -> Prop) its : (forall t old d, U t -> alone_u (dn t old d)) -> forall fs olds s vi ni vs s' u, Forall (fun f => 0 < zlen (f_name f) /\ f_opt f = false /\ U (f_type f)) fs ->
  dfields w st dn fs olds its s vi ni = Ok (vs, s', u) -> forall i f old v, nth_error fs i = Some f -> nth_error olds i = Some old -> nth_error vs i = Some v ->
  exists u', forall s0, dfield w st dn (f_type f) (IdName (f_name f)) old its s0 = Ok (v, s0, u').
Proof.
  intros HD. induction fs as [|g fs IH]; intros olds s vi ni vs s' u Ff H i f old v I1 I2 I3; [destruct i; discriminate I1|]. inversion Ff as [|? ? (N1 & O1 & U1) F2]; subst.
  destruct olds as [|o olds]; [destruct i; discriminate I2|]. cbn [dfields] in H. rewrite O1 in H. cbn [andb] in H. replace (0 <? zlen (f_name g)) with true in H by lia.
  destruct (dfield w st dn (f_type g) (IdName (f_name g)) o its s) as [[[v1 s1] u1]| | |] eqn:E; cbn [rbind] in H; try discriminate H.
  destruct (dfields w st dn fs olds its s1 _ _) as [[[v2 s2] u2]| | |] eqn:E2; cbn [rbind] in H; try discriminate H. injection H as <- <- <-.
  destruct i as [|i]; cbn [nth_error] in *.
  - injection I1 as <-. injection I2 as <-. injection I3 as <-. exists u1. exact (proj2 (al_field w st dn U HD _ _ _ _ U1 _ _ _ _ E)).
  - eapply IH; eauto.
Qed.
Lemma all_members w st dn its : forall ask vs s vi ni, named ask ->
  Forall2 (fun a v => exists u, forall s0, dfield w st dn (i_type a) (IdName (i_name a)) (i_val a) its s0 = Ok (v, s0, u)) ask vs ->
  exists u, dfields w st dn (map (fun i => mkField (i_name i) false (i_type i)) ask) (map i_val ask) its s vi ni = Ok (vs, s, u).
Proof.
  induction ask as [|a ask IH]; intros vs s vi ni Nm H; inversion H as [|? v ? vs' [u E] H2]; subst; cbn [map dfields]; [eauto|]. cbn [f_opt andb f_name f_type]. inversion Nm; subst.
  replace (0 <? zlen (i_name a)) with true by lia. rewrite E. cbn [rbind]. destruct (IH vs' s (if scoped (i_type a) then vi else vi + 1) (if scoped (i_type a) then ni + 1 else ni)) as [u2 ->]; auto. cbn [rbind]. eauto.
Qed.
Definition same_item (a i : item) : bool := bytes_eqb (i_name a) (i_name i).
Lemma unique_item its i j : NoDup (map i_name its) -> In i its -> In j its -> i_name i = i_name j -> i = j.
Proof.
  induction its as [|k its IH]; intros N I J E; [destruct I|]. cbn [map] in N. inversion N as [|? ? N1 N2]; subst. destruct I as [->|I], J as [->|J]; auto.
  - destruct N1. rewrite E. now apply in_map.
  - destruct N1. rewrite <- E. now apply in_map.
Qed.
Theorem pack_unpack_any w p hp lev n c ca its ask : regular w -> constructs w -> S_ObjStore.heap_ok w hp lev (carried (w_fp w) p) -> class_of w c its -> named its -> NoDup (map i_name its) ->
  Forall (fun i => storable w hp lev (carried (w_fp w) p) n (i_type i) (i_val i) /\ plain (i_val i) = true /\ unshared w (i_type i)) its ->
  class_of w ca ask -> NoDup (map i_name ask) -> Forall (fun a => shape w (i_type a) (i_val a) /\ exists v, packed its (i_name a) (i_type a) v) ask -> names_fit w p hp (VList (map i_val its)) ->
  exists d tab size, (forall F, (size <= F)%nat -> pack_doc F w hp its [] = Ok (d, tab)) /\
  (size_fits p d -> exists bs vs, packs_as w hp p its bs /\ unpacks_as w p bs ask vs rs_new /\ Forall2 (fun a v => packed its (i_name a) (i_type a) v) ask vs).
Proof.
  intros RG NW HP C Nm ND ST Ca NDa AS NF.
  set (old := map (fun i => match find (fun a => same_item a i) ask with Some a => i_val a | None => w_new w (i_type i) end) its).
  assert (AT : forall a i, In a ask -> In i its -> i_name a = i_name i -> i_type a = i_type i).
  { intros a i Ia Ii E. rewrite Forall_forall in AS. destruct (AS a Ia) as (_ & v & j & J1 & J2 & J3 & _). rewrite <- J3. f_equal. apply (unique_item its); auto. congruence. }
  assert (Na : named ask).
  { apply Forall_forall. intros a Ia. rewrite Forall_forall in AS. destruct (AS a Ia) as (_ & v & j & J1 & J2 & _). rewrite <- J2. unfold named in Nm. rewrite Forall_forall in Nm. auto. }
  assert (ST' : storable w hp lev (carried (w_fp w) p) n (CCls c) (VList (map i_val its))). { apply st_cls. rewrite C. clear - ST. induction ST as [|? ? (H & _) ? ?]; constructor; auto. }
  assert (SH' : shape w (CCls c) (VList old)).
  { apply sh_cls. rewrite C. unfold old. assert (G : forall i, In i its -> shape w (i_type i) (match find (fun a => same_item a i) ask with Some a => i_val a | None => w_new w (i_type i) end)).
    { intros i Ii. destruct (find _ ask) as [a|] eqn:E; [|apply NW]. apply find_some in E. destruct E as [Ia E]. unfold same_item in E. apply bytes_eqb_eq in E. rewrite <- (AT a i Ia Ii E). rewrite Forall_forall in AS. apply (AS a Ia). }
    clear - G. induction its as [|i its IH]; constructor; [apply G; now left|]. apply IH. intros j J. apply G. now right. }
  assert (NE : name_fits p []). { split; [split; [constructor|reflexivity]|]. intros _. split; intros []. }
  destruct (object_kept w p hp lev n (CCls c) _ [] (VList old) RG NW HP ST' SH' NE NF) as (d & tab & size & A & B). exists d, tab, size. split.
  - intros F L. rewrite (pack_stored F w hp c its [] C). now apply A.
  - intros Z. destruct (B Z) as (bs & v & s & r & B1 & _ & _ & B4 & _ & dn & size' & D1 & D2 & D3).
    assert (v = VList (map i_val its)) as ->. { eapply plain_same; [|exact B4]. cbn [plain]. clear - ST. induction ST as [|? ? (_ & H & _) ? ?]; cbn; [reflexivity|]. now rewrite H. }
    destruct size' as [|f]; [discriminate D2|]. unfold says in D2. change (scoped (CCls c)) with true in D2. cbv iota in D2. cbn [said] in D2. destruct dn as [|k ty ds]; [discriminate D2|]. cbn [dstep] in D2.
    destruct (is_scope ty) eqn:T; cbn [negb] in D2; [|discriminate D2]. rewrite C in D2.
    destruct (dfields w true (said f w true) _ old ds rs_new 0 0) as [[[vs0 s0] u0]| | |] eqn:DF; cbn [rbind] in D2; try discriminate D2. injection D2 as -> ->.
    assert (EX : exists vs, Forall2 (fun a v => packed its (i_name a) (i_type a) v /\ exists u, forall s0, dfield w true (said f w true) (i_type a) (IdName (i_name a)) (i_val a) ds s0 = Ok (v, s0, u)) ask vs).
    { assert (G : forall a, In a ask -> exists v, packed its (i_name a) (i_type a) v /\ exists u, forall s0, dfield w true (said f w true) (i_type a) (IdName (i_name a)) (i_val a) ds s0 = Ok (v, s0, u)).
      { intros a Ia. rewrite Forall_forall in AS. destruct (AS a Ia) as (_ & v & i & I1 & I2 & I3 & I4). exists v. split; [exists i; auto|].
        destruct (In_nth_error _ _ I1) as [j J]. rewrite <- I2, <- I3.
        assert (O : nth_error old j = Some (i_val a)).
        { unfold old. erewrite map_nth_error by exact J. f_equal. destruct (find (fun a0 => same_item a0 i) ask) as [b|] eqn:E.
          - apply find_some in E. destruct E as [Ib E]. unfold same_item in E. apply bytes_eqb_eq in E. f_equal. apply (unique_item ask); auto. congruence.
          - exfalso. pose proof (find_none _ _ E a Ia) as X. unfold same_item in X. cbv beta in X. rewrite I2, (proj2 (bytes_eqb_eq _ _) eq_refl) in X. discriminate X. }
        assert (US : forall i, In i its -> unshared w (i_type i)). { intros i0 I0. rewrite Forall_forall in ST. now destruct (ST i0 I0) as (_ & _ & X). }
        apply (each_member w true (said f w true) (unshared w) ds) with (3 := DF) (i := j) (f := mkField (i_name i) false (i_type i)).
        - intros t o e (U & U1 & U2 & U3). now apply (al_said w true U).
        - apply Forall_forall. intros g G. apply in_map_iff in G. destruct G as (i0 & <- & I0). cbn [f_name f_opt f_type]. unfold named in Nm. rewrite Forall_forall in Nm. auto.
        - now apply (map_nth_error (fun i => mkField (i_name i) false (i_type i))).
        - exact O.
        - rewrite <- I4. now apply map_nth_error. }
      clear - G. induction ask as [|a ask IH]; [exists []; constructor|]. destruct (G a (or_introl eq_refl)) as [v V]. destruct IH as [vs Vs]; [intros b Ib; apply G; now right|]. exists (v :: vs). now constructor. }
    destruct EX as [vs Vs]. exists bs, vs. split; [now apply (packs_stores w hp c)|]. split; [|clear - Vs; induction Vs as [|? ? ? ? [H _] ? ?]; constructor; auto].
    destruct (all_members w true (said f w true) ds ask vs rs_new 0 0 Na) as [u U]. { clear - Vs. induction Vs as [|? ? ? ? [_ H] ? ?]; constructor; auto. }
    exists (S f + length (events (DScope k ty ds)))%nat. intros q F before rest Sf L. assert (L2 : (S f <= F)%nat) by lia.
    destruct (direct_and_tree w F (S f) q _ _ (CCls ca) (VList (map i_val ask)) (VList vs) rs_new RG (D3 q F before rest Sf L2) D1) as [(q' & b' & R) _]; [|exact L|].
    + unfold says. change (scoped (CCls ca)) with true. cbv iota. cbn [said dstep]. rewrite T. cbn [negb]. rewrite Ca, U. reflexivity.
    + exists q', b'. now apply (unpacks_run w F q ca).
Qed.
