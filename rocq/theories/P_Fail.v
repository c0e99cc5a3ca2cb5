(** Objects after restoring has failed. *)
From Coq Require Import ZArith List Bool Lia ZifyBool ZifyNat.
From Verif Require Import Base Lemmas M_Types M_Conv M_TpTools M_Charset M_In S_Doc M_Env M_Event M_PSrl M_MsgPack M_Json M_Tree M_TreeIO M_Object M_ObjIO M_Bits S_Bits P_In P_Bits M_Fail S_Fail S_ObjStore S_Over P_Over P_Again.
Import ListNotations.
Open Scope Z_scope.

(** a program that writes to [o] does what another one does; [P]: result and object if it succeeds, [N]: the object if it throws *)
Inductive sim {A} (P : A -> obj -> Prop) (N : obj -> Prop) : obj -> oprog A -> eprog A -> Prop :=
| sm_ret o r : P r o -> sim P N o (ORet r) (ERet r)
| sm_throw o : N o -> sim P N o OThrow EThrow
| sm_undef o u : sim P N o (OUndef u) (EUndef u)
| sm_fuel o : sim P N o OFuel EFuel
| sm_read o k k' : N o -> (forall e, sim P N o (k e) (k' e)) -> sim P N o (ORead k) (ERead k')
| sm_set o p v q q' : sim P N (change p (fun _ => OVal v) o) q q' -> sim P N o (OSet p v q) q'
| sm_del o p q q' : is_dead (select_part p o) = false -> sim P N (change p deleted o) q q' -> sim P N o (ODel p q) q'.

Lemma sim_bind {A B} (P : A -> obj -> Prop) (N : obj -> Prop) (P' : B -> obj -> Prop) (N' : obj -> Prop) o q p f f' :
  sim P N o q p -> (forall o, N o -> N' o) -> (forall a o, P a o -> sim P' N' o (f a) (f' a)) -> sim P' N' o (obind q f) (ebind p f').
Proof. intros H W G. induction H; cbn [obind ebind]; try (constructor; auto; fail). now apply G. Qed.
Lemma sim_weaken {A} (P P' : A -> obj -> Prop) (N N' : obj -> Prop) o q p : sim P N o q p -> (forall a o, P a o -> P' a o) -> (forall o, N o -> N' o) -> sim P' N' o q p.
Proof. intros H W G. induction H; constructor; auto. Qed.
Lemma sim_lift {A} (P : A -> obj -> Prop) (N : obj -> Prop) o (p : eprog A) : (forall a, P a o) -> N o -> sim P N o (olift p) p.
Proof. intros H G. induction p; cbn [olift]; constructor; auto. Qed.
(** the program that does not write, then another one *)
Lemma sim_after {A B} (P : B -> obj -> Prop) (N : obj -> Prop) o (p : eprog A) f f' : N o -> (forall a, sim P N o (f a) (f' a)) -> sim P N o (obind (olift p) f) (ebind p f').
Proof. intros H G. eapply (sim_bind (fun _ o' => o' = o)); [apply sim_lift; [reflexivity|exact H]|auto|]. intros a ? ->. apply G. Qed.
(** results that are used *)
Lemma sim_lift_with {A} (Q : A -> Prop) (P : A -> obj -> Prop) (N : obj -> Prop) o (r : res A) : (forall a, r = Ok a -> Q a) -> (forall a, Q a -> P a o) -> N o -> sim P N o (olift (elift r)) (elift r).
Proof. intros H G B. destruct r; cbn [elift olift]; constructor; auto. Qed.

(** * Members *)
Definition replace {A} (i : nat) (y : A) (l : list A) : list A := set_at i (fun _ => y) l.
Lemma consists_members o l : consists o l -> members o = l.
Proof. intros [->|(vs & -> & ->)]; reflexivity. Qed.
Lemma set_at_nth {A} i f (l : list A) x : nth_error l i = Some x -> set_at i f l = replace i (f x) l.
Proof. unfold replace. revert i. induction l as [|a l IH]; intros [|i] H; cbn in *; try discriminate; [now injection H as ->|]. now rewrite (IH i). Qed.
Lemma replace_twice {A} i (y z : A) l : replace i z (replace i y l) = replace i z l.
Proof. unfold replace. revert i. induction l as [|a l IH]; intros [|i]; cbn; auto. now rewrite IH. Qed.
Lemma replace_nth {A} i (y : A) l : (i < length l)%nat -> nth_error (replace i y l) i = Some y.
Proof. unfold replace. revert i. induction l as [|a l IH]; intros [|i] H; cbn in *; try lia; auto. apply IH. lia. Qed.
Lemma replace_same {A} i (x : A) l : nth_error l i = Some x -> replace i x l = l.
Proof. unfold replace. revert i. induction l as [|a l IH]; intros [|i] H; cbn in *; try discriminate; [now injection H as ->|]. now rewrite IH. Qed.
Lemma replace_app {A} (l1 : list A) x y l2 : replace (length l1) y (l1 ++ x :: l2) = l1 ++ y :: l2.
Proof. unfold replace. induction l1; cbn; auto. now rewrite IHl1. Qed.

Lemma sim_at {A} (P : A -> obj -> Prop) (N : obj -> Prop) i l q p x : sim P N x q p -> (i < length l)%nat -> forall o, consists o (replace i x l) ->
  sim (fun r o' => exists y, P r y /\ consists o' (replace i y l)) (fun o' => exists y, N y /\ consists o' (replace i y l)) o (oat i q) p.
Proof.
  intros H L. induction H as [x r Hr|x Hx|x u|x|x k k' Hx _ IH|x p' v q q' _ IH|x p' q q' D _ IH]; intros o C; cbn [oat].
  - constructor. eauto.
  - constructor. eauto.
  - constructor.
  - constructor.
  - constructor; [eauto|]. intros e. now apply IH.
  - constructor. apply IH. left. cbn [change]. rewrite (consists_members _ _ C), (set_at_nth _ _ _ x), replace_twice by now apply replace_nth. reflexivity.
  - constructor.
    + cbn [select_part]. rewrite (consists_members _ _ C), replace_nth by exact L. exact D.
    + apply IH. left. cbn [change]. rewrite (consists_members _ _ C), (set_at_nth _ _ _ x), replace_twice by now apply replace_nth. reflexivity.
Qed.

(** * Values of objects *)
Fixpoint wholes (l : list obj) : option (list cv) := match l with [] => Some [] | x :: l' => match whole x, wholes l' with Some v, Some vs => Some (v :: vs) | _, _ => None end end.
Lemma whole_mem l : whole (OMem l) = match wholes l with Some vs => Some (VList vs) | None => None end.
Proof. cbn [whole]. replace ((fix go (l : list obj) : option (list cv) := match l with [] => Some [] | x :: l' => match whole x, go l' with Some v, Some vs => Some (v :: vs) | _, _ => None end end) l) with (wholes l); [reflexivity|].
  induction l as [|a l IH]; cbn [wholes]; [reflexivity|]. now rewrite IH. Qed.
Lemma wholes_iff : forall l vs, wholes l = Some vs <-> Forall2 (fun x v => whole x = Some v) l vs.
Proof.
  induction l as [|x l IH]; intros vs; cbn [wholes].
  - split; [intros [= <-]; constructor|]. intros H. now inversion H.
  - split.
    + destruct (whole x) eqn:E; [|discriminate]. destruct (wholes l) eqn:E2; [|discriminate]. intros [= <-]. constructor; [exact E|]. now apply IH.
    + intros H. inversion H as [|? ? ? vs' E H']; subst. rewrite E. apply IH in H'. now rewrite H'.
Qed.
Lemma consists_whole o l vs : consists o l -> Forall2 (fun x v => whole x = Some v) l vs -> whole o = Some (VList vs).
Proof.
  intros [->|(us & -> & ->)] H.
  - apply wholes_iff in H. now rewrite whole_mem, H.
  - cbn. f_equal. f_equal. clear -H. revert vs H. induction us as [|u us IH]; intros vs H; inversion H as [|? ? ? ? E H']; subst; [reflexivity|]. cbn in E. injection E as ->. f_equal. now apply IH.
Qed.
Lemma whole_consists o vs : whole o = Some (VList vs) -> exists l, consists o l /\ Forall2 (fun x v => whole x = Some v) l vs.
Proof.
  destruct o as [v|v|l]; intros H.
  - cbn in H. injection H as ->. exists (map OVal vs). split; [right; eauto|]. induction vs; constructor; auto.
  - discriminate.
  - rewrite whole_mem in H. destruct (wholes l) as [us|] eqn:E; [|discriminate]. injection H as ->. exists l. split; [now left|]. now apply wholes_iff.
Qed.
Lemma held_whole : forall o v, whole o = Some v -> held o = v.
Proof.
  fix IH 1. intros [v|v|l] u H; cbn [held].
  - cbn in H. now injection H.
  - discriminate.
  - rewrite whole_mem in H. destruct (wholes l) as [us|] eqn:E; [|discriminate]. injection H as <-. f_equal. clear -IH E. revert us E. induction l as [|x l IHl]; intros us E; cbn [wholes] in E; [now injection E|].
    destruct (whole x) eqn:E1; [|discriminate]. destruct (wholes l) eqn:E2; [|discriminate]. injection E as <-. cbn [map]. rewrite (IH x _ E1). f_equal. now apply IHl.
Qed.
Lemma whole_not_dead o v : whole o = Some v -> is_dead (Some o) = false.
Proof. destruct o; [reflexivity|discriminate|reflexivity]. Qed.

Section Sim.
Variable w : world.
Let good (t : ct) (v : cv) (o : obj) : Prop := whole o = Some v /\ formed w t v.

(** deleting a pointer first *)
Lemma sim_delete {A} (P : A -> obj -> Prop) (N : obj -> Prop) x old q p : whole x = Some old ->
  (old = VNone -> sim P N x q p) -> (old <> VNone -> sim P N (ODead old) q p) -> sim P N x (odelete old q) p.
Proof.
  intros W H1 H2. unfold odelete. destruct old; try (apply sm_del; [cbn [select_part]; eapply whole_not_dead; eauto|]; cbn [change]; unfold deleted; rewrite (held_whole _ _ W); apply H2; discriminate). now apply H1.
Qed.

Lemma value_formed t old v x : formed w t old -> scoped t = false -> paste_value w t old v = Ok x -> formed w t x.
Proof.
  intros Fm S E. destruct t; try discriminate S; try (apply fm_any; [reflexivity|discriminate]).
  apply fm_any; [reflexivity|]. intros _. cbn [paste_value] in E. destruct (v_type v); try discriminate E.
  - destruct (Nat.eqb _ _); [injection E as <-; eauto|]. destruct (base64_to_bytes _); cbn [rbind] in E; try discriminate. injection E as <-. eauto.
  - injection E as <-. eauto.
Qed.

Lemma sim_value t x old v : whole x = Some old -> formed w t old -> scoped t = false ->
  sim (fun u o => good t u o) (torn w t x) x (ovalue w t old v) (elift (paste_value w t old v)).
Proof.
  intros W Fm S. assert (R : forall o, torn w t x o -> sim (fun u o => good t u o) (torn w t x) o (obind (olift (elift (paste_value w t old v))) (fun y => OSet [] y (ORet y))) (elift (paste_value w t old v))).
  { intros o T. pose proof (value_formed t old v) as VF. destruct (paste_value w t old v) as [y| | |]; cbn [elift olift obind]; try (constructor; exact T). apply sm_set. constructor. split; [reflexivity|]. cbn [change]. now apply VF. }
  destruct t; try discriminate S; try (apply R, tn_same).
  - (* CBits *)
    cbn [ovalue]. inversion Fm as [t0 v0 M B|]; subst; [|discriminate]. destruct (B eq_refl) as [s ->].
    assert (G : grows (fun _ need : Z => need)) by (intros mem need _; lia). pose proof (bytes_object (fun _ need => need) (mkVec s (zlen s)) w (VStr s) v G) as BO.
    destruct (bits_type v) eqn:T; cbn [negb].
    + destruct (bytes_paste _ _ v) as [y r] eqn:E. destruct (paste_value w CBits (VStr s) v) as [u| |u|].
      * destruct BO as (d & m & -> & [= -> ->]). cbn [elift olift obind x_data]. apply sm_set. constructor. split; [reflexivity|]. apply fm_any; [reflexivity|]. eauto.
      * cbn [snd] in BO. subst r. cbn [elift olift obind]. apply sm_set. constructor. cbn [change]. apply tn_bits.
      * cbn [snd] in BO. subst r. cbn [elift olift obind]. apply sm_set. constructor.
      * destruct BO.
    + assert (E : paste_value w CBits (VStr s) v = Err) by (unfold bits_type in T; cbn [paste_value]; destruct (v_type v); try discriminate T; reflexivity). rewrite E. constructor. apply tn_same.
  - (* CPtr *)
    cbn [ovalue]. apply sim_delete; [exact W|intros _; apply R, tn_same|]. intros NN. apply R. pose proof (held_whole _ _ W) as H. rewrite <- H. apply tn_ptr. now rewrite H.
Qed.

(** * Fields *)
Section Step.
Variables (op : ct -> cv -> lnode -> rstate -> oprog (cv * lnode * rstate)) (pn : ct -> cv -> lnode -> rstate -> eprog (cv * lnode * rstate)) (F : nat).
Hypothesis IH : forall t old n s x, whole x = Some old -> formed w t old -> sim (fun r o => good t (fst (fst r)) o) (torn w t x) x (op t old n s) (pn t old n s).

Lemma sim_field t id old n s x : whole x = Some old -> formed w t old ->
  sim (fun r o => good t (fst (fst r)) o) (fun o => torn w t x o \/ complete w t o) x (ofield w op F t id old n s) (paste_field w pn F t id old n s).
Proof.
  intros W Fm. unfold ofield, paste_field. destruct (scoped t) eqn:S.
  - apply sim_after; [left; apply tn_same|]. intros r. eapply sim_bind; [apply IH; eassumption|auto|]. intros [[v c'] s'] o [G1 G2]. cbn [fst] in G1, G2. destruct (l_parsed n); [constructor; split; assumption|].
    apply sim_after; [right; exists v; auto|]. intros _. constructor. split; assumption.
  - apply sim_after; [left; apply tn_same|]. intros r. eapply sim_bind; [apply sim_value; eassumption|auto|]. intros v o G. constructor. exact G.
Qed.

(** * Members one after the other: [l1] are done *)
Definition state (ts1 : list ct) (vs1 : list cv) (l2 : list obj) (o : obj) : Prop :=
  exists l1, consists o (l1 ++ l2) /\ Forall2 (fun x v => whole x = Some v) l1 vs1 /\ Forall2 (formed w) ts1 vs1.
(** failed at one of the members: from [l2] on nothing changed *)
Definition failed (ts1 ts2 : list ct) (l2 : list obj) (o : obj) : Prop :=
  exists l1' tsa u tsb la m lb m', ts2 = tsa ++ u :: tsb /\ l2 = la ++ m :: lb /\ length la = length tsa /\ consists o (l1' ++ m' :: lb) /\ Forall2 (complete w) (ts1 ++ tsa) l1' /\ (torn w u m m' \/ complete w u m').
Lemma state_complete : forall (l : list obj) vs ts, Forall2 (fun x v => whole x = Some v) l vs -> Forall2 (formed w) ts vs -> Forall2 (complete w) ts l.
Proof. induction l as [|x l IHl]; intros vs ts H1 H2; inversion H1; subst; inversion H2; subst; constructor; eauto. eexists; eauto. Qed.
Lemma failed_first ts1 u ts2 vs1 m l2 m' o l1 : consists o (l1 ++ m' :: l2) -> Forall2 (fun x v => whole x = Some v) l1 vs1 -> Forall2 (formed w) ts1 vs1 -> torn w u m m' \/ complete w u m' -> failed ts1 (u :: ts2) (m :: l2) o.
Proof. intros C H1 H2 T. exists l1, [], u, ts2, [], m, l2, m'. repeat split; auto. rewrite app_nil_r. eapply state_complete; eauto. Qed.
Lemma failed_later ts1 u ts2 m l2 o : failed (ts1 ++ [u]) ts2 l2 o -> failed ts1 (u :: ts2) (m :: l2) o.
Proof.
  intros (l1' & tsa & u' & tsb & la & m0 & lb & m' & -> & -> & L & C & D & T). exists l1', (u :: tsa), u', tsb, (m :: la), m0, lb, m'. repeat split; auto; [cbn; lia|]. now rewrite <- app_assoc in D.
Qed.
Lemma state_next ts1 vs1 u v x l2 o l1 : consists o (l1 ++ x :: l2) -> Forall2 (fun x v => whole x = Some v) l1 vs1 -> Forall2 (formed w) ts1 vs1 -> whole x = Some v -> formed w u v -> state (ts1 ++ [u]) (vs1 ++ [v]) l2 o.
Proof. intros C H1 H2 W Fm. exists (l1 ++ [x]). rewrite <- app_assoc. split; [exact C|]. split; apply Forall2_app; auto. Qed.
Lemma Forall2_len {A B} (R : A -> B -> Prop) l m : Forall2 R l m -> length l = length m.
Proof. induction 1; cbn; auto. Qed.

(** one member *)
Lemma sim_member {A} (val : A -> cv) ts1 vs1 u ts2 m l2 o (q : oprog A) (p : eprog A) : state ts1 vs1 (m :: l2) o ->
  sim (fun r o => good u (val r) o) (fun o => torn w u m o \/ complete w u o) m q p ->
  sim (fun r o => state (ts1 ++ [u]) (vs1 ++ [val r]) l2 o) (failed ts1 (u :: ts2) (m :: l2)) o (oat (length vs1) q) p.
Proof.
  intros (l1 & C & H1 & H2) H. assert (L : length l1 = length vs1) by exact (Forall2_len _ _ _ H1).
  eapply sim_weaken; [apply (sim_at _ _ (length vs1) (l1 ++ m :: l2) _ _ m H)| |].
  - rewrite app_length. cbn. lia.
  - rewrite <- L, replace_app. exact C.
  - cbn beta. intros r o' (y & [G1 G2] & C'). rewrite <- L, replace_app in C'. eapply state_next; eauto.
  - cbn beta. intros o' (y & T & C'). rewrite <- L, replace_app in C'. eapply failed_first; eauto.
Qed.

Lemma failed_none ts1 vs1 u ts2 m l2 o : state ts1 vs1 (m :: l2) o -> failed ts1 (u :: ts2) (m :: l2) o.
Proof. intros (l1 & C & H1 & H2). eapply failed_first; eauto. left. apply tn_same. Qed.

Lemma sim_fields : forall fs ts1 vs1 olds ms o n s vi ni, state ts1 vs1 ms o -> Forall2 (fun x v => whole x = Some v) ms olds -> Forall2 (formed w) (map f_type fs) olds ->
  sim (fun r o => state (ts1 ++ map f_type fs) (vs1 ++ fst (fst r)) [] o) (failed ts1 (map f_type fs) ms) o (ofields w op F (length vs1) fs olds n s vi ni) (paste_fields w pn F fs olds n s vi ni).
Proof.
  induction fs as [|f fs IHfs]; intros ts1 vs1 olds ms o n s vi ni St W Fm; inversion Fm as [|? old ? olds' Fm1 Fm2]; subst.
  - inversion W; subst. cbn [map ofields paste_fields]. constructor. cbn [fst]. now rewrite !app_nil_r.
  - inversion W as [|m ? ms' ? Wm W']; subst. cbn [map ofields paste_fields]. apply sim_after; [eapply failed_none; eassumption|]. intros [b h]. cbn [fst snd]. destruct b; cbn [negb].
    + eapply sim_bind; [eapply (sim_member (fun r => fst (fst r))); [eassumption|apply sim_field; eassumption]|intros ? HN; exact HN|].
      intros [[v n1] s1] o' St'. cbn [fst] in St'. eapply sim_bind.
      * replace (S (length vs1)) with (length (vs1 ++ [v])) by (rewrite app_length; cbn; lia). eapply IHfs; eassumption.
      * intros o'' Fd. eapply failed_later; eassumption.
      * intros [[vs n'] s'] o'' G. constructor. cbn [fst] in *. now rewrite <- !app_assoc in G.
    + destruct St as (l1 & C & H1 & H2). pose proof (state_next _ _ _ _ _ _ _ _ C H1 H2 Wm Fm1) as St'. eapply sim_bind.
      * replace (S (length vs1)) with (length (vs1 ++ [old])) by (rewrite app_length; cbn; lia). eapply IHfs; eassumption.
      * intros o'' Fd. eapply failed_later; eassumption.
      * intros [[vs n'] s'] o'' G. constructor. cbn [fst] in *. now rewrite <- !app_assoc in G.
Qed.

Lemma sim_array_stored {A} e (g : cv -> bytes * A -> rstate -> oprog (cv * rstate)) (h : cv -> bytes * A -> rstate -> eprog (cv * rstate)) :
  (forall old a s x, whole x = Some old -> formed w e old -> sim (fun r o => good e (fst r) o) (torn w e x) x (g old a s) (h old a s)) ->
  forall olds (l : list (bytes * A)) ts1 vs1 ms o s, length l = length olds -> state ts1 vs1 ms o -> Forall2 (fun x v => whole x = Some v) ms olds -> Forall (formed w e) olds ->
  sim (fun r o => state (ts1 ++ repeat e (length olds)) (vs1 ++ fst r) [] o) (failed ts1 (repeat e (length olds)) ms) o (oarray_stored g (length vs1) olds l s) (array_stored h olds l s).
Proof.
  intros GH. induction olds as [|old olds IHo]; intros [|a l] ts1 vs1 ms o s L St W Fm; try discriminate L; inversion W as [|m ? ms' ? Wm W']; subst; cbn [oarray_stored array_stored length repeat].
  - constructor. cbn [fst]. now rewrite !app_nil_r.
  - inversion Fm; subst. eapply sim_bind; [eapply (sim_member fst _ _ e); [eassumption|eapply sim_weaken; [apply GH; eassumption|intros ? ? HG; exact HG|intros ? HN; left; exact HN]]|intros ? HN; exact HN|].
    intros [v s1] o' St'. cbn [fst snd] in *. eapply sim_bind.
    + replace (S (length vs1)) with (length (vs1 ++ [v])) by (rewrite app_length; cbn; lia). eapply IHo; try eassumption. cbn in L; lia.
    + intros o'' Fd. eapply failed_later; eassumption.
    + intros [vs s'] o'' G. constructor. cbn [fst] in *. now rewrite <- !app_assoc in G.
Qed.

Lemma sim_array_read e : forall olds ts1 vs1 ms o n s c, state ts1 vs1 ms o -> Forall2 (fun x v => whole x = Some v) ms olds -> Forall (formed w e) olds ->
  sim (fun r o => state (ts1 ++ repeat e (length olds)) (vs1 ++ fst (fst r)) [] o) (failed ts1 (repeat e (length olds)) ms) o (oarray_read w op F e (length vs1) c olds n s) (array_read w pn F e c olds n s).
Proof.
  induction olds as [|old olds IHo]; intros ts1 vs1 ms o n s c St W Fm; inversion W as [|m ? ms' ? Wm W']; subst; cbn [oarray_read array_read length repeat].
  - constructor. cbn [fst]. now rewrite !app_nil_r.
  - inversion Fm; subst. destruct (l_parsed n); [constructor; eapply failed_none; eassumption|].
    eapply sim_bind; [eapply (sim_member (fun r => fst (fst r))); [eassumption|apply sim_field; eassumption]|intros ? HN; exact HN|].
    intros [[v n1] s1] o' St'. cbn [fst snd] in *. eapply sim_bind.
    + replace (S (length vs1)) with (length (vs1 ++ [v])) by (rewrite app_length; cbn; lia). eapply IHo; eassumption.
    + intros o'' Fd. eapply failed_later; eassumption.
    + intros [[vs n'] s'] o'' G. constructor. cbn [fst] in *. now rewrite <- !app_assoc in G.
Qed.

(** a new object that is assigned *)
Lemma sim_assign {A} (val : A -> cv) (P : A -> obj -> Prop) (N : obj -> Prop) o (p : eprog A) : N o -> (forall r, P r (OVal (val r))) -> sim P N o (obind (olift p) (fun r => OSet [] (val r) (ORet r))) p.
Proof. intros H G. induction p; cbn [olift obind]; constructor; auto. constructor. apply G. Qed.

(** tables *)
Section Each.
Variable e : ct.
Let tab (o : obj) : Prop := exists l, o = OVal (VTab l).
Lemma sim_each_stored {A} (f : bytes * A -> list (bytes * cv) -> rstate -> eprog (list (bytes * cv) * rstate)) : forall l acc s,
  sim (fun r o => o = OVal (VTab (fst r))) tab (OVal (VTab acc)) (oeach_stored VTab f l acc s) (each_stored f l acc s).
Proof.
  induction l as [|a l IHl]; intros acc s; cbn [oeach_stored each_stored]; [now constructor|]. apply sim_after; [now exists acc|]. intros [acc' s']. cbn [fst snd]. constructor. cbn [change]. apply IHl.
Qed.
Lemma sim_each_value f : forall k acc n s, sim (fun r o => o = OVal (VTab (fst (fst r)))) tab (OVal (VTab acc)) (oeach_value F VTab f k acc n s) (each_value_read F f k acc n s).
Proof.
  induction k as [|k IHk]; intros acc n s; cbn [oeach_value each_value_read]; [constructor|]. apply sim_after; [now exists acc|]. intros [[[[nm v] c]|] n']; cbn [fst snd]; [|now constructor].
  destruct (l_parsed n'); [now constructor|]. apply sim_after; [now exists acc|]. intros [acc' s']. cbn [fst snd]. constructor. cbn [change]. apply IHk.
Qed.
Lemma sim_each_node f : forall k acc n s, sim (fun r o => o = OVal (VTab (fst (fst r)))) tab (OVal (VTab acc)) (oeach_node F VTab f k acc n s) (each_node_read F f k acc n s).
Proof.
  induction k as [|k IHk]; intros acc n s; cbn [oeach_node each_node_read]; [constructor|]. apply sim_after; [now exists acc|]. intros [[c|] n']; cbn [fst snd]; [|now constructor].
  destruct (l_parsed n'); [now constructor|]. apply sim_after; [now exists acc|]. intros [[acc' c'] s']. constructor. cbn [change]. apply sim_after; [now exists acc'|]. intros _. apply IHk.
Qed.
Lemma sim_each sc fv fn n s : sim (fun r o => o = OVal (VTab (fst (fst r)))) tab (OVal (VTab [])) (oeach F VTab sc fv fn [] n s) (each_item F sc fv fn [] n s).
Proof.
  unfold oeach, each_item. destruct (l_parsed n).
  - destruct sc; (eapply sim_bind; [apply sim_each_stored|auto|]); intros [acc' s'] o ->; now constructor.
  - destruct sc; [apply sim_each_node|apply sim_each_value].
Qed.
End Each.

Lemma failed_torn t ts x ms o : member_types w t = Some ts -> consists x ms -> failed [] ts ms o -> torn w t x o.
Proof.
  intros M C (l1' & tsa & u & tsb & la & m & lb & m' & -> & -> & L & C' & D & T). eapply tn_mem; eauto.
Qed.
Lemma state_done ts vs t o : member_types w t = Some ts -> state ts vs [] o -> good t (VList vs) o.
Proof. intros M (l1 & C & H1 & H2). rewrite app_nil_r in C. split; [eapply consists_whole; eauto|]. eapply fm_mem; eauto. Qed.
Lemma formed_members t ts v x : member_types w t = Some ts -> formed w t v -> whole x = Some v ->
  exists vs ms, v = VList vs /\ Forall2 (formed w) ts vs /\ consists x ms /\ Forall2 (fun x v => whole x = Some v) ms vs /\ state [] [] ms x.
Proof.
  intros M Fm W. inversion Fm as [? ? M'|? ts' vs M' H]; subst; [congruence|]. rewrite M in M'. injection M' as <-.
  destruct (whole_consists _ _ W) as (ms & C & H'). exists vs, ms. repeat (split; auto). exists []. repeat split; auto.
Qed.
Lemma repeat_formed e : forall k vs, Forall2 (formed w) (repeat e k) vs -> Forall (formed w e) vs /\ length vs = k.
Proof. induction k; intros vs H; inversion H; subst; cbn [length]; [split; auto|]. destruct (IHk _ ltac:(eassumption)). auto. Qed.

Lemma sim_members t fs x old n s vi : member_types w t = Some (map f_type fs) -> whole x = Some old -> formed w t old ->
  sim (fun r o => good t (fst (fst r)) o) (torn w t x) x
    (match old with VList olds => obind (ofields w op F 0 fs olds n s vi 0) (fun r => let '(vs, n', s') := r in ORet (VList vs, n', s')) | _ => OThrow end)
    (match old with VList olds => ebind (paste_fields w pn F fs olds n s vi 0) (fun r => let '(vs, n', s') := r in ERet (VList vs, n', s')) | _ => EThrow end).
Proof.
  intros M W Fm. destruct (formed_members _ _ _ _ M Fm W) as (olds & ms & -> & Fv & C & Wv & St).
  eapply sim_bind; [apply (sim_fields fs [] [] olds ms x n s vi 0 St Wv Fv)| |].
  - intros o Fd. eapply failed_torn; eauto.
  - intros [[vs n'] s'] o G. constructor. cbn [fst app] in *. eapply state_done; eauto.
Qed.

Lemma sim_step t old n s x : whole x = Some old -> formed w t old ->
  sim (fun r o => good t (fst (fst r)) o) (torn w t x) x (opaste_step w op pn F t old n s) (paste_step w pn F t old n s).
Proof.
  intros W Fm. assert (SA : member_types w t = None -> t <> CBits -> forall o, torn w t x o ->
    sim (fun r o => good t (fst (fst r)) o) (torn w t x) o (obind (olift (paste_step w pn F t old n s)) (fun r => OSet [] (fst (fst r)) (ORet r))) (paste_step w pn F t old n s)).
  { intros M B o T. apply (sim_assign (fun r : cv * lnode * rstate => fst (fst r))); [exact T|]. intros r. split; [reflexivity|]. apply fm_any; [exact M|]. intros E. now apply B in E. }
  destruct t; try (apply SA; [reflexivity|discriminate|apply tn_same]); unfold opaste_step, paste_step; cbv zeta.
  - (* CBits *) cbn [olift obind]. constructor. apply tn_same.
  - (* CCls *) destruct (is_scope _); cbn [negb]; [|constructor; apply tn_same]. now apply sim_members.
  - (* CTab *)
    destruct (ty_eqb _ _); cbn [negb]; [|constructor; apply tn_same]. constructor. cbn [change]. eapply sim_bind; [apply sim_each| |].
    + intros o (l & ->). apply tn_tab.
    + intros [[l n'] s'] o ->. constructor. split; [reflexivity|]. apply fm_any; [reflexivity|discriminate].
  - (* CArr *)
    destruct (is_scope _); cbn [negb]; [|constructor; apply tn_same].
    destruct (formed_members (CArr n0 t) _ _ _ eq_refl Fm W) as (olds & ms & -> & Fv & C & Wv & St). destruct (repeat_formed _ _ _ Fv) as [Fo Lo]. rewrite Lo, Nat.eqb_refl. cbn [negb].
    assert (Q1 : forall o, failed [] (repeat t (length olds)) ms o -> torn w (CArr n0 t) x o) by (rewrite Lo; intros o; eapply failed_torn; [reflexivity|exact C]).
    assert (Q2 : forall vs o, state ([] ++ repeat t (length olds)) vs [] o -> good (CArr n0 t) (VList vs) o) by (rewrite Lo; intros vs o; eapply state_done; reflexivity).
    destruct (l_parsed n).
    + destruct (scoped t) eqn:S.
      * destruct (Nat.eqb _ n0) eqn:EL; cbn [negb]; [|constructor; apply tn_same]. apply Nat.eqb_eq in EL. eapply sim_bind.
        -- eapply (sim_array_stored t) with (ts1 := []) (vs1 := []) (ms := ms); try eassumption; [|now rewrite Lo].
           intros old a s0 y Wy Fy. cbn beta. eapply sim_bind; [apply IH; eassumption|auto|]. intros [[v n'] s'] o G. constructor. exact G.
        -- exact Q1.
        -- intros [vs s'] o G. constructor. cbn [fst app] in *. now apply Q2.
      * destruct (Nat.eqb _ n0) eqn:EL; cbn [negb]; [|constructor; apply tn_same]. apply Nat.eqb_eq in EL. eapply sim_bind.
        -- eapply (sim_array_stored t) with (ts1 := []) (vs1 := []) (ms := ms); try eassumption; [|now rewrite Lo].
           intros old a s0 y Wy Fy. cbn beta. eapply sim_bind; [apply sim_value; eassumption|auto|]. intros v o G. constructor. exact G.
        -- exact Q1.
        -- intros [vs s'] o G. constructor. cbn [fst app] in *. now apply Q2.
    + eapply sim_bind; [apply (sim_array_read t olds [] [] ms x n s 0 St Wv Fo)|exact Q1|]. intros [[vs n'] s'] o G. constructor. cbn [fst app] in *. now apply Q2.
  - (* CPair *)
    destruct (ty_eqb _ _); cbn [negb]; [|constructor; apply tn_same].
    destruct (formed_members (CPair t1 t2) _ _ _ eq_refl Fm W) as (olds & ms & -> & Fv & C & Wv & St).
    inversion Fv as [|? oa ? l1 F1 Fv1]; subst. inversion Fv1 as [|? ob ? l2 F2 Fv2]; subst. inversion Fv2; subst.
    inversion Wv as [|ma ? l3 ? W1 Wv1]; subst. inversion Wv1 as [|mb ? l4 ? W2 Wv2]; subst. inversion Wv2; subst.
    eapply sim_bind; [eapply (sim_member (fun r => fst (fst r)) [] [] t1 [t2] ma [mb] x _ _ St); apply sim_field; eassumption| |].
    + intros o Fd. eapply (failed_torn (CPair t1 t2)); [reflexivity|exact C|exact Fd].
    + intros [[v n1] s1] o' St'. cbn [fst app] in St'. eapply sim_bind; [eapply (sim_member (fun r => fst (fst r)) [t1] [v] t2 [] mb [] o' _ _ St'); apply sim_field; eassumption| |].
      * intros o Fd. eapply (failed_torn (CPair t1 t2)); [reflexivity|exact C|]. apply failed_later. exact Fd.
      * intros [[v2 n2] s2] o G. constructor. cbn [fst app] in *. eapply (state_done [t1; t2]); [reflexivity|exact G].
  - (* CTup *) destruct (is_scope _); cbn [negb]; [|constructor; apply tn_same]. apply sim_members; try assumption. cbn [member_types]. now rewrite map_map.
  - (* CPtr *)
    apply sim_delete; [exact W|intros _; apply SA; [reflexivity|discriminate|apply tn_same]|]. intros NN. apply SA; [reflexivity|discriminate|]. rewrite <- (held_whole _ _ W). apply tn_ptr. now rewrite (held_whole _ _ W).
  - (* CPoly *)
    destruct (is_scope _); cbn [negb]; [|constructor; apply tn_same]. apply sim_after; [apply tn_same|]. intros [[v copied] n1]. destruct (negb _ && negb _); [constructor; apply tn_same|].
    set (q := if copied && _ && _ then OUndef UbDangling else _). set (p := if copied && _ && _ then EUndef UbDangling else _).
    assert (R : forall o, torn w (CPoly u) x o -> sim (fun r o => good (CPoly u) (fst (fst r)) o) (torn w (CPoly u) x) o q p).
    { intros o T. subst q p. destruct (copied && _ && _); [constructor|]. apply sim_after; [exact T|]. intros [c|]; [|now constructor]. destruct (w_new w (CCls c)) as [| | |olds| | | | |]; try now constructor.
      apply sim_after; [exact T|]. intros [[us n'] s']. constructor. constructor. split; [reflexivity|]. apply fm_any; [reflexivity|discriminate]. }
    apply sim_delete; [exact W|intros _; apply R, tn_same|]. intros NN. apply R. rewrite <- (held_whole _ _ W). apply tn_poly. now rewrite (held_whole _ _ W).
Qed.
End Step.

Lemma sim_paste : forall F t old n s x, whole x = Some old -> formed w t old ->
  sim (fun r o => good t (fst (fst r)) o) (torn w t x) x (opaste F w t old n s) (paste_node F w t old n s).
Proof.
  induction F as [|F IHF]; intros t old n s x W Fm; cbn [opaste paste_node]; [constructor|]. apply sim_step; assumption.
Qed.
Lemma sim_root F t old n s x : whole x = Some old -> formed w t old ->
  sim (fun r o => good t (fst r) o) (torn w t x) x
    (obind (if scoped t then opaste F w t old n s else ofield w (opaste F w) F t (IdPos 0) old n s) (fun r => ORet (fst (fst r), snd r)))
    (ebind (if scoped t then paste_node F w t old n s else paste_field w (paste_node F w) F t (IdPos 0) old n s) (fun r => ERet (fst (fst r), snd r))).
Proof.
  intros W Fm. destruct (scoped t) eqn:S.
  - eapply sim_bind; [apply sim_paste; eassumption|auto|]. intros [[v n'] s'] o G. constructor. exact G.
  - unfold ofield, paste_field. rewrite S. eapply (sim_bind (fun r o => good t (fst (fst r)) o) (torn w t x)); [|auto|intros [[v n'] s'] o G; constructor; exact G].
    apply sim_after; [apply tn_same|]. intros r. eapply sim_bind; [apply sim_value; eassumption|auto|]. intros v o G. constructor. exact G.
Qed.
Lemma sim_restore F t old x : whole x = Some old -> formed w t old -> sim (fun r o => good t (fst r) o) (torn w t x) x (orestore F w t old) (restore_prog F w t old).
Proof.
  intros W Fm. unfold orestore, restore_prog. constructor; [apply tn_same|]. intros [name v]. destruct (is_scope _); cbn [negb]; [|constructor; apply tn_same]. now apply sim_root.
Qed.
End Sim.

(** * Runs *)
Section Run.
Variable I : Type.
Variable run : forall A, prog A -> I -> res (A * I).
Hypothesis run_ret : forall A (a : A) i, run A (Ret a) i = Ok (a, i).
Hypothesis run_throw : forall A i, run A Throw i = Err.
Hypothesis run_undef : forall A u i, run A (Undef u) i = UB u.
Hypothesis run_fuel : forall A i, run A OutOfFuel i = Fuel.
Hypothesis run_bind : forall A B (p : prog A) (f : A -> prog B) i, run B (pbind p f) i = rbind (run A p i) (fun '(a, i') => run B (f a) i').
Lemma sim_run {St A} (rd : St -> prog (St * event)) (P : A -> obj -> Prop) (N : obj -> Prop) o q p : sim P N o q p -> forall st i,
  (let* (a, si) := fst (orun (rd_step run rd) q (st, i) o) in Ok ((fst si, a), snd si)) = run _ (ecomp rd p st) i /\
  match fst (orun (rd_step run rd) q (st, i) o) with Ok (a, _) => P a (snd (orun (rd_step run rd) q (st, i) o)) | Err => N (snd (orun (rd_step run rd) q (st, i) o)) | _ => True end.
Proof.
  induction 1; intros st i; cbn [orun ecomp]; cbn [fst snd rbind].
  - rewrite run_ret. auto.
  - rewrite run_throw. auto.
  - rewrite run_undef. auto.
  - rewrite run_fuel. auto.
  - rewrite run_bind. assert (E : rd_step run rd (st, i) = let* (r, i') := run _ (rd st) i in Ok (snd r, (fst r, i'))) by reflexivity. rewrite E.
    destruct (run _ (rd st) i) as [[[st' e] i']| | |]; cbn [rbind fst snd]; auto.
  - apply IHsim.
  - rewrite H. apply IHsim.
Qed.
Lemma sim_restore_over x F w q t o v i : whole o = Some v -> formed w t v ->
  fst (restore_over run x F w q t o i) = (let* (r, _) := run _ (restore_object x F w q t v) i in Ok (snd r)) /\
  match fst (restore_over run x F w q t o i) with
  | Ok (v', _) => whole (snd (restore_over run x F w q t o i)) = Some v' /\ formed w t v'
  | Err => torn w t o (snd (restore_over run x F w q t o i))
  | _ => True
  end.
Proof.
  intros W Fm. unfold restore_over, restore_object, with_parser_o, with_parser. rewrite (held_whole _ _ W). pose proof (sim_restore w F t v o W Fm) as H.
  destruct (parser_clear q) as [st|st|st]; match goal with |- context [rd_step run ?rd] => destruct (sim_run rd _ _ _ _ _ H st i) as [G1 G2] end;
    match goal with |- context [orun ?a ?b ?c ?d] => destruct (orun a b c d) as [r o'] end; cbn [fst snd] in *; rewrite run_bind, <- G1; (destruct r as [[[v' s'] [st' i']]| |u|]; cbn [rbind fst snd] in *; [rewrite run_ret; cbn [rbind]|..]; auto).
Qed.
End Run.

Lemma restore_over_block_says x F w q t o v i : whole o = Some v -> formed w t v ->
  fst (restore_over (@run_block) x F w q t o i) = (let* (r, _) := run_block (restore_object x F w q t v) i in Ok (snd r)) /\
  match fst (restore_over (@run_block) x F w q t o i) with
  | Ok (v', _) => whole (snd (restore_over (@run_block) x F w q t o i)) = Some v' /\ formed w t v'
  | Err => torn w t o (snd (restore_over (@run_block) x F w q t o i))
  | _ => True
  end.
Proof. apply sim_restore_over; try reflexivity. intros. apply run_block_bind. Qed.
Lemma restore_over_stream_says x F w q t o v i : whole o = Some v -> formed w t v ->
  fst (restore_over (@run_stream) x F w q t o i) = (let* (r, _) := run_stream (restore_object x F w q t v) i in Ok (snd r)) /\
  match fst (restore_over (@run_stream) x F w q t o i) with
  | Ok (v', _) => whole (snd (restore_over (@run_stream) x F w q t o i)) = Some v' /\ formed w t v'
  | Err => torn w t o (snd (restore_over (@run_stream) x F w q t o i))
  | _ => True
  end.
Proof. apply sim_restore_over; try reflexivity. intros. apply run_stream_bind. Qed.

Lemma sim_closed {A} (P : A -> obj -> Prop) (N : obj -> Prop) o q (r : res A) : sim P N o q (elift r) ->
  match orun (fun _ : unit => Err) q tt o with (r', o') => (let* (a, _) := r' in Ok a) = r /\ match r with Ok a => P a o' | Err => N o' | _ => True end end.
Proof.
  remember (elift r) as p eqn:E. intros H. revert r E. induction H; intros r0 E; cbn [orun].
  - destruct r0; try discriminate E. injection E as ->. auto.
  - destruct r0; try discriminate E. auto.
  - destruct r0; try discriminate E. injection E as ->. auto.
  - destruct r0; try discriminate E. auto.
  - destruct r0; discriminate E.
  - now apply IHsim.
  - rewrite H. now apply IHsim.
Qed.
Lemma paste_over_says F w t o v n s : whole o = Some v -> formed w t v ->
  unwrap_prog F w t v n s = elift (fst (paste_over F w t o n s)) /\
  match fst (paste_over F w t o n s) with
  | Ok (v', _) => whole (snd (paste_over F w t o n s)) = Some v' /\ formed w t v'
  | Err => torn w t o (snd (paste_over F w t o n s))
  | _ => True
  end.
Proof.
  intros W Fm. unfold paste_over. rewrite (held_whole _ _ W). destruct (unwrap_doc F w t n) as (k & ty & its & _ & E). rewrite E.
  pose proof (sim_root w F t v (mkL true n) s o W Fm) as H. fold (opaste_tree F w t v n s) in H. fold (unwrap_prog F w t v n s) in H. rewrite E in H. apply sim_closed in H.
  destruct (orun _ _ _ _) as [r o']. destruct H as [H1 H2]. cbn [fst snd]. rewrite H1. split; [reflexivity|]. match goal with |- match ?r with _ => _ end => destruct r as [[v' s']| | |] end; auto.
Qed.

(** * What is left behind *)
Lemma consists_det o l l' : consists o l -> consists o l' -> l = l'.
Proof. intros C C'. rewrite <- (consists_members _ _ C). now apply consists_members. Qed.
Lemma complete_whole w : forall ts l, Forall2 (complete w) ts l -> exists vs, Forall2 (fun x v => whole x = Some v) l vs /\ Forall2 (formed w) ts vs.
Proof. induction 1 as [|t x ts l (v & W & Fm) _ (vs & H1 & H2)]; [exists []; auto|]. exists (v :: vs). auto. Qed.
Lemma app_inv_l_len {A} : forall (a b c d : list A), length a = length b -> a ++ c = b ++ d -> a = b /\ c = d.
Proof. induction a as [|x a IHa]; intros [|y b] c d L E; try discriminate L; cbn in *; [auto|]. injection E as -> E. destruct (IHa b c d ltac:(lia) E) as [-> ->]. auto. Qed.
Lemma torn_complete w : forall t x o, torn w t x o -> owned w t -> complete w t x -> complete w t o.
Proof.
  fix IH 4. intros t x o T Ow Cx. destruct T as [t x|e x l|x s|e x NN|x NN|t ts1 u ts2 x l1 m l2 o l1' m' M C C' L D Tm].
  - exact Cx.
  - exists (VTab l). split; [reflexivity|]. apply fm_any; [reflexivity|discriminate].
  - exists (VStr s). split; [reflexivity|]. apply fm_any; [reflexivity|eauto].
  - inversion Ow as [? _ B|? ? M]; [destruct B|discriminate M].
  - inversion Ow as [? _ B|? ? M]; [destruct B|discriminate M].
  - inversion Ow as [? M'|? ts M' Os]; subst; [congruence|]. rewrite M in M'. injection M' as <-. rewrite Forall_app in Os. destruct Os as [_ Os]. inversion Os as [|? ? Ou _]; subst.
    destruct Cx as (v & W & Fm). destruct (formed_members w t _ _ _ M Fm W) as (vs & ms & -> & Fv & Cm & Wv & _). assert (ms = l1 ++ m :: l2) by (eapply consists_det; eauto). subst ms.
    apply Forall2_app_inv_l in Fv. destruct Fv as (va & vb & Fa & Fb & ->). inversion Fb as [|? b ? vc Fu Fc]; subst.
    apply Forall2_app_inv_l in Wv. destruct Wv as (va' & vb' & Wa & Wb & Ev).
    assert (va = va' /\ b :: vc = vb') as [<- <-]. { apply app_inv_l_len; [|exact Ev]. rewrite <- (Forall2_len _ _ _ Wa), L. symmetry. apply (Forall2_len _ _ _ Fa). }
    inversion Wb as [|? ? ? ? Wm Wc]; subst.
    assert (Cm' : complete w u m'). { destruct Tm as [Tm|Tm]; [|exact Tm]. apply (IH u m m' Tm Ou). exists b. auto. }
    destruct Cm' as (b' & Wm' & Fm'). destruct (complete_whole _ _ _ D) as (va' & Wa' & Fa').
    exists (VList (va' ++ b' :: vc)). split; [eapply consists_whole; [exact C'|]|eapply fm_mem; [exact M|]]; apply Forall2_app; auto.
Qed.
Lemma torn_assigned w t x o : torn w t x o -> assigned w t -> o = x.
Proof. intros T [M A]. destruct T; try reflexivity; try contradiction. congruence. Qed.

(** * Restoring once more *)
Lemma formed_shape w strs : forall t, rewritten strs w t -> forall v, formed w t v -> shape w t v.
Proof.
  fix IH 2. intros t R v Fm. destruct R as [t N|c R|c R|n e R|a b Ra Rb].
  - apply sh_any. destruct t; auto.
  - inversion Fm as [? ? M|? ts vs M H]; subst; [discriminate|]. injection M as <-. apply sh_cls. clear Fm. revert vs H. induction R as [|f fs [_ Rf] _ IHR]; intros vs H; inversion H; subst; constructor; auto.
  - inversion Fm as [? ? M|? ts vs M H]; subst; [discriminate|]. injection M as <-. apply sh_tup. clear Fm. revert vs H. induction R as [|f fs Rf _ IHR]; intros vs H; inversion H; subst; constructor; auto.
  - inversion Fm as [? ? M|? ts vs M H]; subst; [discriminate|]. injection M as <-. destruct (repeat_formed w _ _ _ H) as [Fv L]. apply sh_arr; [exact L|]. eapply Forall_impl; [|exact Fv]. intros x. apply (IH e R).
  - inversion Fm as [? ? M|? ts vs M H]; subst; [discriminate|]. injection M as <-. inversion H as [|? x ? ? Fx H1]; subst. inversion H1 as [|? y ? ? Fy H2]; subst. inversion H2; subst. apply sh_pair; [apply (IH a Ra); assumption|apply (IH b Rb); assumption].
Qed.
Lemma again_block strs F w q t x o v b i : rewritten strs w t -> owned w t -> complete w t x -> torn w t x o -> shape w t b -> (strs = true -> block_without_null (w_fp w) F q i) ->
  run_block (restore_object (w_fp w) F w q t b) i = Ok v ->
  exists s, fst (restore_over (@run_block) (w_fp w) F w q t o i) = Ok (fst (snd (fst v)), s) /\ whole (snd (restore_over (@run_block) (w_fp w) F w q t o i)) = Some (fst (snd (fst v))).
Proof.
  intros R Ow Cx T Sb N E. destruct (torn_complete w t x o T Ow Cx) as (u & W & Fm). pose proof (formed_shape w strs t R u Fm) as Su.
  destruct (restore_over_block_says (w_fp w) F w q t o u i W Fm) as [H1 H2]. rewrite (restore_over_block strs F w q t u b i R Su Sb N), E in H1. destruct v as [[q' [v s]] i']. cbn [rbind fst snd] in *.
  rewrite H1 in H2. exists s. split; [exact H1|]. apply H2.
Qed.
Lemma again_stream strs F w q t x o v b i : rewritten strs w t -> owned w t -> complete w t x -> torn w t x o -> shape w t b -> (strs = true -> stream_without_null (w_fp w) F q i) ->
  run_stream (restore_object (w_fp w) F w q t b) i = Ok v ->
  exists s, fst (restore_over (@run_stream) (w_fp w) F w q t o i) = Ok (fst (snd (fst v)), s) /\ whole (snd (restore_over (@run_stream) (w_fp w) F w q t o i)) = Some (fst (snd (fst v))).
Proof.
  intros R Ow Cx T Sb N E. destruct (torn_complete w t x o T Ow Cx) as (u & W & Fm). pose proof (formed_shape w strs t R u Fm) as Su.
  destruct (restore_over_stream_says (w_fp w) F w q t o u i W Fm) as [H1 H2]. rewrite (restore_over_stream strs F w q t u b i R Su Sb N), E in H1. destruct v as [[q' [v s]] i']. cbn [rbind fst snd] in *.
  rewrite H1 in H2. exists s. split; [exact H1|]. apply H2.
Qed.
(** a deleted pointer is deleted again *)
Lemma dead_again F w e v n s : v <> VNone -> scoped (CPtr e) = true -> paste_over (S F) w (CPtr e) (ODead v) n s = (UB UbHeap, ODead v).
Proof. intros N S. unfold paste_over, opaste_tree. rewrite S. cbn [held opaste opaste_step]. unfold odelete. destruct v; try reflexivity. congruence. Qed.
