(** Graphs of shared objects that lead back to themselves are stored, but not restored. *)
From Coq Require Import ZArith List Bool Lia ZifyBool ZifyNat.
From Verif Require Import Base Lemmas M_Types M_Conv M_TpTools M_Charset S_Doc M_Tree S_Tree M_TreeIO S_TreeIO M_Object S_Object S_ObjStore M_ObjIO S_ObjIO S_Agree S_Cycle P_Tree P_ObjEager P_ObjLazy P_ObjStore P_ObjIO P_ObjFit P_EvolveIO.
Import ListNotations.
Open Scope Z_scope.

(** ** No way back *)
Section Ground.
Variable hp : heap_t.
Definition below (x v : cv) : Prop := exists s, into hp v s = Some x.
Definition grounded (v : cv) : Prop := Acc below v.
Lemma part_app : forall p q v, part hp v (p ++ q) = match part hp v p with Some x => part hp x q | None => None end.
Proof. induction p as [|s p IH]; intros q v; cbn [app part]; [reflexivity|]. destruct (into hp v s); [apply IH|reflexivity]. Qed.
Lemma grounded_part : forall p v x, grounded v -> part hp v p = Some x -> grounded x.
Proof.
  induction p as [|s p IH]; intros v x G H; cbn [part] in H; [injection H as <-; exact G|]. destruct (into hp v s) as [y|] eqn:E; [|discriminate].
  apply (IH y x); [|exact H]. destruct G as [G]. apply G. now exists s.
Qed.
Lemma no_return v : grounded v -> forall p, p <> [] -> part hp v p <> Some v.
Proof.
  induction 1 as [v _ IH]. intros [|s p] NE H; [contradiction|]. cbn [part] in H. destruct (into hp v s) as [y|] eqn:E; [|discriminate].
  apply (IH y (ex_intro _ s E) (p ++ [s])); [now destruct p|]. rewrite part_app, H. cbn [part]. now rewrite E.
Qed.
Lemma grounded_acyclic v : grounded v -> ~ cyclic hp v.
Proof. intros G (p & q & a & P & NE & Q). exact (no_return _ (grounded_part _ _ _ G P) q NE Q). Qed.

Lemma ground_list vs : Forall grounded vs -> grounded (VList vs).
Proof. intros F. constructor. intros x [s H]. destruct s; try discriminate H. cbn in H. rewrite Forall_forall in F. apply F. eapply nth_error_In; eauto. Qed.
Lemma ground_poly c vs : Forall grounded vs -> grounded (VPoly c vs).
Proof. intros F. constructor. intros x [s H]. destruct s; try discriminate H. cbn in H. rewrite Forall_forall in F. apply F. eapply nth_error_In; eauto. Qed.
Lemma ground_map l : Forall grounded (map fst l) -> Forall grounded (map snd l) -> grounded (VMap l).
Proof.
  intros F1 F2. constructor. intros x [s H]. destruct s; try discriminate H; cbn in H; destruct (nth_error l i) as [q|] eqn:E; try discriminate H; injection H as <-; apply nth_error_In in E.
  - rewrite Forall_forall in F1. apply F1. now apply in_map.
  - rewrite Forall_forall in F2. apply F2. now apply in_map.
Qed.
Lemma ground_tab l : Forall grounded (map snd l) -> grounded (VTab l).
Proof. intros F. constructor. intros x [s H]. destruct s; try discriminate H. cbn in H; destruct (nth_error l i) as [q|] eqn:E; try discriminate H; injection H as <-; apply nth_error_In in E. rewrite Forall_forall in F. apply F. now apply in_map. Qed.
Lemma ground_some x : grounded x -> grounded (VSome x).
Proof. intros G. constructor. intros y [s H]. destruct s; try discriminate H. injection H as <-. exact G. Qed.
Lemma ground_ref a e x : nth_error hp a = Some (e, x) -> grounded x -> grounded (VRef a).
Proof. intros E G. constructor. intros y [s H]. destruct s; try discriminate H. cbn in H. rewrite E in H. injection H as <-. exact G. Qed.
Lemma ground_leaf v : match v with VNum _ | VStr _ | VNone => True | _ => False end -> grounded v.
Proof. intros M. constructor. intros y [s H]. destruct v; try contradiction; destruct s; discriminate H. Qed.
End Ground.

Ltac inv_bind H := let p := fresh "q" in let E := fresh "E" in apply bind_ok in H; destruct H as (p & E & H).

(** ** Keys stay *)
Definition keeps (tab tab' : shared_tab) : Prop := forall a k, tab_key a tab = Some k -> tab_key a tab' = Some k.
Lemma emits_keep {A} (f : A -> shared_tab -> res (doc * shared_tab)) : (forall a tab d tab', f a tab = Ok (d, tab') -> keeps tab tab') -> forall l tab its tab', emits f l tab = Ok (its, tab') -> keeps tab tab'.
Proof.
  intros H. induction l as [|x l IH]; intros tab its tab' E; cbn [emits] in E; [now injection E as <- <-|]. inv_bind E. destruct q as [d t1]. inv_bind E. destruct q as [ds t2]. injection E as <- <-.
  intros a k T. eapply IH; eauto. eapply H; eauto.
Qed.
Lemma emit_keeps w hp : forall F t v name tab d tab', emit F w hp t v name tab = Ok (d, tab') -> keeps tab tab'.
Proof.
  induction F as [|F IH]; cbn [emit]; intros t v name tab d tab' H; [discriminate|].
  destruct t as [ty|e|e|e m| |c|e|e|k e|e|m e|a b|c|e|e|e|e|], v as [z|s|vs|l|l| |x|a0|c0 vs]; try discriminate H.
  all: try (match type of H with context [Nat.eqb _ _] => destruct (Nat.eqb _ _); [|discriminate H] end).
  all: try (injection H as <- <-; now intros ? ?).
  all: try (now apply IH in H).
  all: try (inv_bind H; injection H as <- <-; now intros ? ?).
  all: try (inv_bind H; destruct q as [its t1]; injection H as <- <-; revert E; apply emits_keep; intros; eapply IH; eassumption).
  - inv_bind H. destruct q as [its t1]; injection H as <- <-; revert E; apply emits_keep. intros [y z] tb d1 tb' E. inv_bind E. destruct q as [d2 t2]. inv_bind E. destruct q as [d3 t3]. injection E as <- <-. intros b j T. eapply IH; eauto. eapply IH; eauto.
  - destruct vs as [|y [|z [|]]]; try discriminate. inv_bind H. destruct q as [d2 t2]. inv_bind H. destruct q as [d3 t3]. injection H as <- <-. intros c j T. eapply IH; eauto. eapply IH; eauto.
  - destruct (nth_error hp a0) as [[u y]|]; [|discriminate]. unfold insert_shared in H. destruct (tab_key a0 tab); [now injection H as <- <-|]. inv_bind H. destruct q as [d2 t2]. injection H as <- <-. intros c j T. eapply IH; [eauto|]. now rewrite tab_key_app, T.
  - destruct (nth_error hp a0) as [[u y]|]; [|discriminate]. unfold insert_shared in H. destruct (tab_key a0 tab); [now injection H as <- <-|]. inv_bind H. destruct q as [d2 t2]. injection H as <- <-. intros c j T. eapply IH; [eauto|]. now rewrite tab_key_app, T.
Qed.

(** ** What was restored leads nowhere back *)

Section Restored.
Variables (w : world) (hp : heap_t) (lev : nat -> nat) (leaf : ct -> cv -> Prop) (V : value -> value -> Prop).
Notation ok := (storable w hp lev leaf).
Hypothesis REG : regular w.
Hypothesis HEAP : (forall a e y, nth_error hp a = Some (e, y) -> exists m, ok m e y) /\ zlen hp < two64.
Hypothesis LEAF : forall t v, leaf t v -> match t with CNum _ | CStr _ | CChar _ | CChars _ _ | CBits => exists sv, leaf_value t v = Some sv | _ => True end.
Hypothesis SOLID : forall t v sv, leaf t v -> leaf_value t v = Some sv -> v_type sv <> TNull.
Hypothesis NULL : forall sv v', V sv v' -> (v_type v' = TNull <-> v_type sv = TNull).
Hypothesis KEY : forall k v' old, 0 <= k < two64 -> V (val_int TUI64 k) v' -> paste_value w (CNum TUI64) old v' = Ok (VNum k).
Hypothesis TEXT : forall s v', leaf (CStr EUTF8) (VStr s) -> V (val_string s EUTF8) v' -> v_type v' = TString /\ v_data v' = s /\ v_enc v' = EUTF8.
Notation gr := (grounded hp).
Notation kind := (emit_kind w hp lev leaf V SOLID).
Notation namd := (emit_name w hp lev leaf SOLID).

Definition inv (tab : shared_tab) (s : rstate) : Prop :=
  tab_fine hp tab /\ forall k b, find_key k (r_tab s) = Some b -> exists a, tab_key a tab = Some k /\ gr (VRef a).
Definition grounds (f : nat) : Prop := forall n t v nm name tab d tab' d' old s c s' G,
  emit f w hp t v name tab = Ok (d, tab') -> ok n t v -> like V nm d d' -> dchild w false (said G w false) t old d' s = Ok (c, s') -> inv tab s -> gr v /\ inv tab' s'.

Lemma said_child G t old d s c s' u : said G w false t old d s = Ok (c, s', u) -> dchild w false (said G w false) t old d s = Ok (c, s').
Proof. intros H. destruct d as [k v|k ty its]; [destruct G; discriminate H|]. unfold dchild. rewrite H. reflexivity. Qed.

Section Level.
Variable f : nat.
Hypothesis IH : grounds f.
Notation emit_field := (fun fv : field * cv => emit f w hp (f_type (fst fv)) (snd fv) (f_name (fst fv))).

Section Deep.
Variable G : nat.
Notation dn := (said G w false).

Lemma field_name_inv t k old pre d post s c s' u : Forall (fun x => doc_name x <> k) pre -> is_sc d = scoped t -> doc_name d = k ->
  dfield w false dn t (IdName k) old (pre ++ d :: post) s = Ok (c, s', u) -> dchild w false dn t old d s = Ok (c, s').
Proof. intros P K N H. unfold dfield, select in H. rewrite (pick_named _ _ _ _ _ P K N) in H. inv_bind H. destruct q as [v1 s1]. now injection H as <- <- <-. Qed.
Lemma field_pos_inv t old pre d post s c s' u : is_sc d = scoped t ->
  dfield w false dn t (IdPos (Z.of_nat (count (scoped t) pre))) old (pre ++ d :: post) s = Ok (c, s', u) -> dchild w false dn t old d s = Ok (c, s').
Proof. intros K H. unfold dfield, select in H. replace (Z.of_nat _ <? 0) with false in H by lia. rewrite Nat2Z.id, (pick_pos _ _ _ K) in H. inv_bind H. destruct q as [v1 s1]. now injection H as <- <- <-. Qed.

Lemma named_ground n : forall fs vs tab its tab' its' olds pre s cs s' u vi ni, Forall (fun g => 0 < zlen (f_name g)) fs -> NoDup (map f_name fs) ->
  Forall (fun x => ~ In (doc_name x) (map f_name fs)) pre ->
  emits emit_field (combine fs vs) tab = Ok (its, tab') -> Forall2 (fun g v => ok n (f_type g) v) fs vs ->
  Forall2 (like V true) its its' -> dfields w false dn fs olds (pre ++ its') s vi ni = Ok (cs, s', u) -> inv tab s -> Forall gr vs /\ inv tab' s'.
Proof.
  induction fs as [|x fs IHf]; intros vs tab its tab' its' olds pre s cs s' u vi ni FN ND PR H FV R DF I.
  - inversion FV; subst. cbn in H. injection H as <- <-. cbn [dfields] in DF. injection DF as <- <- <-. auto.
  - inversion FV as [|? v ? vs' V1 V2]; subst. cbn [combine emits] in H. inv_bind H. destruct q as [d t1]. inv_bind H. destruct q as [ds t2].
    injection H as <- <-. inversion R as [|? d' ? ds' R1 R2]; subst. cbn [fst snd] in E. inversion FN as [|? ? FN1 FN2]; subst. inversion ND as [|? ? ND1 ND2]; subst.
    pose proof (like_name _ _ _ R1) as N1. rewrite (namd _ _ _ _ _ _ _ E) in N1. pose proof (kind _ _ _ _ _ _ _ _ _ _ E V1 R1) as K1.
    assert (P1 : Forall (fun y => doc_name y <> f_name x) pre). { eapply Forall_impl; [|exact PR]. cbn. intros y Hy Q. apply Hy. now left. }
    assert (P2 : Forall (fun y => ~ In (doc_name y) (map f_name fs)) (pre ++ [d'])).
    { apply Forall_app. split; [eapply Forall_impl; [|exact PR]; cbn; tauto|]. constructor; [|constructor]. now rewrite N1. }
    cbn [dfields] in DF. destruct olds as [|o olds]; [discriminate|].
    replace (existsb (of_name (scoped (f_type x)) (f_name x)) (pre ++ d' :: ds')) with true in DF.
    2:{ symmetry. apply existsb_exists. exists d'. split; [apply in_or_app; right; now left|]. unfold of_name. now rewrite K1, Bool.eqb_reflx, N1, bytes_eqb_refl. }
    cbn [negb] in DF. rewrite !andb_false_r in DF. cbn [andb] in DF. replace (0 <? zlen (f_name x)) with true in DF by lia.
    inv_bind DF. destruct q as [[c1 s1] u1]. inv_bind DF. destruct q as [[cs2 s2] u2]. injection DF as <- <- <-.
    apply (field_name_inv _ _ _ _ _ _ _ _ _ _ P1 K1 N1) in E1. destruct (IH _ _ _ _ _ _ _ _ _ _ _ _ _ _ E V1 R1 E1 I) as [G1 I1].
    replace (pre ++ d' :: ds') with ((pre ++ [d']) ++ ds') in E2 by now rewrite <- app_assoc.
    destruct (IHf _ _ _ _ _ _ _ _ _ _ _ _ _ FN2 ND2 P2 E0 V2 R2 E2 I1) as [G2 I2]. auto.
Qed.
Lemma pos_ground n : forall fs vs tab its tab' its' nm olds pre s cs s' u, Forall (fun g => f_name g = [] /\ f_opt g = false) fs ->
  emits emit_field (combine fs vs) tab = Ok (its, tab') -> Forall2 (fun g v => ok n (f_type g) v) fs vs ->
  Forall2 (like V nm) its its' -> dfields w false dn fs olds (pre ++ its') s (Z.of_nat (count false pre)) (Z.of_nat (count true pre)) = Ok (cs, s', u) -> inv tab s -> Forall gr vs /\ inv tab' s'.
Proof.
  induction fs as [|x fs IHf]; intros vs tab its tab' its' nm olds pre s cs s' u FN H FV R DF I.
  - inversion FV; subst. cbn in H. injection H as <- <-. cbn [dfields] in DF. injection DF as <- <- <-. auto.
  - inversion FV as [|? v ? vs' V1 V2]; subst. cbn [combine emits] in H. inv_bind H. destruct q as [d t1]. inv_bind H. destruct q as [ds t2].
    injection H as <- <-. inversion R as [|? d' ? ds' R1 R2]; subst. cbn [fst snd] in E. inversion FN as [|? ? [FN1 FN1'] FN2]; subst.
    pose proof (kind _ _ _ _ _ _ _ _ _ _ E V1 R1) as K1.
    cbn [dfields] in DF. destruct olds as [|o olds]; [discriminate|]. rewrite FN1, FN1' in DF. cbn [andb zlen length Z.of_nat Z.ltb Z.compare] in DF.
    inv_bind DF. destruct q as [[c1 s1] u1]. inv_bind DF. destruct q as [[cs2 s2] u2]. injection DF as <- <- <-.
    replace (if scoped (f_type x) then Z.of_nat (count true pre) else Z.of_nat (count false pre)) with (Z.of_nat (count (scoped (f_type x)) pre)) in E1 by (now destruct (scoped (f_type x))).
    apply (field_pos_inv _ _ _ _ _ _ _ _ _ K1) in E1. destruct (IH _ _ _ _ _ _ _ _ _ _ _ _ _ _ E V1 R1 E1 I) as [G1 I1].
    replace (pre ++ d' :: ds') with ((pre ++ [d']) ++ ds') in E2 by now rewrite <- app_assoc.
    assert (KT : of_kind true d' = scoped (f_type x)) by (unfold of_kind; rewrite K1; now destruct (scoped (f_type x))).
    assert (KF : of_kind false d' = negb (scoped (f_type x))) by (unfold of_kind; rewrite K1; now destruct (scoped (f_type x))).
    replace (if scoped (f_type x) then Z.of_nat (count false pre) else Z.of_nat (count false pre) + 1) with (Z.of_nat (count false (pre ++ [d']))) in E2
      by (rewrite count_snoc, KF; destruct (scoped (f_type x)); cbn [negb]; lia).
    replace (if scoped (f_type x) then Z.of_nat (count true pre) + 1 else Z.of_nat (count true pre)) with (Z.of_nat (count true (pre ++ [d']))) in E2
      by (rewrite count_snoc, KT; destruct (scoped (f_type x)); lia).
    destruct (IHf _ _ _ _ _ _ _ _ _ _ _ _ FN2 E0 V2 R2 E2 I1) as [G2 I2]. auto.
Qed.
Lemma kinds n e : forall vs tab its tab' its' nm, emits (fun x => emit f w hp e x []) vs tab = Ok (its, tab') -> Forall (ok n e) vs -> Forall2 (like V nm) its its' -> Forall (fun d => is_sc d = scoped e) its' /\ length its' = length vs.
Proof.
  induction vs as [|v vs IHv]; intros tab its tab' its' nm H FV R.
  - cbn in H. injection H as <- <-. inversion R; subst. auto.
  - cbn [emits] in H. inv_bind H. destruct q as [d t1]. inv_bind H. destruct q as [ds t2]. injection H as <- <-. inversion R as [|? d' ? ds' R1 R2]; subst. inversion FV as [|? ? V1 V2]; subst.
    destruct (IHv _ _ _ _ _ E0 V2 R2) as [A B]. split; [constructor; [exact (kind _ _ _ _ _ _ _ _ _ _ E V1 R1)|exact A]|cbn; lia].
Qed.
Lemma each_ground {B} (add : cv -> B -> B) n e : forall vs tab its tab' its' nm acc s acc' s',
  emits (fun x => emit f w hp e x []) vs tab = Ok (its, tab') -> Forall (ok n e) vs -> Forall2 (like V nm) its its' -> deach (delem w false dn add e) its' acc s = Ok (acc', s') -> inv tab s -> Forall gr vs /\ inv tab' s'.
Proof.
  induction vs as [|v vs IHv]; intros tab its tab' its' nm acc s acc' s' H FV R D I.
  - cbn in H. injection H as <- <-. inversion R; subst. cbn in D. injection D as <- <-. auto.
  - cbn [emits] in H. inv_bind H. destruct q as [d t1]. inv_bind H. destruct q as [ds t2]. injection H as <- <-. inversion R as [|? d' ? ds' R1 R2]; subst. inversion FV as [|? ? V1 V2]; subst.
    cbn [deach] in D. inv_bind D. destruct q as [acc1 s1]. unfold delem in E1. inv_bind E1. destruct q as [c s2]. injection E1 as <- <-.
    destruct (IH _ _ _ _ _ _ _ _ _ _ _ _ _ _ E V1 R1 E2 I) as [G1 I1]. destruct (IHv _ _ _ _ _ _ _ _ _ E0 V2 R2 D I1) as [G2 I2]. auto.
Qed.
Lemma array_ground n e : forall vs tab its tab' its' nm olds s cs s', length olds = length vs ->
  emits (fun x => emit f w hp e x []) vs tab = Ok (its, tab') -> Forall (ok n e) vs -> Forall2 (like V nm) its its' -> darray w false dn e olds its' s = Ok (cs, s') -> inv tab s -> Forall gr vs /\ inv tab' s'.
Proof.
  induction vs as [|v vs IHv]; intros tab its tab' its' nm olds s cs s' L H FV R D I.
  - destruct olds; [|discriminate]. cbn in H. injection H as <- <-. inversion R; subst. cbn in D. injection D as <- <-. auto.
  - destruct olds as [|o olds]; [discriminate|]. cbn [emits] in H. inv_bind H. destruct q as [d t1]. inv_bind H. destruct q as [ds t2]. injection H as <- <-. inversion R as [|? d' ? ds' R1 R2]; subst. inversion FV as [|? ? V1 V2]; subst.
    cbn [darray] in D. inv_bind D. destruct q as [c1 s1]. inv_bind D. destruct q as [cs2 s2]. injection D as <- <-.
    destruct (IH _ _ _ _ _ _ _ _ _ _ _ _ _ _ E V1 R1 E1 I) as [G1 I1]. destruct (IHv _ _ _ _ _ olds _ _ _ ltac:(cbn in L; lia) E0 V2 R2 E2 I1) as [G2 I2]. auto.
Qed.
Lemma two_ground n ta tb ka kb x y tab1 tab2 tab3 d1 d2 its' oa ob s cx cy s1 s2 u1 u2 : ka <> kb ->
  emit f w hp ta x ka tab1 = Ok (d1, tab2) -> emit f w hp tb y kb tab2 = Ok (d2, tab3) -> ok n ta x -> ok n tb y ->
  Forall2 (like V true) [d1; d2] its' -> dfield w false dn ta (IdName ka) oa its' s = Ok (cx, s1, u1) -> dfield w false dn tb (IdName kb) ob its' s1 = Ok (cy, s2, u2) -> inv tab1 s ->
  gr x /\ gr y /\ inv tab3 s2.
Proof.
  intros NE E1 E2 O1 O2 R D1 D2 I. inversion R as [|? d1' ? l R1 R']; subst. inversion R' as [|? d2' ? l' R2 R'']; subst. inversion R''; subst.
  pose proof (like_name _ _ _ R1) as N1. rewrite (namd _ _ _ _ _ _ _ E1) in N1. pose proof (like_name _ _ _ R2) as N2. rewrite (namd _ _ _ _ _ _ _ E2) in N2.
  apply (field_name_inv ta ka oa [] d1' [d2']) in D1; [|constructor|exact (kind _ _ _ _ _ _ _ _ _ _ E1 O1 R1)|exact N1].
  apply (field_name_inv tb kb ob [d1'] d2' []) in D2; [|constructor; [congruence|constructor]|exact (kind _ _ _ _ _ _ _ _ _ _ E2 O2 R2)|exact N2].
  destruct (IH _ _ _ _ _ _ _ _ _ _ _ _ _ _ E1 O1 R1 D1 I) as [G1 I1]. destruct (IH _ _ _ _ _ _ _ _ _ _ _ _ _ _ E2 O2 R2 D2 I1) as [G2 I2]. auto.
Qed.
Lemma entries_ground n k e nm : forall l tab its tab' its' acc s acc' s',
  emits (fun p tab => let* (d1, tab1) := emit f w hp k (fst p) str_key tab in let* (d2, tab2) := emit f w hp e (snd p) str_value tab1 in Ok (DScope [] TObject [d1; d2], tab2)) l tab = Ok (its, tab') ->
  Forall (ok n k) (map fst l) -> Forall (ok n e) (map snd l) -> Forall2 (like V nm) its its' -> deach (dentry w false dn k e) (kind_items true its') acc s = Ok (acc', s') -> inv tab s ->
  Forall gr (map fst l) /\ Forall gr (map snd l) /\ inv tab' s'.
Proof.
  induction l as [|[x y] l IHl]; intros tab its tab' its' acc s acc' s' H F1 F2 R D I.
  - cbn in H. injection H as <- <-. inversion R; subst. cbn in D. injection D as <- <-. cbn. auto.
  - cbn [emits] in H. inv_bind H. destruct q as [d t1]. inv_bind H. destruct q as [ds t2]. injection H as <- <-. inv_bind E. destruct q as [d1 ta]. inv_bind E. destruct q as [d2 tb]. injection E as <- <-.
    cbn [fst snd map] in *. inversion F1 as [|? ? X1 X2]; subst. inversion F2 as [|? ? Y1 Y2]; subst. inversion R as [|? d' ? ds' R1 R2]; subst. inversion R1 as [|? ? k' ? ? its2 _ R3]; subst. cbn [ty_eqb] in R3.
    change (kind_items true (DScope k' TObject its2 :: ds')) with (DScope k' TObject its2 :: kind_items true ds') in D. cbn [deach] in D. inv_bind D. destruct q as [acc1 s1]. unfold dentry in E. cbn [items] in E. inv_bind E. destruct q as [[c1 s2] u1]. inv_bind E. destruct q as [[c2 s3] u2].
    unfold quiet in E. cbn [negb orb] in E. injection E as <- <-.
    destruct (two_ground n k e str_key str_value x y _ _ _ _ _ its2 _ _ s _ _ _ _ _ _ ltac:(discriminate) E1 E2 X1 Y1 R3 E3 E4 I) as (A1 & A2 & A3).
    destruct (IHl _ _ _ _ _ _ _ _ E0 X2 Y2 R2 D A3) as (B1 & B2 & B3). auto.
Qed.
Lemma table_ground n e : forall l tab its tab' its' acc s acc' s',
  emits (fun p => emit f w hp e (snd p) (fst p)) l tab = Ok (its, tab') -> Forall (ok n e) (map snd l) -> Forall2 (like V true) its its' -> deach (dtab w false dn e) (kind_items (scoped e) its') acc s = Ok (acc', s') -> inv tab s ->
  Forall gr (map snd l) /\ inv tab' s'.
Proof.
  induction l as [|[k y] l IHl]; intros tab its tab' its' acc s acc' s' H F2 R D I.
  - cbn in H. injection H as <- <-. inversion R; subst. cbn in D. injection D as <- <-. cbn. auto.
  - cbn [emits] in H. inv_bind H. destruct q as [d t1]. inv_bind H. destruct q as [ds t2]. injection H as <- <-. cbn [fst snd map] in *.
    inversion F2 as [|? ? Y1 Y2]; subst. inversion R as [|? d' ? ds' R1 R2]; subst. pose proof (kind _ _ _ _ _ _ _ _ _ _ E Y1 R1) as K1.
    unfold kind_items in D. cbn [filter] in D. unfold of_kind at 1 in D. rewrite K1, Bool.eqb_reflx in D. cbn [deach] in D. inv_bind D. destruct q as [acc1 s1]. unfold dtab in E1. inv_bind E1. destruct q as [c s2]. injection E1 as <- <-.
    destruct (IH _ _ _ _ _ _ _ _ _ _ _ _ _ _ E Y1 R1 E2 I) as [G1 I1]. destruct (IHl _ _ _ _ _ _ _ _ E0 Y2 R2 D I1) as [G2 I2]. auto.
Qed.

Lemma shared_ground t n e x a nm name tab d tab' k' ty its' old s c s' u : t = CShared e \/ t = CWeak e -> nth_error hp a = Some (e, x) ->
  emit (S f) w hp t (VRef a) name tab = Ok (d, tab') -> like V nm d (DScope k' ty its') -> dstep w false dn t old k' ty its' s = Ok (c, s', u) -> ok n t (VRef a) -> inv tab s -> gr (VRef a) /\ inv tab' s'.
Proof.
  intros T EA H L D O I.
  assert (H' : (let '(ex, key, tab1) := insert_shared a tab in
                if ex then Ok (DScope name TObject [DVal str_shared_key (val_int TUI64 key)], tab1)
                else let* (d, tab2) := emit f w hp e x str_shared_value tab1 in Ok (DScope name TObject [DVal str_shared_key (val_int TUI64 key); d], tab2)) = Ok (d, tab'))
    by (destruct T as [-> | ->]; cbn [emit] in H; rewrite EA in H; exact H).
  assert (D' : (let* (key, s1, u1) := dfield w false dn (CNum TUI64) (IdName str_shared_key) (VNum 0) its' s in
        match key with
        | VNum key =>
            match find_key key (r_tab s1) with
            | Some a =>
                match nth_error (r_heap s1) a with
                | Some (u, _) => if ct_eqb u e then Ok (VRef a, s1, u1) else UB UbCast
                | None => UB UbDangling
                end
            | None =>
                let* (x, s2, u2) := dfield w false dn e (IdName str_shared_value) (w_new w e) its' s1 in
                let a := length (r_heap s2) in
                Ok (VRef a, mkRs (r_heap s2 ++ [(e, x)]) (match find_key key (r_tab s2) with Some _ => r_tab s2 | None => (key, a) :: r_tab s2 end), Nat.max u1 u2)
            end
        | _ => Err
        end) = Ok (c, s', u)) by (destruct T as [-> | ->]; exact D).
  clear H D. destruct I as [TF GK]. unfold insert_shared in H'. destruct (tab_key a tab) as [key|] eqn:EK.
  - injection H' as <- <-. inversion L as [|? ? k1 ? ? its1 _ R]; subst. cbn [ty_eqb] in R. inversion R as [|? d0 ? its0 R0 R1]; subst. inversion R1; subst.
    inversion R0 as [? ? k0 ? v0 NK VV|]; subst. rewrite (NK eq_refl) in *. clear NK.
    assert (KR : 0 <= key < two64).
    { pose proof (tab_fine_len _ _ TF). pose proof (tab_key_range _ _ _ (proj1 TF) EK). pose proof (proj2 HEAP). lia. }
    assert (KV := KEY key v0 (VNum 0) KR VV). inv_bind D'. destruct q as [[ky s1] u1].
    apply (field_name_inv (CNum TUI64) str_shared_key (VNum 0) [] (DVal str_shared_key v0) []) in E; [|constructor|reflexivity|reflexivity]. cbn [dchild] in E. rewrite KV in E. cbn [rbind] in E. injection E as <- <-.
    destruct (find_key key (r_tab s)) as [b|] eqn:FK.
    + destruct (GK _ _ FK) as (a' & A1 & A2). pose proof (tab_key_inj _ _ _ _ (proj1 TF) EK A1) as <-. split; [exact A2|].
      destruct (nth_error (r_heap s) b) as [[u2 y]|]; [|discriminate]. destruct (ct_eqb u2 e); [|discriminate]. injection D' as <- <- <-. now split.
    + inv_bind D'. unfold dfield, select in E. cbn [nth_match of_name is_sc Bool.eqb doc_name] in E. unfold of_name in E. cbn [is_sc doc_name] in E. replace (bytes_eqb str_shared_key str_shared_value) with false in E by reflexivity. rewrite andb_false_r in E. discriminate E.
  - inv_bind H'. destruct q as [d1 tab2]. injection H' as <- <-. inversion L as [|? ? k1 ? ? its1 _ R]; subst. cbn [ty_eqb] in R. inversion R as [|? d0 ? its0 R0 R1]; subst.
    inversion R1 as [|? d1' ? its2 R2 R3]; subst. inversion R3; subst. inversion R0 as [? ? k0 ? v0 NK VV|]; subst. rewrite (NK eq_refl) in *. clear NK.
    pose proof (tab_fine_push _ _ _ _ _ TF EA EK) as TF1. pose proof (tab_fine_len _ _ TF1) as TL.
    assert (KV := KEY (zlen tab) v0 (VNum 0) ltac:(pose proof (proj2 HEAP); unfold zlen in *; rewrite app_length in TL; cbn [length] in TL; lia) VV).
    inv_bind D'. destruct q as [[ky s1] u1].
    apply (field_name_inv (CNum TUI64) str_shared_key (VNum 0) [] (DVal str_shared_key v0) [d1']) in E0; [|constructor|reflexivity|reflexivity]. cbn [dchild] in E0. rewrite KV in E0. cbn [rbind] in E0. injection E0 as <- <-.
    destruct (find_key (zlen tab) (r_tab s)) as [b|] eqn:FK.
    { destruct (GK _ _ FK) as (a' & A1 & _). pose proof (tab_key_range _ _ _ (proj1 TF) A1). lia. }
    inv_bind D'. destruct q as [[y s2] u2]. injection D' as <- <- <-. destruct (proj1 HEAP _ _ _ EA) as [m OX].
    pose proof (like_name _ _ _ R2) as N2. rewrite (namd _ _ _ _ _ _ _ E) in N2. pose proof (kind _ _ _ _ _ _ _ _ _ _ E OX R2) as K2.
    apply (field_name_inv e str_shared_value (w_new w e) [DVal str_shared_key v0] d1' []) in E0; [|constructor; [discriminate|constructor]|exact K2|exact N2].
    assert (I1 : inv (tab ++ [(a, zlen tab)]) s).
    { split; [exact TF1|]. intros k b FB. destruct (GK _ _ FB) as (a' & A1 & A2). exists a'. split; [|exact A2]. rewrite tab_key_app, A1. reflexivity. }
    destruct (IH _ _ _ _ _ _ _ _ _ _ _ _ _ _ E OX R2 E0 I1) as [G1 [TF2 GK2]]. assert (GA : gr (VRef a)) by (eapply ground_ref; eauto). split; [exact GA|].
    split; [exact TF2|]. cbn [r_tab]. intros k b FB. destruct (find_key (zlen tab) (r_tab s2)) as [b0|] eqn:F2; [eauto|]. cbn [find_key] in FB. destruct (zlen tab =? k) eqn:EQ; [|eauto].
    assert (k = zlen tab) by lia. subst k. exists a. split; [|exact GA]. eapply emit_keeps; [exact E|]. rewrite tab_key_app, EK. cbn [tab_key]. now rewrite Nat.eqb_refl.
Qed.
End Deep.

Lemma level_ground : grounds (S f).
Proof.
  intros n t v nm name tab d tab' d' old s c s' G H O L D I.
  inversion O as
    [t0 v0 LT SC LF|cc vs FV|cc vs FV|e vs FV|e vs FV PL SO|e vs FV|k e l FK FE PL SO|e l FE ND|a b x y Oa Ob|e x Ox NN|e x Ox NN|e SC|e x a EA LA|e x a EA LA|pu cc vs FV RG LI]; subst.
  - (* leaves *)
    cbn [emit] in H. assert (Q : exists sv, leaf_value t v = Some sv /\ d = DVal name sv /\ tab' = tab).
    { destruct t; try contradiction; destruct v; try discriminate H; [| | |inv_bind H; cbn [leaf_value]; rewrite E|]; injection H as <- <-; now eexists. }
    destruct Q as (sv & Q & -> & ->). inversion L as [? ? k' ? v' NK VV|]; subst. cbn [dchild] in D. inv_bind D. injection D as <- <-. split; [|exact I].
    apply ground_leaf. destruct t; try contradiction; destruct v; try discriminate Q; exact Logic.I.
  - (* class *)
    cbn [emit] in H. destruct (Nat.eqb _ _); [|discriminate]. inv_bind H. destruct q as [its t1]. injection H as <- <-. inversion L as [|? ? k' ? ? its' _ R]; subst. cbn [ty_eqb] in R.
    cbn [dchild] in D. inv_bind D. destruct q as [[c1 s1] u]. destruct (quiet false its' u); [|discriminate]. injection D as <- <-. destruct G as [|G]; [discriminate|]. cbn [said] in E0. unfold dstep in E0. cbn [is_scope negb] in E0.
    destruct old as [| |olds| | | | | |]; try discriminate E0. inv_bind E0. destruct q as [[cs s2] u2]. injection E0 as <- <- <-.
    assert (Q : Forall gr vs /\ inv t1 s2).
    { destruct (proj1 REG cc) as [[N1 N2]|N].
      - exact (named_ground G n _ _ _ _ _ _ _ [] s _ _ _ _ _ N1 N2 (Forall_nil _) E FV R E1 I).
      - exact (pos_ground G n _ _ _ _ _ _ _ _ [] s _ _ _ N E FV R E1 I). }
    destruct Q as [Q1 Q2]. split; [now apply ground_list|exact Q2].
  - (* tuple *)
    cbn [emit] in H. destruct (Nat.eqb _ _); [|discriminate]. inv_bind H. destruct q as [its t1]. injection H as <- <-. inversion L as [|? ? k' ? ? its' _ R]; subst. rewrite unname_emits in E.
    cbn [dchild] in D. inv_bind D. destruct q as [[c1 s1] u]. destruct (quiet false its' u); [|discriminate]. injection D as <- <-. destruct G as [|G]; [discriminate|]. cbn [said] in E0. unfold dstep in E0. cbn [is_scope negb] in E0.
    destruct old as [| |olds| | | | | |]; try discriminate E0. inv_bind E0. destruct q as [[cs s2] u2]. injection E0 as <- <- <-.
    assert (FV' : Forall2 (fun g v => ok n (f_type g) v) (map (fun g => mkField [] false (f_type g)) (w_cls w cc)) vs) by (clear - FV; induction FV; cbn; constructor; auto).
    assert (UN : Forall (fun g => f_name g = [] /\ f_opt g = false) (map (fun g => mkField [] false (f_type g)) (w_cls w cc))) by (clear; induction (w_cls w cc); cbn; constructor; auto).
    destruct (pos_ground G n _ _ _ _ _ _ _ _ [] s _ _ _ UN E FV' R E1 I) as [Q1 Q2]. split; [now apply ground_list|exact Q2].
  - (* sequence *)
    cbn [emit] in H. inv_bind H. destruct q as [its t1]. injection H as <- <-. inversion L as [|? ? k' ? ? its' _ R]; subst.
    cbn [dchild] in D. inv_bind D. destruct q as [[c1 s1] u]. destruct (quiet false its' u); [|discriminate]. injection D as <- <-. destruct G as [|G]; [discriminate|]. cbn [said] in E0. unfold dstep in E0. cbn [is_scope negb] in E0.
    inv_bind E0. destruct q as [cs s2]. injection E0 as <- <- <-. rewrite (kind_all _ _ (proj1 (kinds n _ _ _ _ _ _ _ E FV R))) in E1.
    destruct (each_ground G _ n e _ _ _ _ _ _ _ _ _ _ E FV R E1 I) as [Q1 Q2]. split; [now apply ground_list|exact Q2].
  - (* set *)
    cbn [emit] in H. inv_bind H. destruct q as [its t1]. injection H as <- <-. inversion L as [|? ? k' ? ? its' _ R]; subst.
    cbn [dchild] in D. inv_bind D. destruct q as [[c1 s1] u]. destruct (quiet false its' u); [|discriminate]. injection D as <- <-. destruct G as [|G]; [discriminate|]. cbn [said] in E0. unfold dstep in E0. cbn [is_scope negb] in E0.
    inv_bind E0. destruct q as [cs s2]. injection E0 as <- <- <-. rewrite (kind_all _ _ (proj1 (kinds n _ _ _ _ _ _ _ E FV R))) in E1.
    destruct (each_ground G _ n e _ _ _ _ _ _ _ _ _ _ E FV R E1 I) as [Q1 Q2]. split; [now apply ground_list|exact Q2].
  - (* array *)
    cbn [emit] in H. rewrite Nat.eqb_refl in H. inv_bind H. destruct q as [its t1]. injection H as <- <-. inversion L as [|? ? k' ? ? its' _ R]; subst.
    cbn [dchild] in D. inv_bind D. destruct q as [[c1 s1] u]. destruct (quiet false its' u); [|discriminate]. injection D as <- <-. destruct G as [|G]; [discriminate|]. cbn [said] in E0. unfold dstep in E0. cbn [is_scope negb] in E0.
    destruct old as [| |olds| | | | | |]; try discriminate E0. destruct (Nat.eqb (length olds) (length vs)) eqn:LO; [|discriminate E0]. apply Nat.eqb_eq in LO. cbn [negb] in E0. destruct (negb (Nat.eqb _ _)); [discriminate E0|].
    inv_bind E0. destruct q as [cs s2]. injection E0 as <- <- <-. rewrite (kind_all _ _ (proj1 (kinds n _ _ _ _ _ _ _ E FV R))) in E1.
    destruct (array_ground G n e _ _ _ _ _ _ _ _ _ _ LO E FV R E1 I) as [Q1 Q2]. split; [now apply ground_list|exact Q2].
  - (* map *)
    cbn [emit] in H. inv_bind H. destruct q as [its t1]. injection H as <- <-. inversion L as [|? ? k' ? ? its' _ R]; subst.
    cbn [dchild] in D. inv_bind D. destruct q as [[c1 s1] u]. destruct (quiet false its' u); [|discriminate]. injection D as <- <-. destruct G as [|G]; [discriminate|]. cbn [said] in E0. unfold dstep in E0. cbn [is_scope negb] in E0.
    inv_bind E0. destruct q as [cs s2]. injection E0 as <- <- <-.
    destruct (entries_ground G n k e _ _ _ _ _ _ _ _ _ _ E FK FE R E1 I) as (Q1 & Q2 & Q3). split; [now apply ground_map|exact Q3].
  - (* table *)
    cbn [emit] in H. inv_bind H. destruct q as [its t1]. injection H as <- <-. inversion L as [|? ? k' ? ? its' _ R]; subst. cbn [ty_eqb] in R.
    cbn [dchild] in D. inv_bind D. destruct q as [[c1 s1] u]. destruct (quiet false its' u); [|discriminate]. injection D as <- <-. destruct G as [|G]; [discriminate|]. cbn [said] in E0. unfold dstep in E0. cbn [ty_eqb negb] in E0.
    inv_bind E0. destruct q as [cs s2]. injection E0 as <- <- <-.
    destruct (table_ground G n e _ _ _ _ _ _ _ _ _ E FE R E1 I) as [Q1 Q2]. split; [now apply ground_tab|exact Q2].
  - (* pair *)
    cbn [emit] in H. inv_bind H. destruct q as [d1 t1]. inv_bind H. destruct q as [d2 t2]. injection H as <- <-. inversion L as [|? ? k' ? ? its' _ R]; subst. cbn [ty_eqb] in R.
    cbn [dchild] in D. inv_bind D. destruct q as [[c1 s1] u]. destruct (quiet false its' u); [|discriminate]. injection D as <- <-. destruct G as [|G]; [discriminate|]. cbn [said] in E1. unfold dstep in E1. cbn [ty_eqb negb] in E1.
    destruct old as [| |olds| | | | | |]; try discriminate E1. destruct olds as [|oa [|ob [|]]]; try discriminate E1. inv_bind E1. destruct q as [[cx s2] u1]. inv_bind E1. destruct q as [[cy s3] u2]. injection E1 as <- <- <-.
    destruct (two_ground G n a b str_first str_second x y _ _ _ _ _ its' oa ob s _ _ _ _ _ _ ltac:(discriminate) E E0 Oa Ob R E2 E3 I) as (Q1 & Q2 & Q3). split; [apply ground_list; auto|exact Q3].
  - (* pointer *)
    cbn [emit] in H. assert (Q : exists o1 c1 G1, dchild w false (said G1 w false) e o1 d' s = Ok (c1, s')).
    { destruct d' as [k' v'|k' ty its'].
      - cbn [dchild] in D. inv_bind D. injection D as <- <-. cbn [paste_value] in E. destruct (ty_eqb (v_type v') TNull) eqn:TN.
        + exfalso. inversion L as [? ? ? ? ? NK VV|]; subst. pose proof (proj2 (emit_head w hp lev leaf SOLID _ _ _ _ _ _ _ H) n Ox) as [_ NT]. specialize (NT NN). cbn [doc_type] in NT. apply NT. apply (NULL _ _ VV). now destruct (v_type v').
        + inv_bind E. eexists _, _, 0%nat. cbn [dchild]. rewrite E0. reflexivity.
      - cbn [dchild] in D. inv_bind D. destruct q as [[c1 s1] u]. destruct (quiet false its' u); [|discriminate]. injection D as <- <-. destruct G as [|G]; [discriminate|]. cbn [said dstep] in E. inv_bind E. destruct q as [[c2 s2] u2]. injection E as <- <- <-.
        eexists _, _, G. eapply said_child. exact E0. }
    destruct Q as (o1 & c1 & G1 & Q). destruct (IH _ _ _ _ _ _ _ _ _ _ _ _ _ _ H Ox L Q I) as [Q1 Q2]. split; [now apply ground_some|exact Q2].
  - (* unique pointer *)
    cbn [emit] in H. assert (Q : exists o1 c1 G1, dchild w false (said G1 w false) e o1 d' s = Ok (c1, s')).
    { destruct d' as [k' v'|k' ty its'].
      - cbn [dchild] in D. inv_bind D. injection D as <- <-. cbn [paste_value] in E. inv_bind E. eexists _, _, 0%nat. cbn [dchild]. rewrite E0. reflexivity.
      - cbn [dchild] in D. inv_bind D. destruct q as [[c1 s1] u]. destruct (quiet false its' u); [|discriminate]. injection D as <- <-. destruct G as [|G]; [discriminate|]. cbn [said dstep] in E. inv_bind E. destruct q as [[c2 s2] u2]. injection E as <- <- <-.
        eexists _, _, G. eapply said_child. exact E0. }
    destruct Q as (o1 & c1 & G1 & Q). destruct (IH _ _ _ _ _ _ _ _ _ _ _ _ _ _ H Ox L Q I) as [Q1 Q2]. split; [now apply ground_some|exact Q2].
  - (* null *)
    cbn [emit] in H. injection H as <- <-. inversion L as [? ? k' ? v' NK VV|]; subst. cbn [dchild] in D. inv_bind D. injection D as <- <-. split; [now apply ground_leaf|exact I].
  - pose proof (kind _ _ _ _ _ _ _ _ _ _ H O L) as K. destruct d' as [|k' ty its']; [discriminate K|]. cbn [dchild] in D. inv_bind D. destruct q as [[c1 s1] u]. destruct (quiet false its' u); [|discriminate]. injection D as <- <-. destruct G as [|G]; [discriminate|].
    cbn [said] in E. eapply (shared_ground G (CShared e)); eauto.
  - pose proof (kind _ _ _ _ _ _ _ _ _ _ H O L) as K. destruct d' as [|k' ty its']; [discriminate K|]. cbn [dchild] in D. inv_bind D. destruct q as [[c1 s1] u]. destruct (quiet false its' u); [|discriminate]. injection D as <- <-. destruct G as [|G]; [discriminate|].
    cbn [said] in E. eapply (shared_ground G (CWeak e)); eauto.
  - (* polymorphic class *)
    cbn [emit] in H. destruct (Nat.eqb _ _); [|discriminate]. inv_bind H. destruct q as [its t1]. injection H as <- <-. inversion L as [|? ? k' ? ? its0 _ R]; subst. cbn [ty_eqb] in R.
    inversion R as [|? d0 ? its' R0 R1]; subst. inversion R0 as [? ? k0 ? v0 NK VV|]; subst. rewrite (NK eq_refl) in *. clear NK.
    destruct (TEXT _ _ LI VV) as (T1 & T2 & T3). destruct (proj2 REG _ _ _ RG) as [[N1 N2] N3].
    assert (PR : Forall (fun y => ~ In (doc_name y) (map f_name (w_cls w cc))) [DVal str_type_id v0]) by (constructor; [exact N3|constructor]).
    cbn [dchild] in D. inv_bind D. destruct q as [[c1 s1] u]. destruct (quiet false _ u); [|discriminate]. injection D as <- <-. destruct G as [|G]; [discriminate|]. cbn [said] in E0. unfold dstep in E0. cbn [is_scope negb] in E0.
    unfold select in E0. pose proof (pick_named false str_type_id [] (DVal str_type_id v0) its' (Forall_nil _) eq_refl eq_refl) as PN. cbn [app length] in PN. rewrite PN, T1, T2, T3 in E0. cbn [ty_eqb negb andb] in E0. rewrite RG in E0. cbn [rbind] in E0.
    destruct (w_new w (CCls cc)) as [| |olds| | | | | |]; try discriminate E0. inv_bind E0. destruct q as [[cs s2] u2]. injection E0 as <- <- <-.
    destruct (named_ground G n _ _ _ _ _ _ _ [DVal str_type_id v0] s _ _ _ _ _ N1 N2 PR E FV R1 E1 I) as [Q1 Q2]. split; [now apply ground_poly|exact Q2].
Qed.
End Level.

Theorem all_ground : forall F, grounds F.
Proof. induction F; [intros n t v nm name tab d tab' d' old s c s' G H; discriminate H|now apply level_ground]. Qed.

(** the root *)
Theorem says_grounded F n t v nm name d tab' d' old G c s : stored_doc F w hp t v name [] = Ok (d, tab') -> ok n t v -> like V nm d d' ->
  says G w false t old d' rs_new = Ok (c, s) -> gr v.
Proof.
  intros H O L S. assert (I0 : inv [] rs_new). { split; [split; [intros [|i] a k X; discriminate X|split; constructor]|]. intros k b X. discriminate X. }
  unfold stored_doc in H. unfold says in S. destruct (null_root t v); [discriminate|]. destruct (scoped t) eqn:SC.
  - inv_bind S. destruct q as [[c1 s1] u]. injection S as <- <-. apply said_child in E. exact (proj1 (all_ground F _ _ _ _ _ _ _ _ _ _ _ _ _ _ H O L E I0)).
  - inv_bind H. destruct q as [d1 t1]. injection H as <- <-. inversion L as [|? ? k' ? ? its' _ R]; subst. cbn [ty_eqb] in R. inversion R as [|? d1' ? its0 R1 R2]; subst. inversion R2; subst.
    inv_bind S. destruct q as [[c1 s1] u]. injection S as <- <-. cbn [items] in E0. pose proof (kind _ _ _ _ _ _ _ _ _ _ E O R1) as K.
    pose proof (field_pos_inv G t old [] d1' [] rs_new c1 s1 u K) as FP. cbn [app count kind_items filter length Z.of_nat] in FP. specialize (FP E0).
    exact (proj1 (all_ground F _ _ _ _ _ _ _ _ _ _ _ _ _ _ E O R1 FP I0)).
Qed.
End Restored.

(** ** Storing comes to an end *)
Definition stored_in (tab : shared_tab) (a : nat) : bool := match tab_key a tab with Some _ => true | None => false end.
Definition room (hp : heap_t) (tab : shared_tab) : nat := length (filter (fun a => negb (stored_in tab a)) (seq 0 (length hp))).
Lemma filter_less {A} (f g : A -> bool) : forall l, (forall a, g a = true -> f a = true) -> (length (filter g l) <= length (filter f l))%nat.
Proof. intros l H. induction l as [|x l IH]; cbn; [lia|]. specialize (H x). destruct (g x); [rewrite H by reflexivity; cbn; lia|]. destruct (f x); cbn; lia. Qed.
Lemma filter_drop {A} (f g : A -> bool) a : forall l, In a l -> (forall x, g x = true -> f x = true) -> f a = true -> g a = false -> (length (filter g l) < length (filter f l))%nat.
Proof.
  intros l I H Fa Ga. induction l as [|x l IH]; [destruct I|]. destruct I as [-> |I]; cbn [filter].
  - rewrite Fa, Ga. cbn [length]. pose proof (filter_less f g l H). lia.
  - specialize (IH I). specialize (H x). destruct (g x); [rewrite H by reflexivity; cbn; lia|]. destruct (f x); cbn [length]; lia.
Qed.
Lemma room_push hp a q tab k : nth_error hp a = Some q -> tab_key a tab = None -> (room hp (tab ++ [(a, k)]) < room hp tab)%nat.
Proof.
  intros E N. apply (filter_drop _ _ a).
  - apply in_seq. assert (nth_error hp a <> None) by congruence. apply nth_error_Some in H. lia.
  - intros x H. unfold stored_in in *. rewrite tab_key_app in H. destruct (tab_key x tab); [discriminate H|reflexivity].
  - unfold stored_in. now rewrite N.
  - unfold stored_in. rewrite tab_key_app, N. cbn [tab_key]. now rewrite Nat.eqb_refl.
Qed.

Definition finishes {A} (hp : heap_t) (m : nat) (f : nat -> A -> shared_tab -> res (doc * shared_tab)) (a : A) : Prop :=
  exists F0, forall F, (F0 <= F)%nat -> forall tab, (room hp tab <= m)%nat -> exists d tab', f F a tab = Ok (d, tab') /\ (room hp tab' <= m)%nat.
Lemma emits_finish {A} hp m (f : nat -> A -> shared_tab -> res (doc * shared_tab)) : forall l, Forall (finishes hp m f) l ->
  exists F0, forall F, (F0 <= F)%nat -> forall tab, (room hp tab <= m)%nat -> exists its tab', emits (f F) l tab = Ok (its, tab') /\ (room hp tab' <= m)%nat.
Proof.
  induction 1 as [|a l [F1 H1] _ [F2 H2]]; [exists O; intros; cbn; eauto|]. exists (Nat.max F1 F2). intros F L tab R. cbn [emits].
  destruct (H1 F ltac:(lia) tab R) as (d & t1 & -> & R1). cbn [rbind]. destruct (H2 F ltac:(lia) t1 R1) as (ds & t2 & -> & R2). cbn [rbind]. eauto.
Qed.
Section Finish.
Variables (w : world) (hp : heap_t) (lev : nat -> nat) (leaf : ct -> cv -> Prop).
Notation ok := (storable w hp lev leaf).
Hypothesis HEAP : forall a e y, nth_error hp a = Some (e, y) -> exists m, ok m e y.
Hypothesis LEAF : forall t v, leaf t v -> match t with CNum _ | CStr _ | CChar _ | CChars _ _ | CBits => exists sv, leaf_value t v = Some sv | _ => True end.
Definition ends (m : nat) (t : ct) (v : cv) : Prop := forall name, finishes hp m (fun F v tab => emit F w hp t v name tab) v.
Lemma end_step m t v : (forall name, exists F0, forall F, (F0 <= F)%nat -> forall tab, (room hp tab <= m)%nat -> exists d tab', emit (S F) w hp t v name tab = Ok (d, tab') /\ (room hp tab' <= m)%nat) -> ends m t v.
Proof. intros H name. destruct (H name) as [F0 H0]. exists (S F0). intros [|F] L tab; [lia|]. apply H0. lia. Qed.
Lemma fields_end m n (fn : field -> bytes) : forall fs vs, Forall2 (fun f v => ok n (f_type f) v) fs vs -> Forall (fun v => forall t n, ok n t v -> ends m t v) vs ->
  length vs = length fs /\ Forall (finishes hp m (fun F fv tab => emit F w hp (f_type (fst fv)) (snd fv) (fn (fst fv)) tab)) (combine fs vs).
Proof.
  induction 1 as [|f v fs vs H F IH]; intros A; [split; [reflexivity|constructor]|]. inversion A as [|? ? A1 A2]; subst. destruct (IH A2) as [L1 L2]. cbn [length combine]. split; [lia|].
  constructor; [|exact L2]. destruct (A1 _ _ H (fn f)) as [F0 T]. exists F0. intros G L tab. apply T. exact L.
Qed.
Lemma list_end m n e : forall vs, Forall (ok n e) vs -> Forall (fun v => forall t n, ok n t v -> ends m t v) vs -> forall name, Forall (finishes hp m (fun F v tab => emit F w hp e v name tab)) vs.
Proof. induction 1; intros A name; constructor; inversion A; subst; auto. eapply H3. exact H. Qed.
Ltac useit E := match goal with |- context [emits ?f ?l ?tb] => match type of E with _ = ?r => let E' := fresh in assert (E' : emits f l tb = r) by exact E; rewrite E'; clear E' end end.
Ltac done' := cbn [rbind]; eauto.
Ltac badleaf L := exfalso; specialize (LEAF _ _ L); match goal with t : ct |- _ => destruct t; try contradiction; destruct LEAF as [sv S]; discriminate S end.

Lemma emit_ends : forall m v t n, ok n t v -> ends m t v.
Proof.
  induction m as [m RANK] using (well_founded_induction lt_wf). apply (cv_ind2 (fun v => forall t n, ok n t v -> ends m t v)).
  - intros k t n O. apply end_step. intros name. inversion O as [? ? T _ L| | | | | | | | | | | | | |]; subst. exists 0%nat. intros F _ tab R. specialize (LEAF _ _ L). destruct t; try contradiction; destruct LEAF as [sv S]; try discriminate S; cbn [emit]; eauto.
  - intros k t n O. apply end_step. intros name. inversion O as [? ? T _ L| | | | | | | | | | | | | |]; subst. exists 0%nat. intros F _ tab R. specialize (LEAF _ _ L). destruct t; try contradiction; destruct LEAF as [sv S]; try discriminate S; cbn [emit]; eauto. cbn [leaf_value] in S. destruct (wrap_array e n0 k); try discriminate S. cbn [rbind]. eauto.
  - intros vs IH t n O. apply end_step. intros name.
    inversion O as [? ? T _ L|c ? FV|c ? FV|e ? FV|e ? FV PL SO|e ? FV| | |a b y z OA OB| | | | | |]; subst.
    + specialize (LEAF _ _ L). destruct t; try contradiction; destruct LEAF as [sv S]; discriminate S.
    + destruct (fields_end m n f_name _ _ FV IH) as [LN FT]. destruct (emits_finish _ _ _ _ FT) as [F0 T]. exists F0. intros F L tab R. cbn [emit]. rewrite LN, Nat.eqb_refl. destruct (T F L tab R) as (its & t1 & E & R1). useit E. done'.
    + destruct (fields_end m n (fun _ => []) _ _ FV IH) as [LN FT]. destruct (emits_finish _ _ _ _ FT) as [F0 T]. exists F0. intros F L tab R. cbn [emit]. rewrite LN, Nat.eqb_refl. destruct (T F L tab R) as (its & t1 & E & R1). useit E. done'.
    + destruct (emits_finish _ _ _ _ (list_end m n _ _ FV IH [])) as [F0 T]. exists F0. intros F L tab R. cbn [emit]. destruct (T F L tab R) as (its & t1 & E & R1). useit E. done'.
    + destruct (emits_finish _ _ _ _ (list_end m n _ _ FV IH [])) as [F0 T]. exists F0. intros F L tab R. cbn [emit]. destruct (T F L tab R) as (its & t1 & E & R1). useit E. done'.
    + destruct (emits_finish _ _ _ _ (list_end m n _ _ FV IH [])) as [F0 T]. exists F0. intros F L tab R. cbn [emit]. rewrite Nat.eqb_refl. destruct (T F L tab R) as (its & t1 & E & R1). useit E. done'.
    + inversion IH as [|? ? I1 I2]; subst. inversion I2 as [|? ? I3 _]; subst. destruct (I1 _ _ OA str_first) as [F1 T1]. destruct (I3 _ _ OB str_second) as [F2 T2]. exists (Nat.max F1 F2). intros F L tab R. cbn [emit].
      destruct (T1 F ltac:(lia) tab R) as (d1 & t1 & -> & R1). cbn [rbind]. destruct (T2 F ltac:(lia) t1 R1) as (d2 & t2 & -> & R2). done'.
  - intros l IK IV t n O. apply end_step. intros name.
    inversion O as [? ? T _ L| | | | | |k e ? FK FV| | | | | | | |]; subst.
    + specialize (LEAF _ _ L). destruct t; try contradiction; destruct LEAF as [sv S]; discriminate S.
    + assert (Q : Forall (finishes hp m (fun F p tab => let* (d1, tab1) := emit F w hp k (fst p) str_key tab in let* (d2, tab2) := emit F w hp e (snd p) str_value tab1 in Ok (DScope [] TObject [d1; d2], tab2))) l).
      { clear - IK IV FK FV. induction l as [|[a b] l IH]; [constructor|]. cbn [map fst snd] in *. inversion IK as [|? ? K1 K2]; inversion IV as [|? ? V1 V2]; inversion FK as [|? ? G1 G2]; inversion FV as [|? ? W1 W2]; subst.
        constructor; [|auto]. destruct (K1 _ _ G1 str_key) as [F1 T1]. destruct (V1 _ _ W1 str_value) as [F2 T2]. exists (Nat.max F1 F2). intros F L tab R. cbn [fst snd].
        destruct (T1 F ltac:(lia) tab R) as (d1 & t1 & -> & R1). cbn [rbind]. destruct (T2 F ltac:(lia) t1 R1) as (d2 & t2 & -> & R2). done'. }
      destruct (emits_finish _ _ _ _ Q) as [F0 T]. exists F0. intros F L tab R. cbn [emit]. destruct (T F L tab R) as (its & t1 & E & R1). useit E. done'.
  - intros l IV t n O. apply end_step. intros name.
    inversion O as [? ? T _ L| | | | | | |e ? FV| | | | | | |]; subst.
    + specialize (LEAF _ _ L). destruct t; try contradiction; destruct LEAF as [sv S]; discriminate S.
    + assert (Q : Forall (finishes hp m (fun F (p : bytes * cv) tab => emit F w hp e (snd p) (fst p) tab)) l).
      { clear - IV FV. induction l as [|[a b] l IH]; [constructor|]. cbn [map fst snd] in *. inversion IV as [|? ? V1 V2]; inversion FV as [|? ? W1 W2]; subst. constructor; [|auto]. apply (V1 _ _ W1 a). }
      destruct (emits_finish _ _ _ _ Q) as [F0 T]. exists F0. intros F L tab R. cbn [emit]. destruct (T F L tab R) as (its & t1 & E & R1). useit E. done'.
  - intros t n O. apply end_step. intros name. inversion O as [? ? T _ L| | | | | | | | | | |e SC| | |]; subst.
    + specialize (LEAF _ _ L). destruct t; try contradiction; destruct LEAF as [sv S]; discriminate S.
    + exists 0%nat. intros F _ tab R. cbn [emit]. eauto.
  - intros y IH t n O. apply end_step. intros name. inversion O as [? ? T _ L| | | | | | | | |e ? OX _|e ? OX _| | | |]; subst.
    + specialize (LEAF _ _ L). destruct t; try contradiction; destruct LEAF as [sv S]; discriminate S.
    + destruct (IH _ _ OX name) as [F0 T]. exists F0. intros F L tab R. cbn [emit]. now apply T.
    + destruct (IH _ _ OX name) as [F0 T]. exists F0. intros F L tab R. cbn [emit]. now apply T.
  - intros a t n O. apply end_step. intros name.
    assert (Q : forall e y, nth_error hp a = Some (e, y) -> exists F0, forall F, (F0 <= F)%nat -> forall tab, (room hp tab <= m)%nat -> exists d tab',
      (let '(ex, key, tab1) := insert_shared a tab in let k := DVal str_shared_key (val_int TUI64 key) in
       if ex then Ok (DScope name TObject [k], tab1) else let* (d, tab2) := emit F w hp e y str_shared_value tab1 in Ok (DScope name TObject [k; d], tab2)) = Ok (d, tab') /\ (room hp tab' <= m)%nat).
    { intros e y E. destruct (HEAP _ _ _ E) as [j OY]. destruct m as [|m'].
      - exists 0%nat. intros F _ tab R. unfold insert_shared. destruct (tab_key a tab) as [key|] eqn:EK; [eauto|]. pose proof (room_push hp a _ tab (zlen tab) E EK). lia.
      - destruct (RANK m' ltac:(lia) _ _ _ OY str_shared_value) as [F0 T]. exists F0. intros F LF tab R. unfold insert_shared. destruct (tab_key a tab) as [key|] eqn:EK; [eauto|]. pose proof (room_push hp a _ tab (zlen tab) E EK) as RP.
        destruct (T F LF (tab ++ [(a, zlen tab)]) ltac:(lia)) as (d & t2 & -> & R2). cbn [rbind]. eexists _, _. split; [reflexivity|lia]. }
    inversion O as [? ? T _ L| | | | | | | | | | | |e y ? E L|e y ? E L|]; subst.
    + specialize (LEAF _ _ L). destruct t; try contradiction; destruct LEAF as [sv S]; discriminate S.
    + destruct (Q _ _ E) as [F0 T]. exists F0. intros F LF tab R. cbn [emit]. rewrite E. exact (T F LF tab R).
    + destruct (Q _ _ E) as [F0 T]. exists F0. intros F LF tab R. cbn [emit]. rewrite E. exact (T F LF tab R).
  - intros c vs IH t n O. apply end_step. intros name. inversion O as [? ? T _ L| | | | | | | | | | | | | |? ? ? FV RG _]; subst.
    + specialize (LEAF _ _ L). destruct t; try contradiction; destruct LEAF as [sv S]; discriminate S.
    + destruct (fields_end m n f_name _ _ FV IH) as [LN FT]. destruct (emits_finish _ _ _ _ FT) as [F0 T]. exists F0. intros F L tab R. cbn [emit]. rewrite LN, Nat.eqb_refl. destruct (T F L tab R) as (its & t1 & E & R1). useit E. done'.
Qed.
Lemma stored_ends n t v name : ok n t v -> exists F0 r, forall F, (F0 <= F)%nat -> stored_doc F w hp t v name [] = Ok r.
Proof.
  intros O. unfold stored_doc. replace (null_root t v) with false by (destruct O as [t v T _ _| | | | | | | | | | | | | |]; try reflexivity; destruct t; try contradiction; reflexivity). destruct (scoped t).
  - destruct (emit_ends (room hp []) v t n O name) as [F0 T]. destruct (T F0 (le_n _) [] (le_n _)) as (d & tb & E & _). exists F0, (d, tb). intros F L. revert E. now apply emit_more.
  - destruct (emit_ends (room hp []) v t n O str_value) as [F0 T]. destruct (T F0 (le_n _) [] (le_n _)) as (d & tb & E & _). exists F0, (DScope name TObject [d], tb). intros F L. rewrite (emit_more _ _ _ F _ _ _ _ _ L E). reflexivity.
Qed.
End Finish.

(** ** Bytes *)
Theorem cycle_fails w p hp t v name : regular w -> typed_heap w hp (carried (w_fp w) p) -> typed w hp (carried (w_fp w) p) t v -> name_fits p name -> names_fit w p hp v -> cyclic hp v ->
  exists d tab size, (forall F, (size <= F)%nat -> stored_doc F w hp t v name [] = Ok (d, tab)) /\
  (size_fits p d -> exists bs k nd, stores_as w hp p name t v bs /\ loads_as (w_fp w) p bs k nd /\ forall F old r, unwrap_prog F w t old nd rs_new <> ERet r).
Proof.
  intros RG [HP HL] TY N (NC & NV & NH) CY.
  assert (HW : (forall a e y, nth_error hp a = Some (e, y) -> exists m, storable w hp (fun _ => 0%nat) (carried (w_fp w) p) m e y) /\ zlen hp < two64) by (split; [intros a e y E; exists 1%nat; exact (HP a e y E)|exact HL]).
  destruct (stored_ends w hp _ _ (proj1 HW) (fun t v H => cpp_leaf _ t v (proj1 H)) 1 t v name TY) as (F0 & [d tab] & TOT). exists d, tab, F0. split; [exact TOT|]. intros SZ.
  assert (SC : is_sc d = true).
  { specialize (TOT F0 (le_n _)). unfold stored_doc in TOT. destruct (null_root t v); [discriminate|]. destruct (scoped t) eqn:SC.
    - destruct (proj2 (emit_head w hp _ (carried (w_fp w) p) (fun t v sv H => leaf_solid p t v sv (proj1 H)) _ _ _ _ _ _ _ TOT) 1%nat TY) as [K _]. now rewrite SC in K.
    - apply bind_ok in TOT. destruct TOT as ([d1 tx] & _ & E). injection E as <- <-. reflexivity. }
  destruct (fit_delivered w p hp t v name d tab F0 TOT SC (stored_fit w p hp _ HW NC NH F0 1 t v name d tab (TOT F0 (le_n _)) TY N NV) SZ) as (bs & dn & size & SA & LK & DE & LD & _).
  exists bs, (doc_name dn), (doc_node dn). split; [exact SA|]. split; [exact LD|]. intros F old [c s] H.
  assert (SD : is_sc dn = true) by (rewrite (like_sc _ _ _ _ LK); exact SC). destruct dn as [|k ty its]; [discriminate SD|].
  rewrite doc_node_eq, (eager_says F w _ old k) in H. destruct (says F w false t old (DScope k ty its) rs_new) as [[c1 s1]| | |] eqn:S; try discriminate H.
  refine (grounded_acyclic hp v _ CY).
  exact (says_grounded w hp _ (carried (w_fp w) p) (brought (w_fp w) p) RG HW (fun t v H => cpp_leaf _ t v (proj1 H)) (fun t v sv H => leaf_solid p t v sv (proj1 H)) (leaf_null w p) (leaf_key w p) (fun s v' H => leaf_text w p s v' (proj1 H)) F0 1 t v false name d tab _ old F c1 s1 (TOT F0 (le_n _)) TY LK S).
Qed.

(** ** Without a way back there is a rank *)
Section Rank.
Variable hp : heap_t.
Fixpoint gnd (n : nat) (v : cv) {struct n} : bool :=
  (fix g (v : cv) : bool :=
    match v with
    | VNum _ | VStr _ | VNone => true
    | VList vs | VPoly _ vs => forallb g vs
    | VMap l => forallb (fun q => g (fst q) && g (snd q)) l
    | VTab l => forallb (fun q => g (snd q)) l
    | VSome x => g x
    | VRef a => match nth_error hp a with Some (_, x) => match n with O => false | S n' => gnd n' x end | None => true end
    end) v.
Lemma gnd_list n vs : gnd n (VList vs) = forallb (gnd n) vs. Proof. destruct n; reflexivity. Qed.
Lemma gnd_poly n c vs : gnd n (VPoly c vs) = forallb (gnd n) vs. Proof. destruct n; reflexivity. Qed.
Lemma gnd_map n l : gnd n (VMap l) = forallb (fun q => gnd n (fst q) && gnd n (snd q)) l. Proof. destruct n; reflexivity. Qed.
Lemma gnd_tab n l : gnd n (VTab l) = forallb (fun q => gnd n (snd q)) l. Proof. destruct n; reflexivity. Qed.
Lemma gnd_some n x : gnd n (VSome x) = gnd n x. Proof. destruct n; reflexivity. Qed.
Lemma gnd_mono : forall n v, gnd n v = true -> gnd (S n) v = true.
Proof.
  induction n as [|n IHn].
  all: apply (cv_ind2 (fun v => gnd _ v = true -> gnd _ v = true)); auto.
  1,6: intros vs IH H; rewrite gnd_list in *; rewrite forallb_forall in *; intros x I; rewrite Forall_forall in IH; auto.
  1,5: intros l I1 I2 H; rewrite gnd_map in *; rewrite forallb_forall in *; intros q I; rewrite Forall_forall in I1, I2; specialize (H q I); apply andb_prop in H; destruct H as [H1 H2]; apply andb_true_intro; split; [apply I1; [now apply in_map|exact H1]|apply I2; [now apply in_map|exact H2]].
  1,4: intros l I2 H; rewrite gnd_tab in *; rewrite forallb_forall in *; intros q I; rewrite Forall_forall in I2; apply I2; [now apply in_map|auto].
  - intros a H. cbn in *. destruct (nth_error hp a) as [[e x]|]; [discriminate H|reflexivity].
  - intros c vs IH H; rewrite gnd_poly in *; rewrite forallb_forall in *; intros x I; rewrite Forall_forall in IH; auto.
  - intros a H. change (match nth_error hp a with Some (_, x) => gnd n x | None => true end = true) in H. change (match nth_error hp a with Some (_, x) => gnd (S n) x | None => true end = true). destruct (nth_error hp a) as [[e x]|]; auto.
  - intros c vs IH H; rewrite gnd_poly in *; rewrite forallb_forall in *; intros x I; rewrite Forall_forall in IH; auto.
Qed.
Lemma gnd_le n m v : (n <= m)%nat -> gnd n v = true -> gnd m v = true.
Proof. induction 1; auto using gnd_mono. Qed.

Definition free_heap : Prop := forall a, (a < length hp)%nat -> ~ cyclic hp (VRef a).
Lemma deep_enough_gnd : free_heap -> forall k anc, NoDup anc -> (forall a, In a anc -> (a < length hp)%nat) -> (length anc + k = length hp)%nat ->
  forall v, (forall a, In a anc -> exists p, p <> [] /\ part hp (VRef a) p = Some v) -> gnd k v = true.
Proof.
  intros FH. induction k as [|k IHk]; intros anc ND RA LA.
  all: apply (cv_ind2 (fun v => (forall a, In a anc -> exists p, p <> [] /\ part hp (VRef a) p = Some v) -> gnd _ v = true)); auto.
  1,7: intros vs IH H; rewrite gnd_list, forallb_forall; intros x I; rewrite Forall_forall in IH; apply IH; [exact I|]; intros a IA; destruct (H a IA) as (p & NE & P); apply In_nth_error in I; destruct I as [i I];
    exists (p ++ [Item i]); split; [now destruct p|]; rewrite part_app, P; cbn; now rewrite I.
  1,6: intros l I1 I2 H; rewrite gnd_map, forallb_forall; intros q I; rewrite Forall_forall in I1, I2; pose proof I as J; apply In_nth_error in J; destruct J as [i J]; apply andb_true_intro; split;
    [apply I1; [now apply in_map|]; intros a IA; destruct (H a IA) as (p & NE & P); exists (p ++ [Key i])|apply I2; [now apply in_map|]; intros a IA; destruct (H a IA) as (p & NE & P); exists (p ++ [Val i])];
    (split; [now destruct p|]; rewrite part_app, P; cbn; now rewrite J).
  1,5: intros l I2 H; rewrite gnd_tab, forallb_forall; intros q I; rewrite Forall_forall in I2; pose proof I as J; apply In_nth_error in J; destruct J as [i J];
    apply I2; [now apply in_map|]; intros a IA; destruct (H a IA) as (p & NE & P); exists (p ++ [Val i]); (split; [now destruct p|]; rewrite part_app, P; cbn; now rewrite J).
  1,4: intros x IH H; rewrite gnd_some; apply IH; intros a IA; destruct (H a IA) as (p & NE & P); exists (p ++ [Target]); (split; [now destruct p|]; rewrite part_app, P; reflexivity).
  - intros b H. cbn. destruct (nth_error hp b) as [[e x]|] eqn:EB; [exfalso|reflexivity].
    assert (LB : (b < length hp)%nat) by (apply nth_error_Some; congruence).
    assert (IB : In b anc). { refine (NoDup_length_incl (l' := seq 0 (length hp)) ND _ _ b _). - rewrite seq_length. lia. - intros a IA. apply in_seq. specialize (RA a IA). lia. - apply in_seq. lia. }
    destruct (H b IB) as (p & NE & P). apply (FH b LB). exists [], p, b. auto.
  - intros c vs IH H; rewrite gnd_poly, forallb_forall; intros x I; rewrite Forall_forall in IH; apply IH; [exact I|]; intros a IA; destruct (H a IA) as (p & NE & P); apply In_nth_error in I; destruct I as [i I];
    exists (p ++ [Item i]); split; [now destruct p|]; rewrite part_app, P; cbn; now rewrite I.
  - intros b H. change (match nth_error hp b with Some (_, x) => gnd k x | None => true end = true). destruct (nth_error hp b) as [[e x]|] eqn:EB; [|reflexivity].
    assert (LB : (b < length hp)%nat) by (apply nth_error_Some; congruence).
    assert (NB : ~ In b anc). { intros IB. destruct (H b IB) as (p & NE & P). apply (FH b LB). exists [], p, b. auto. }
    apply (IHk (b :: anc)).
    + now constructor.
    + intros a [<- |IA]; [exact LB|auto].
    + cbn [length]. lia.
    + intros a [<- |IA].
      * exists [Target]. split; [discriminate|]. cbn. now rewrite EB.
      * destruct (H a IA) as (p & NE & P). exists (p ++ [Target]). split; [now destruct p|]. rewrite part_app, P. cbn. now rewrite EB.
  - intros c vs IH H; rewrite gnd_poly, forallb_forall; intros x I; rewrite Forall_forall in IH; apply IH; [exact I|]; intros a IA; destruct (H a IA) as (p & NE & P); apply In_nth_error in I; destruct I as [i I];
    exists (p ++ [Item i]); split; [now destruct p|]; rewrite part_app, P; cbn; now rewrite I.
Qed.
Lemma all_gnd : free_heap -> forall v, gnd (length hp) v = true.
Proof. intros FH v. apply (deep_enough_gnd FH (length hp) []); [constructor|intros a []|reflexivity|intros a []]. Qed.

(** the rank: the first depth that is enough *)
Definition content (a : nat) : cv := match nth_error hp a with Some (_, x) => x | None => VNone end.
Fixpoint first_gnd (fuel n : nat) (v : cv) : nat := match fuel with O => n | S f => if gnd n v then n else first_gnd f (S n) v end.
Lemma first_spec : forall fuel n v m, (n <= m < n + fuel)%nat -> gnd m v = true -> gnd (first_gnd fuel n v) v = true /\ (first_gnd fuel n v <= m)%nat.
Proof.
  induction fuel as [|fuel IH]; intros n v m L G; [lia|]. cbn [first_gnd]. destruct (gnd n v) eqn:E; [split; [exact E|lia]|].
  assert (n <> m) by (intros ->; congruence). apply IH; [lia|exact G].
Qed.
Definition rank (a : nat) : nat := first_gnd (S (length hp)) 0 (content a).
Lemma rank_gnd a : free_heap -> gnd (rank a) (content a) = true.
Proof. intros FH. apply (first_spec _ _ _ (length hp)); [lia|now apply all_gnd]. Qed.
Lemma rank_least a n : (n <= length hp)%nat -> gnd n (content a) = true -> (rank a <= n)%nat.
Proof. intros L G. apply (first_spec _ _ _ n); [lia|exact G]. Qed.

Lemma ranked w leaf (lev : nat -> nat) n : free_heap -> (n <= S (length hp))%nat -> forall v t m, storable w hp lev leaf m t v -> gnd n v = true -> storable w hp rank leaf n t v.
Proof.
  intros FH LN. apply (cv_ind2 (fun v => forall t m, storable w hp lev leaf m t v -> gnd n v = true -> storable w hp rank leaf n t v)).
  - intros z t m O G. inversion O; subst. now apply st_leaf.
  - intros z t m O G. inversion O; subst. now apply st_leaf.
  - intros vs IH t m O G. rewrite gnd_list, forallb_forall in G. rewrite Forall_forall in IH.
    assert (F2 : forall fs us, incl us vs -> Forall2 (fun f v => storable w hp lev leaf m (f_type f) v) fs us -> Forall2 (fun f v => storable w hp rank leaf n (f_type f) v) fs us).
    { intros fs us I F. induction F as [|f u fs us H F IF]; constructor; [|apply IF; intros y J; apply I; now right]. eapply IH; [apply I; now left|exact H|apply G, I; now left]. }
    assert (F1 : forall e, Forall (storable w hp lev leaf m e) vs -> Forall (storable w hp rank leaf n e) vs).
    { intros e F. rewrite Forall_forall in *. intros x I. eauto. }
    inversion O; subst; try (now apply st_leaf).
    + apply st_cls. apply F2; [apply incl_refl|assumption].
    + apply st_tup. apply F2; [apply incl_refl|assumption].
    + apply st_seq. auto.
    + apply st_set; auto.
    + apply st_arr; auto.
    + apply st_pair; (eapply IH; [|eassumption|apply G]); cbn; auto.
  - intros l I1 I2 t m O G. rewrite gnd_map, forallb_forall in G. rewrite Forall_forall in I1, I2. inversion O; subst; try (now apply st_leaf). apply st_map; try assumption.
    + rewrite Forall_forall in *. intros x I. eapply I1; eauto. apply in_map_iff in I. destruct I as (q & <- & I). specialize (G q I). now apply andb_prop in G.
    + rewrite Forall_forall in *. intros x I. eapply I2; eauto. apply in_map_iff in I. destruct I as (q & <- & I). specialize (G q I). now apply andb_prop in G.
  - intros l I2 t m O G. rewrite gnd_tab, forallb_forall in G. rewrite Forall_forall in I2. inversion O; subst; try (now apply st_leaf). apply st_tab; try assumption.
    rewrite Forall_forall in *. intros x I. eapply I2; eauto. apply in_map_iff in I. destruct I as (q & <- & I). exact (G q I).
  - intros t m O G. inversion O; subst; [now apply st_leaf|now apply st_null].
  - intros x IH t m O G. rewrite gnd_some in G. inversion O; subst; [now apply st_leaf|apply st_ptr; eauto|apply st_uniq; eauto].
  - intros a t m O G. inversion O as [? ? T SC L| | | | | | | | | | | |e y ? E L|e y ? E L|]; subst; [now apply st_leaf| |].
    + assert (RL : (rank a < n)%nat). { destruct n as [|k]; cbn in G; rewrite E in G; [discriminate|]. apply Nat.lt_succ_r. apply rank_least; [lia|]. unfold content. now rewrite E. }
      eapply st_shared; eauto.
    + assert (RL : (rank a < n)%nat). { destruct n as [|k]; cbn in G; rewrite E in G; [discriminate|]. apply Nat.lt_succ_r. apply rank_least; [lia|]. unfold content. now rewrite E. }
      eapply st_weak; eauto.
  - intros c vs IH t m O G. rewrite gnd_poly, forallb_forall in G. rewrite Forall_forall in IH. inversion O; subst; [now apply st_leaf|]. apply st_poly; try assumption.
    assert (F2 : forall fs us, incl us vs -> Forall2 (fun f v => storable w hp lev leaf m (f_type f) v) fs us -> Forall2 (fun f v => storable w hp rank leaf n (f_type f) v) fs us).
    { intros fs us I F. induction F as [|f u0 fs us H' F IF]; constructor; [|apply IF; intros y J; apply I; now right]. eapply IH; [apply I; now left|exact H'|apply G, I; now left]. }
    apply F2; [apply incl_refl|assumption].
Qed.
End Rank.
Theorem acyclic_ranked w hp leaf t v : typed_heap w hp leaf -> typed w hp leaf t v -> (forall a, (a < length hp)%nat -> ~ cyclic hp (VRef a)) ->
  exists lev n, S_ObjStore.heap_ok w hp lev leaf /\ storable w hp lev leaf n t v.
Proof.
  intros [HP HL] TY FH. exists (rank hp), (S (length hp)). split; [split; [|exact HL]|].
  - intros a e x E. assert (C : content hp a = x) by (unfold content; now rewrite E). refine (ranked hp w leaf (fun _ => 0%nat) (rank hp a) FH _ x e 1 (HP a e x E) _).
    + apply le_S. apply rank_least; [lia|now apply all_gnd].
    + rewrite <- C. now apply rank_gnd.
  - refine (ranked hp w leaf (fun _ => 0%nat) (S (length hp)) FH (le_n _) v t 1 TY _). apply gnd_mono. now apply all_gnd.
Qed.
