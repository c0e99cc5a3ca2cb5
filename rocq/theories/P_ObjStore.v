(** What is stored of an object says the object again. *)
From Coq Require Import ZArith List Bool Lia ZifyBool ZifyNat Permutation.
From Verif Require Import Base Lemmas M_Types M_Conv M_TpTools M_Charset S_Doc M_Tree S_Tree M_Object S_Object S_ObjStore P_ObjEager P_ObjLazy.
Import ListNotations.
Open Scope Z_scope.

(** ** Correspondence of documents: values as [V] tells, names inside objects only *)
Inductive like (V : value -> value -> Prop) : bool -> doc -> doc -> Prop :=
| like_val (nm : bool) k k' v v' : (nm = true -> k' = k) -> V v v' -> like V nm (DVal k v) (DVal k' v')
| like_scope (nm : bool) k k' t its its' : (nm = true -> k' = k) -> Forall2 (like V (ty_eqb t TObject)) its its' -> like V nm (DScope k t its) (DScope k' t its').
Lemma like_sc V nm d d' : like V nm d d' -> is_sc d' = is_sc d. Proof. now destruct 1. Qed.
Lemma like_name V d d' : like V true d d' -> doc_name d' = doc_name d. Proof. intros H. inversion H; subst; cbn; auto. Qed.

(** ** Induction on objects *)
Fixpoint cv_ind2 (P : cv -> Prop) (Hn : forall n, P (VNum n)) (Hs : forall s, P (VStr s)) (Hl : forall vs, Forall P vs -> P (VList vs))
  (Hm : forall l, Forall P (map fst l) -> Forall P (map snd l) -> P (VMap l)) (Ht : forall l, Forall P (map snd l) -> P (VTab l)) (H0 : P VNone)
  (Hx : forall x, P x -> P (VSome x)) (Hr : forall a, P (VRef a)) (Hp : forall c vs, Forall P vs -> P (VPoly c vs)) (v : cv) {struct v} : P v :=
  let rec := cv_ind2 P Hn Hs Hl Hm Ht H0 Hx Hr Hp in
  let fix all (vs : list cv) : Forall P vs := match vs with [] => Forall_nil P | x :: r => Forall_cons x (rec x) (all r) end in
  let fix allf (l : list (cv * cv)) : Forall P (map fst l) := match l with [] => Forall_nil P | (x, y) :: r => Forall_cons x (rec x) (allf r) end in
  let fix alls (l : list (cv * cv)) : Forall P (map snd l) := match l with [] => Forall_nil P | (x, y) :: r => Forall_cons y (rec y) (alls r) end in
  let fix allt (l : list (bytes * cv)) : Forall P (map snd l) := match l with [] => Forall_nil P | (x, y) :: r => Forall_cons y (rec y) (allt r) end in
  match v with
  | VNum n => Hn n | VStr s => Hs s | VList vs => Hl vs (all vs) | VMap l => Hm l (allf l) (alls l) | VTab l => Ht l (allt l)
  | VNone => H0 | VSome x => Hx x (rec x) | VRef a => Hr a | VPoly c vs => Hp c vs (all vs)
  end.

Lemma so_forall (r q : nat -> nat -> Prop) vs : Forall (fun v => forall c, same_object r v c -> same_object q v c) vs -> forall cs, Forall2 (same_object r) vs cs -> Forall2 (same_object q) vs cs.
Proof. induction 1; intros cs H1; inversion H1; subst; constructor; auto. Qed.
Lemma so_mono (r q : nat -> nat -> Prop) : (forall a b, r a b -> q a b) -> forall v c, same_object r v c -> same_object q v c.
Proof.
  intros M. apply (cv_ind2 (fun v => forall c, same_object r v c -> same_object q v c)); intros;
    match goal with H : same_object r _ _ |- _ => inversion H; subst; constructor; eauto using so_forall end.
Qed.
Lemma plain_forall r vs : Forall (fun v => forall c, plain v = true -> same_object r v c -> c = v) vs -> forallb plain vs = true -> forall cs, Forall2 (same_object r) vs cs -> cs = vs.
Proof.
  induction 1; cbn; intros P cs H1; inversion H1; subst; [reflexivity|]. apply andb_prop in P. destruct P as [P1 P2]. f_equal; auto.
Qed.
Lemma split_combine_map {A B} (l m : list (A * B)) : map fst l = map fst m -> map snd l = map snd m -> l = m.
Proof.
  revert m; induction l as [|[a b] l IH]; destruct m as [|[c d] m]; cbn; intros H1 H2; try discriminate; [reflexivity|].
  injection H1 as H1 H1'. injection H2 as H2 H2'. subst. f_equal. auto.
Qed.
Lemma plain_same r : forall v c, plain v = true -> same_object r v c -> c = v.
Proof.
  apply (cv_ind2 (fun v => forall c, plain v = true -> same_object r v c -> c = v)); cbn [plain]; intros;
    match goal with H : same_object r _ _ |- _ => inversion H; subst; try reflexivity; try discriminate end.
  - f_equal. eauto using plain_forall.
  - f_equal. assert (P : forallb plain (map fst l) = true /\ forallb plain (map snd l) = true).
    { clear - H1. induction l as [|[a b] l IH]; cbn in *; [easy|]. apply andb_prop in H1. destruct H1 as [H1 H2]. apply andb_prop in H1. destruct H1 as [-> ->]. cbn. auto. }
    destruct P as [P1 P2]. apply split_combine_map; eauto using plain_forall.
  - f_equal. assert (P : forallb plain (map snd l) = true).
    { clear - H0. induction l as [|[a b] l IH]; cbn in *; [easy|]. apply andb_prop in H0. destruct H0 as [-> H2]. cbn. auto. }
    apply split_combine_map; [easy|]. eauto using plain_forall.
  - f_equal. auto.
  - f_equal. eauto using plain_forall.
Qed.

(** ** Sorted containers and tables are rebuilt *)
Lemma emplace_end {A} lt (key : A -> cv) a l : Forall (fun b => lt (key b) (key a) = true /\ lt (key a) (key b) = false) l -> emplace lt key a l = l ++ [a].
Proof. induction 1 as [|b l [H1 H2] _ IH]; cbn; [reflexivity|]. now rewrite H2, H1, IH. Qed.
Lemma nth_Forall {A} (P : A -> Prop) l : (forall i x, nth_error l i = Some x -> P x) -> Forall P l.
Proof. induction l; intros H; constructor; [apply (H O); reflexivity|apply IHl; intros i x E; apply (H (S i)); exact E]. Qed.
Lemma emplace_all {A} lt (key : A -> cv) : forall l acc, sorted_by lt (map key (acc ++ l)) -> fold_left (fun acc a => emplace lt key a acc) l acc = acc ++ l.
Proof.
  induction l as [|a l IH]; cbn; intros acc H; [now rewrite app_nil_r|]. rewrite emplace_end.
  - rewrite IH; rewrite <- app_assoc; [reflexivity|exact H].
  - apply nth_Forall. intros i x E. apply (H i (length acc) (key x) (key a)).
    + apply nth_error_Some. congruence.
    + rewrite map_app, nth_error_app1; [now rewrite nth_error_map, E|]. rewrite map_length. apply nth_error_Some. congruence.
    + rewrite map_app, nth_error_app2 by (rewrite map_length; lia). rewrite map_length, Nat.sub_diag. reflexivity.
Qed.
Lemma tab_all : forall (l acc : list (bytes * cv)), NoDup (map fst (acc ++ l)) -> fold_left (fun acc q => tab_insert (fst q) (snd q) acc) l acc = acc ++ l.
Proof.
  induction l as [|[k v] l IH]; cbn [fold_left]; intros acc H; [now rewrite app_nil_r|]. unfold tab_insert at 2. cbn [fst snd].
  replace (existsb (fun q => bytes_eqb (fst q) k) acc) with false.
  - rewrite IH; rewrite <- app_assoc; [reflexivity|exact H].
  - symmetry. destruct (existsb _ acc) eqn:E; [|reflexivity]. apply existsb_exists in E. destruct E as ([k' v'] & I & E). apply bytes_eqb_eq in E. cbn in E. subst k'.
    rewrite map_app in H. cbn in H. apply NoDup_remove_2 in H. exfalso. apply H. apply in_or_app. left. now apply (in_map fst) in I.
Qed.
Lemma kind_all sc its : Forall (fun d => is_sc d = sc) its -> kind_items sc its = its.
Proof. unfold kind_items. induction 1 as [|d l H _ IH]; cbn; [reflexivity|]. unfold of_kind. rewrite H, Bool.eqb_reflx. now f_equal. Qed.

(** ** Tables of shared objects *)
Definition refs (tab : shared_tab) (s : rstate) (a b : nat) : Prop := exists k, tab_key a tab = Some k /\ find_key k (r_tab s) = Some b.
Definition tab_ok (tab : shared_tab) : Prop := forall i a k, nth_error tab i = Some (a, k) -> k = Z.of_nat i.

Lemma tab_key_nth a : forall tab k, tab_key a tab = Some k -> exists i, nth_error tab i = Some (a, k).
Proof.
  induction tab as [|[b j] tab IH]; cbn; intros k H; [discriminate|]. destruct (Nat.eqb a b) eqn:E.
  - apply Nat.eqb_eq in E. subst. injection H as <-. now exists O.
  - destruct (IH _ H) as [i Hi]. now exists (S i).
Qed.
Lemma tab_key_app a tab l : tab_key a (tab ++ l) = match tab_key a tab with Some k => Some k | None => tab_key a l end.
Proof. induction tab as [|[b j] tab IH]; cbn; [reflexivity|]. now destruct (Nat.eqb a b). Qed.
Lemma tab_key_range a tab k : tab_ok tab -> tab_key a tab = Some k -> 0 <= k < zlen tab.
Proof.
  intros T H. apply tab_key_nth in H. destruct H as [i Hi]. rewrite (T _ _ _ Hi). assert (i < length tab)%nat by (apply nth_error_Some; congruence). unfold zlen. lia.
Qed.
Lemma tab_key_inj a b tab k : tab_ok tab -> tab_key a tab = Some k -> tab_key b tab = Some k -> a = b.
Proof.
  intros T H1 H2. apply tab_key_nth in H1, H2. destruct H1 as [i Hi], H2 as [j Hj]. pose proof (T _ _ _ Hi) as E1. pose proof (T _ _ _ Hj) as E2.
  assert (i = j) by lia. congruence.
Qed.
Lemma tab_ok_snoc tab a : tab_ok tab -> tab_ok (tab ++ [(a, zlen tab)]).
Proof.
  intros T i b k H. destruct (Nat.lt_ge_cases i (length tab)) as [L|L].
  - rewrite nth_error_app1 in H by exact L. eauto.
  - rewrite nth_error_app2 in H by exact L. destruct (i - length tab)%nat eqn:E; cbn in H; [injection H as <- <-; unfold zlen; lia|now destruct n].
Qed.

(** what restoring adds *)
Definition ext (tab : shared_tab) (s : rstate) (tab' : shared_tab) (s' : rstate) : Prop :=
  (exists l, tab' = tab ++ l) /\ (exists h, r_heap s' = r_heap s ++ h) /\
  (forall k, k < zlen tab -> find_key k (r_tab s') = find_key k (r_tab s)) /\
  (forall a k, tab_key a tab = None -> tab_key a tab' = Some k -> exists b, find_key k (r_tab s') = Some b).
Lemma ext_refl tab s : ext tab s tab s.
Proof. repeat split; [exists []; now rewrite app_nil_r|exists []; now rewrite app_nil_r|]. intros. congruence. Qed.
Lemma ext_trans t1 s1 t2 s2 t3 s3 : tab_ok t2 -> ext t1 s1 t2 s2 -> ext t2 s2 t3 s3 -> ext t1 s1 t3 s3.
Proof.
  intros T ([l1 ->] & [h1 H1] & A1 & B1) ([l2 ->] & [h2 H2] & A2 & B2). repeat split.
  - exists (l1 ++ l2). now rewrite app_assoc.
  - exists (h1 ++ h2). now rewrite H2, H1, app_assoc.
  - intros k K. rewrite A2, A1; [reflexivity|exact K|]. unfold zlen in *. rewrite app_length. lia.
  - intros a k N S3. rewrite tab_key_app in S3. destruct (tab_key a (t1 ++ l1)) as [k'|] eqn:E.
    + injection S3 as <-. destruct (B1 a k' N E) as [b Hb]. exists b. rewrite A2; [exact Hb|]. apply (tab_key_range _ _ _ T E).
    + apply (B2 a k E). now rewrite tab_key_app, E.
Qed.
Lemma refs_ext t1 s1 t2 s2 a b : tab_ok t1 -> ext t1 s1 t2 s2 -> refs t1 s1 a b -> refs t2 s2 a b.
Proof.
  intros T ([l ->] & _ & A & _) (k & K1 & K2). exists k. split; [now rewrite tab_key_app, K1|]. rewrite A; [exact K2|]. apply (tab_key_range _ _ _ T K1).
Qed.
Lemma so_ext t1 s1 t2 s2 v c : tab_ok t1 -> ext t1 s1 t2 s2 -> same_object (refs t1 s1) v c -> same_object (refs t2 s2) v c.
Proof. intros T E. apply so_mono. intros a b. now apply refs_ext. Qed.
Lemma so_ext_all t1 s1 t2 s2 vs cs : tab_ok t1 -> ext t1 s1 t2 s2 -> Forall2 (same_object (refs t1 s1)) vs cs -> Forall2 (same_object (refs t2 s2)) vs cs.
Proof. intros T E H. induction H; constructor; eauto using so_ext. Qed.

Section Store.
Variables (w : world) (hp : heap_t) (lev : nat -> nat) (leaf : ct -> cv -> Prop) (V : value -> value -> Prop).

(** invariant of storing and restoring: the objects stored so far are restored, except those of rank [n] or more *)
Definition invar (n : nat) (tab : shared_tab) (s : rstate) : Prop :=
  tab_ok tab /\
  (forall a k, tab_key a tab = Some k ->
     ((n <= lev a)%nat /\ find_key k (r_tab s) = None) \/
     (exists b e x c, find_key k (r_tab s) = Some b /\ nth_error hp a = Some (e, x) /\ nth_error (r_heap s) b = Some (e, c) /\ same_object (refs tab s) x c)) /\
  (forall k b, find_key k (r_tab s) = Some b -> 0 <= k < zlen tab /\ (b < length (r_heap s))%nat) /\
  (forall k j b, find_key k (r_tab s) = Some b -> find_key j (r_tab s) = Some b -> k = j) /\
  NoDup (map fst tab) /\ Forall (fun q => (fst q < length hp)%nat) tab.
Lemma invar_new n : invar n [] rs_new.
Proof. repeat split; cbn; intros; try discriminate; try (constructor; fail). intros i a k H; now destruct i. Qed.
Lemma tab_key_none a tab : tab_key a tab = None -> ~ In a (map fst tab).
Proof.
  induction tab as [|[b j] tab IH]; cbn; intros H; [easy|]. destruct (Nat.eqb a b) eqn:E; [discriminate|]. apply Nat.eqb_neq in E. intros [->|I]; [easy|]. now apply IH.
Qed.
Lemma invar_push n tab s a x e : invar n tab s -> nth_error hp a = Some (e, x) -> (lev a < n)%nat -> tab_key a tab = None ->
  invar (lev a) (tab ++ [(a, zlen tab)]) s /\ find_key (zlen tab) (r_tab s) = None.
Proof.
  intros (T & C & K & J & ND & FA) E L N.
  assert (NK : find_key (zlen tab) (r_tab s) = None).
  { destruct (find_key (zlen tab) (r_tab s)) as [b|] eqn:E2; [|reflexivity]. apply K in E2. lia. }
  split; [|exact NK]. split; [now apply tab_ok_snoc|]. split; [|split; [|split; [exact J|split]]].
  - intros a' k H. rewrite tab_key_app in H. destruct (tab_key a' tab) as [k'|] eqn:E'.
    + injection H as <-. destruct (C _ _ E') as [[L' N']|(b & e' & x' & c & H1 & H2 & H3 & H4)]; [left; split; [lia|exact N']|right].
      exists b, e', x', c. repeat split; try easy. revert H4. apply so_mono. intros p q (k1 & K1 & K2). exists k1. now rewrite tab_key_app, K1.
    + cbn in H. destruct (Nat.eqb a' a) eqn:E3; [|discriminate]. apply Nat.eqb_eq in E3. subst a'. injection H as <-. left. split; [lia|exact NK].
  - intros k b H. destruct (K _ _ H) as [K1 K2]. split; [|exact K2]. unfold zlen in *. rewrite app_length. cbn. lia.
  - rewrite map_app. cbn. apply (Permutation_NoDup (l := a :: map fst tab)); [apply Permutation_cons_append|]. constructor; [now apply tab_key_none|exact ND].
  - apply Forall_app. split; [exact FA|]. constructor; [cbn|constructor]. apply nth_error_Some. congruence.
Qed.
Lemma invar_pop n tab s a e x tab2 s2 c : invar n tab s -> nth_error hp a = Some (e, x) -> (lev a < n)%nat -> tab_key a tab = None ->
  invar (lev a) tab2 s2 -> ext (tab ++ [(a, zlen tab)]) s tab2 s2 -> same_object (refs tab2 s2) x c ->
  find_key (zlen tab) (r_tab s2) = None /\
  let s3 := mkRs (r_heap s2 ++ [(e, c)]) ((zlen tab, length (r_heap s2)) :: r_tab s2) in
  invar n tab2 s3 /\ ext tab s tab2 s3 /\ refs tab2 s3 a (length (r_heap s2)).
Proof.
  intros I E L N I2 X SO. destruct (invar_push _ _ _ _ _ _ I E L N) as [I1 NK].
  destruct I as (T & C & K & J & ND & FA). destruct I2 as (T2 & C2 & K2 & J2 & ND2 & FA2). destruct I1 as (T1 & C1 & K1 & J1 & _ & _).
  pose proof X as ([l El] & [h Eh] & XA & XB).
  assert (Z1 : zlen (tab ++ [(a, zlen tab)]) = zlen tab + 1) by (unfold zlen; rewrite app_length; cbn; lia).
  assert (NK2 : find_key (zlen tab) (r_tab s2) = None) by (rewrite XA by lia; exact NK).
  split; [exact NK2|]. cbn zeta. set (b0 := length (r_heap s2)). set (s3 := mkRs _ _).
  assert (KA : tab_key a tab2 = Some (zlen tab)). { rewrite El, !tab_key_app, N. cbn. now rewrite Nat.eqb_refl. }
  assert (F3 : forall k, find_key k (r_tab s3) = if zlen tab =? k then Some b0 else find_key k (r_tab s2)) by reflexivity.
  assert (M : forall p q, refs tab2 s2 p q -> refs tab2 s3 p q).
  { intros p q (k & A1 & A2). exists k. split; [exact A1|]. rewrite F3. destruct (zlen tab =? k) eqn:Ek; [|exact A2]. apply Z.eqb_eq in Ek. subst k. congruence. }
  assert (HX : forall b y, nth_error (r_heap s2) b = Some y -> nth_error (r_heap s3) b = Some y).
  { intros b y H. cbn. rewrite nth_error_app1; [exact H|]. apply nth_error_Some. congruence. }
  assert (R0 : refs tab2 s3 a b0). { exists (zlen tab). split; [exact KA|]. rewrite F3, Z.eqb_refl. reflexivity. }
  assert (X3 : ext tab s tab2 s3).
  { split; [exists ((a, zlen tab) :: l); rewrite El, <- app_assoc; reflexivity|]. split; [exists (h ++ [(e, c)]); cbn; rewrite Eh, <- app_assoc; reflexivity|]. split.
    - intros k Hk. rewrite F3. replace (zlen tab =? k) with false by lia. apply XA. lia.
    - intros p k P1 P2. rewrite F3. destruct (zlen tab =? k) eqn:Ek; [now eexists|]. destruct (Nat.eq_dec p a) as [->|NE]; [rewrite KA in P2; injection P2 as P2; lia|].
      apply (XB p k); [|exact P2]. rewrite tab_key_app, P1. cbn. now replace (Nat.eqb p a) with false by (symmetry; now apply Nat.eqb_neq). }
  split; [|split; [exact X3|exact R0]].
  split; [exact T2|]. split; [|split; [|split; [|split; [exact ND2|exact FA2]]]].
  - intros p k H. destruct (zlen tab =? k) eqn:Ek.
    { apply Z.eqb_eq in Ek. subst k. assert (p = a) by (apply (tab_key_inj _ _ _ _ T2 H KA)). subst p. right. exists b0, e, x, c. repeat split; try easy.
      - rewrite F3, Z.eqb_refl. reflexivity.
      - cbn. unfold b0. now rewrite nth_error_app2, Nat.sub_diag by lia.
      - revert SO. now apply so_mono. }
    destruct (tab_key p (tab ++ [(a, zlen tab)])) as [k'|] eqn:E1.
    + assert (k' = k) by (rewrite El, tab_key_app, E1 in H; congruence). subst k'.
      assert (E0 : tab_key p tab = Some k). { rewrite tab_key_app in E1. destruct (tab_key p tab); [exact E1|]. cbn in E1. destruct (Nat.eqb p a); [injection E1 as E1; lia|discriminate]. }
      destruct (C _ _ E0) as [[L1 L2]|(b & e' & x' & c' & H1 & H2 & H3 & H4)].
      * left. split; [exact L1|]. rewrite F3, Ek, XA; [exact L2|]. apply tab_key_range in E0; [lia|exact T].
      * right. exists b, e', x', c'. assert (k < zlen tab) by (apply tab_key_range in E0; [lia|exact T]). repeat split.
        -- rewrite F3, Ek, XA; [exact H1|lia].
        -- exact H2.
        -- apply HX. rewrite Eh, nth_error_app1; [exact H3|]. apply nth_error_Some. congruence.
        -- revert H4. apply so_mono. intros q r R. apply (refs_ext _ _ _ _ _ _ T X3 R).
    + destruct (XB p k E1 H) as [b Hb]. destruct (C2 _ _ H) as [[_ L2]|(b' & e' & x' & c' & H1 & H2 & H3 & H4)]; [congruence|]. right. exists b', e', x', c'. repeat split; try easy.
      -- now rewrite F3, Ek.
      -- now apply HX.
      -- revert H4. now apply so_mono.
  - intros k b H. rewrite F3 in H. cbn [r_heap s3]. rewrite app_length. cbn. destruct (zlen tab =? k) eqn:Ek.
    + injection H as <-. apply tab_key_range in KA; [|exact T2]. unfold b0. split; lia.
    + destruct (K2 _ _ H). split; [easy|lia].
  - intros k j b H1 H2. rewrite F3 in H1, H2. destruct (zlen tab =? k) eqn:Ek, (zlen tab =? j) eqn:Ej; try lia; eauto.
    + injection H1 as <-. apply K2 in H2. unfold b0 in H2. lia.
    + injection H2 as <-. apply K2 in H1. unfold b0 in H1. lia.
Qed.

(** ** The values of the leaves *)
Definition leaf_value (t : ct) (v : cv) : option value :=
  match t, v with
  | CNum t, VNum n => Some (num_value t n)
  | CStr e, VStr s | CChar e, VStr s => Some (val_string s e)
  | CChars e n, VStr s => match wrap_array e n s with Ok d => Some (val_string d e) | _ => None end
  | CBits, VStr s => Some (val_block s TBinary)
  | _, _ => None
  end.
Hypothesis REG : regular w.
Hypothesis NEW : forall t, shape w t (w_new w t).
Hypothesis HEAP : heap_ok w hp lev leaf.
Hypothesis LEAF : forall t v sv v' old, shape w t old -> leaf t v -> leaf_value t v = Some sv -> V sv v' -> paste_value w t old v' = Ok v.
Hypothesis SOLID : forall t v sv, leaf t v -> leaf_value t v = Some sv -> v_type sv <> TNull.
Hypothesis NULL : forall sv v', V sv v' -> (v_type v' = TNull <-> v_type sv = TNull).
Hypothesis KEY : forall k v' old, 0 <= k < two64 -> V (val_int TUI64 k) v' -> paste_value w (CNum TUI64) old v' = Ok (VNum k).
Hypothesis TEXT : forall s v', leaf (CStr EUTF8) (VStr s) -> V (val_string s EUTF8) v' -> v_type v' = TString /\ v_data v' = s /\ v_enc v' = EUTF8.

Notation ok := (storable w hp lev leaf).

Lemma bind_ok {A B} (r : res A) (f : A -> res B) b : rbind r f = Ok b -> exists a, r = Ok a /\ f a = Ok b.
Proof. destruct r; cbn; intros H; try discriminate. eauto. Qed.

Ltac inv_bind H := let p := fresh "p" in let E := fresh "E" in apply bind_ok in H; destruct H as (p & E & H).

Lemma emit_head : forall F t v name tab d tab', emit F w hp t v name tab = Ok (d, tab') ->
  doc_name d = name /\ (forall n, ok n t v -> is_sc d = scoped t /\ (v <> VNone -> doc_type d <> TNull)).
Proof.
  induction F as [|f IH]; cbn [emit]; intros t v name tab d tab' H; [discriminate|].
  destruct t as [ty|e|e|e m| |c|e|e|k e|e|m e|a b|c|e|e|e|e|], v as [z|s|vs|l|l| |x|a0|c0 vs]; try discriminate H.
  all: try (match type of H with context [Nat.eqb _ _] => destruct (Nat.eqb _ _); [|discriminate H] end).
  all: try (injection H as <- <-; split; [reflexivity|]; intros n O; inversion O; subst; split; [symmetry; assumption|]; intros _;
            match goal with L : leaf ?t ?v |- _ => exact (SOLID t v _ L eq_refl) end).
  all: try (inv_bind H; destruct p; injection H as <- <-; split; [reflexivity|]; intros n O; split; [reflexivity|intros _ X; discriminate X]).
  - inv_bind H. injection H as <- <-. split; [reflexivity|]. intros n O. inversion O; subst. split; [symmetry; assumption|]. intros _. discriminate.
  - destruct vs as [|x [|y [|]]]; try discriminate. inv_bind H. destruct p as [d1 t1]. inv_bind H. destruct p as [d2 t2]. injection H as <- <-. split; [reflexivity|].
    intros n O. split; [reflexivity|intros _ X; discriminate X].
  - injection H as <- <-. split; [reflexivity|]. intros n O. inversion O; subst; [contradiction|]. split; [symmetry; assumption|easy].
  - destruct (IH _ _ _ _ _ _ H) as [-> Q]. split; [reflexivity|]. intros n O. inversion O; subst; [contradiction|]. destruct (Q n) as [Q1 Q2]; [assumption|]. split; [exact Q1|auto].
  - injection H as <- <-. split; [reflexivity|]. intros n O. inversion O; subst. contradiction.
  - destruct (IH _ _ _ _ _ _ H) as [-> Q]. split; [reflexivity|]. intros n O. inversion O; subst; [contradiction|]. destruct (Q n) as [Q1 Q2]; [assumption|]. split; [exact Q1|auto].
  - injection H as <- <-. split; [reflexivity|]. intros n O. inversion O; subst. contradiction.
  - destruct (nth_error hp a0) as [[u x]|]; [|discriminate]. destruct (insert_shared a0 tab) as [[ex key] tab1]. destruct ex; [|inv_bind H; destruct p]; injection H as <- <-;
      (split; [reflexivity|]; intros n O; split; [reflexivity|intros _ X; discriminate X]).
  - injection H as <- <-. split; [reflexivity|]. intros n O. inversion O; subst. contradiction.
  - destruct (nth_error hp a0) as [[u x]|]; [|discriminate]. destruct (insert_shared a0 tab) as [[ex key] tab1]. destruct ex; [|inv_bind H; destruct p]; injection H as <- <-;
      (split; [reflexivity|]; intros n O; split; [reflexivity|intros _ X; discriminate X]).
Qed.
Lemma emit_name F t v name tab d tab' : emit F w hp t v name tab = Ok (d, tab') -> doc_name d = name.
Proof. intros H. apply (emit_head _ _ _ _ _ _ _ H). Qed.
Lemma emit_kind F t v name tab d tab' n nm d' : emit F w hp t v name tab = Ok (d, tab') -> ok n t v -> like V nm d d' -> is_sc d' = scoped t.
Proof. intros H O L. rewrite (like_sc _ _ _ _ L). now apply (emit_head _ _ _ _ _ _ _ H) in O. Qed.

(** what is to be shown of the objects inside *)
Definition kept (f : nat) : Prop := forall n t v nm name tab d tab' d' old s,
  emit f w hp t v name tab = Ok (d, tab') -> ok n t v -> shape w t old -> like V nm d d' -> invar n tab s ->
  exists c s', dchild w true (said f w true) t old d' s = Ok (c, s') /\ same_object (refs tab' s') v c /\ invar n tab' s' /\ ext tab s tab' s'.

Section Level.
Variable f : nat.
Hypothesis IH : kept f.
Notation dn := (said f w true).
Notation emit_field := (fun fv : field * cv => emit f w hp (f_type (fst fv)) (snd fv) (f_name (fst fv))).

Lemma invar_ok n tab s : invar n tab s -> tab_ok tab. Proof. now intros [H _]. Qed.

Lemma pick_named sc k pre d post : Forall (fun x => doc_name x <> k) pre -> is_sc d = sc -> doc_name d = k -> nth_match (of_name sc k) 0 (pre ++ d :: post) = Some (length pre, d).
Proof.
  intros P K N. induction P as [|x pre H _ IH']; cbn [app nth_match length].
  - unfold of_name. now rewrite K, Bool.eqb_reflx, N, bytes_eqb_refl.
  - unfold of_name at 1. apply bytes_eqb_neq in H. rewrite H, andb_false_r. now rewrite IH'.
Qed.
Lemma pick_pos sc d post : is_sc d = sc -> forall pre, nth_match (of_kind sc) (count sc pre) (pre ++ d :: post) = Some (length pre, d).
Proof.
  intros K. induction pre as [|x pre IH']; cbn [app nth_match length].
  - unfold of_kind. now rewrite K, Bool.eqb_reflx.
  - unfold count, kind_items in *. cbn [filter]. destruct (of_kind sc x); cbn [length]; now rewrite IH'.
Qed.
Lemma field_name t k old pre d post s c s' : Forall (fun x => doc_name x <> k) pre -> is_sc d = scoped t -> doc_name d = k ->
  dchild w true dn t old d s = Ok (c, s') -> dfield w true dn t (IdName k) old (pre ++ d :: post) s = Ok (c, s', S (length pre)).
Proof. intros P K N H. unfold dfield, select. rewrite (pick_named _ _ _ _ _ P K N), H. reflexivity. Qed.
Lemma field_pos t old pre d post s c s' : is_sc d = scoped t ->
  dchild w true dn t old d s = Ok (c, s') -> dfield w true dn t (IdPos (Z.of_nat (count (scoped t) pre))) old (pre ++ d :: post) s = Ok (c, s', S (length pre)).
Proof. intros K H. unfold dfield, select. replace (Z.of_nat _ <? 0) with false by lia. rewrite Nat2Z.id, (pick_pos _ _ _ K), H. reflexivity. Qed.

Lemma names_of : forall fs vs tab its tab' its', length vs = length fs -> emits emit_field (combine fs vs) tab = Ok (its, tab') -> Forall2 (like V true) its its' -> map doc_name its' = map f_name fs.
Proof.
  induction fs as [|x fs IHf]; destruct vs as [|v vs]; cbn [combine emits length]; intros tab its tab' its' L H R; try discriminate.
  - injection H as <- <-. inversion R. reflexivity.
  - inv_bind H. destruct p as [d t1]. inv_bind H. destruct p as [ds t2]. injection H as <- <-. inversion R; subst. cbn [map]. f_equal; [|eapply IHf; eauto].
    rewrite (like_name _ _ _ H1). cbn in E. now apply emit_name in E.
Qed.

Lemma named_fields n : forall fs vs tab its tab' its' olds pre s, Forall (fun g => 0 < zlen (f_name g)) fs -> NoDup (map f_name fs) ->
  Forall (fun x => ~ In (doc_name x) (map f_name fs)) pre ->
  emits emit_field (combine fs vs) tab = Ok (its, tab') -> Forall2 (fun g v => ok n (f_type g) v) fs vs -> Forall2 (fun g v => shape w (f_type g) v) fs olds ->
  Forall2 (like V true) its its' -> invar n tab s ->
  forall vi ni, exists cs s' u, dfields w true dn fs olds (pre ++ its') s vi ni = Ok (cs, s', u) /\ (length (pre ++ its') <= Nat.max (length pre) u)%nat /\
    Forall2 (same_object (refs tab' s')) vs cs /\ invar n tab' s' /\ ext tab s tab' s'.
Proof.
  induction fs as [|x fs IHf]; intros vs tab its tab' its' olds pre s FN ND PR H FV FO R I vi ni.
  - inversion FV; subst. inversion FO; subst. cbn in H. injection H as <- <-. inversion R; subst. cbn [dfields]. exists [], s, O. rewrite app_nil_r.
    split; [reflexivity|]. split; [lia|]. split; [constructor|]. split; [exact I|apply ext_refl].
  - inversion FV as [|? v ? vs' V1 V2]; subst. inversion FO as [|? o ? olds' O1 O2]; subst. cbn [combine emits] in H. inv_bind H. destruct p as [d t1]. inv_bind H. destruct p as [ds t2].
    injection H as <- <-. inversion R as [|? d' ? ds' R1 R2]; subst. cbn [fst snd] in E. inversion FN as [|? ? FN1 FN2]; subst. inversion ND as [|? ? ND1 ND2]; subst.
    pose proof (like_name _ _ _ R1) as N1. rewrite (emit_name _ _ _ _ _ _ _ E) in N1. pose proof (emit_kind _ _ _ _ _ _ _ _ _ _ E V1 R1) as K1.
    destruct (IH _ _ _ _ _ _ _ _ _ o s E V1 O1 R1 I) as (c & s1 & C1 & C2 & C3 & C4).
    assert (LV : length vs' = length fs) by (clear - V2; induction V2; cbn; auto).
    pose proof (names_of _ _ _ _ _ _ LV E0 R2) as NS.
    assert (P1 : Forall (fun y => doc_name y <> f_name x) pre). { eapply Forall_impl; [|exact PR]. cbn. intros y Hy Q. apply Hy. now left. }
    assert (P2 : Forall (fun y => ~ In (doc_name y) (map f_name fs)) (pre ++ [d'])).
    { apply Forall_app. split; [eapply Forall_impl; [|exact PR]; cbn; tauto|]. constructor; [|constructor]. now rewrite N1. }
    destruct (IHf vs' t1 ds t2 ds' olds' (pre ++ [d']) s1 FN2 ND2 P2 E0 V2 O2 R2 C3 (if scoped (f_type x) then vi else vi + 1) (if scoped (f_type x) then ni + 1 else ni))
      as (cs & s2 & u & D1 & D2 & D3 & D4 & D5).
    rewrite <- app_assoc in D1, D2. cbn [app] in D1, D2. rewrite app_length in D2. cbn [length] in D2.
    exists (c :: cs), s2, (Nat.max (S (length pre)) u). split; [|split; [|split; [|split; [exact D4|exact (ext_trans _ _ _ _ _ _ (invar_ok _ _ _ C3) C4 D5)]]]].
    + cbn [dfields]. replace (existsb (of_name (negb (scoped (f_type x))) (f_name x)) (pre ++ d' :: ds')) with false.
      2:{ symmetry. destruct (existsb _ _) eqn:Ex; [|reflexivity]. apply existsb_exists in Ex. destruct Ex as (y & Iy & Ny). unfold of_name in Ny. apply andb_prop in Ny. destruct Ny as [Ny1 Ny2].
          apply bytes_eqb_eq in Ny2. apply Bool.eqb_prop in Ny1. apply in_app_or in Iy. destruct Iy as [Iy|[<-|Iy]].
          - rewrite Forall_forall in P1. now apply P1 in Iy.
          - rewrite K1 in Ny1. now destruct (scoped (f_type x)).
          - exfalso. apply ND1. rewrite <- NS, <- Ny2. now apply in_map. }
      replace (existsb (of_name (scoped (f_type x)) (f_name x)) (pre ++ d' :: ds')) with true.
      2:{ symmetry. apply existsb_exists. exists d'. split; [apply in_or_app; right; now left|]. unfold of_name. now rewrite K1, Bool.eqb_reflx, N1, bytes_eqb_refl. }
      cbn [negb]. rewrite !andb_false_r. replace (0 <? zlen (f_name x)) with true by lia.
      rewrite (field_name _ _ _ _ _ _ _ _ _ P1 K1 N1 C1). cbn [rbind]. now rewrite D1.
    + rewrite app_length. cbn [length] in *. rewrite app_length in D2. cbn [length] in D2. lia.
    + constructor; [|exact D3]. exact (so_ext _ _ _ _ _ _ (invar_ok _ _ _ C3) D5 C2).
Qed.

Lemma pos_fields n : forall fs vs tab its tab' its' nm olds pre s, Forall (fun g => f_name g = [] /\ f_opt g = false) fs ->
  emits emit_field (combine fs vs) tab = Ok (its, tab') -> Forall2 (fun g v => ok n (f_type g) v) fs vs -> Forall2 (fun g v => shape w (f_type g) v) fs olds ->
  Forall2 (like V nm) its its' -> invar n tab s ->
  exists cs s' u, dfields w true dn fs olds (pre ++ its') s (Z.of_nat (count false pre)) (Z.of_nat (count true pre)) = Ok (cs, s', u) /\ (length (pre ++ its') <= Nat.max (length pre) u)%nat /\
    Forall2 (same_object (refs tab' s')) vs cs /\ invar n tab' s' /\ ext tab s tab' s'.
Proof.
  induction fs as [|x fs IHf]; intros vs tab its tab' its' nm olds pre s FN H FV FO R I.
  - inversion FV; subst. inversion FO; subst. cbn in H. injection H as <- <-. inversion R; subst. cbn [dfields]. exists [], s, O. rewrite app_nil_r.
    split; [reflexivity|]. split; [lia|]. split; [constructor|]. split; [exact I|apply ext_refl].
  - inversion FV as [|? v ? vs' V1 V2]; subst. inversion FO as [|? o ? olds' O1 O2]; subst. cbn [combine emits] in H. inv_bind H. destruct p as [d t1]. inv_bind H. destruct p as [ds t2].
    injection H as <- <-. inversion R as [|? d' ? ds' R1 R2]; subst. cbn [fst snd] in E. inversion FN as [|? ? [FN1 FN1'] FN2]; subst.
    pose proof (emit_kind _ _ _ _ _ _ _ _ _ _ E V1 R1) as K1.
    destruct (IH _ _ _ _ _ _ _ _ _ o s E V1 O1 R1 I) as (c & s1 & C1 & C2 & C3 & C4).
    destruct (IHf vs' t1 ds t2 ds' nm olds' (pre ++ [d']) s1 FN2 E0 V2 O2 R2 C3) as (cs & s2 & u & D1 & D2 & D3 & D4 & D5).
    rewrite <- app_assoc in D1, D2. cbn [app] in D1, D2. rewrite app_length in D2. cbn [length] in D2.
    exists (c :: cs), s2, (Nat.max (S (length pre)) u). split; [|split; [|split; [|split; [exact D4|exact (ext_trans _ _ _ _ _ _ (invar_ok _ _ _ C3) C4 D5)]]]].
    + cbn [dfields]. rewrite FN1, FN1'. cbn [andb zlen length Z.of_nat Z.ltb Z.compare].
      assert (FP := field_pos (f_type x) o pre d' ds' s c s1 K1 C1).
      replace (if scoped (f_type x) then Z.of_nat (count true pre) else Z.of_nat (count false pre)) with (Z.of_nat (count (scoped (f_type x)) pre)) by (now destruct (scoped (f_type x))).
      rewrite FP. cbn [rbind]. rewrite !count_snoc in D1.
      assert (KT : of_kind true d' = scoped (f_type x)) by (unfold of_kind; rewrite K1; now destruct (scoped (f_type x))).
      assert (KF : of_kind false d' = negb (scoped (f_type x))) by (unfold of_kind; rewrite K1; now destruct (scoped (f_type x))).
      rewrite KT, KF in D1.
      replace (if scoped (f_type x) then Z.of_nat (count false pre) else Z.of_nat (count false pre) + 1)
        with (Z.of_nat (count false pre + (if negb (scoped (f_type x)) then 1 else 0))%nat) by (destruct (scoped (f_type x)); cbn [negb]; lia).
      replace (if scoped (f_type x) then Z.of_nat (count true pre) + 1 else Z.of_nat (count true pre))
        with (Z.of_nat (count true pre + (if scoped (f_type x) then 1 else 0))%nat) by (destruct (scoped (f_type x)); lia).
      now rewrite D1.
    + rewrite app_length. cbn [length] in *. rewrite app_length in D2. cbn [length] in D2. lia.
    + constructor; [|exact D3]. exact (so_ext _ _ _ _ _ _ (invar_ok _ _ _ C3) D5 C2).
Qed.

(** elements *)
Lemma elements n e nm : forall vs tab its tab' its' olds s, length olds = length vs -> Forall (shape w e) olds ->
  emits (fun x => emit f w hp e x []) vs tab = Ok (its, tab') -> Forall (ok n e) vs -> Forall2 (like V nm) its its' -> invar n tab s ->
  length its' = length vs /\ Forall (fun d => is_sc d = scoped e) its' /\
  exists cs s', darray w true dn e olds its' s = Ok (cs, s') /\ Forall2 (same_object (refs tab' s')) vs cs /\ invar n tab' s' /\ ext tab s tab' s'.
Proof.
  induction vs as [|v vs IHv]; intros tab its tab' its' olds s L FO H FV R I.
  - destruct olds; [|discriminate]. cbn in H. injection H as <- <-. inversion R; subst. split; [reflexivity|]. split; [constructor|]. exists [], s. cbn. repeat (split; [first [exact I|reflexivity|solve [constructor]]|]). apply ext_refl.
  - destruct olds as [|o olds]; [discriminate|]. cbn [emits] in H. inv_bind H. destruct p as [d t1]. inv_bind H. destruct p as [ds t2]. injection H as <- <-.
    inversion R as [|? d' ? ds' R1 R2]; subst. inversion FV as [|? ? V1 V2]; subst. inversion FO as [|? ? O1 O2]; subst.
    pose proof (emit_kind _ _ _ _ _ _ _ _ _ _ E V1 R1) as K1.
    destruct (IH _ _ _ _ _ _ _ _ _ o s E V1 O1 R1 I) as (c & s1 & C1 & C2 & C3 & C4).
    destruct (IHv t1 ds t2 ds' olds s1) as (L1 & KK & cs & s2 & D1 & D2 & D3 & D4); auto.
    split; [cbn; lia|]. split; [now constructor|]. exists (c :: cs), s2. cbn [darray]. rewrite C1. cbn [rbind]. rewrite D1. split; [reflexivity|]. split; [|split; [exact D3|exact (ext_trans _ _ _ _ _ _ (invar_ok _ _ _ C3) C4 D4)]].
    constructor; [|exact D2]. exact (so_ext _ _ _ _ _ _ (invar_ok _ _ _ C3) D4 C2).
Qed.
Lemma each_array {B} (add : cv -> B -> B) e : forall its s cs s' acc, darray w true dn e (repeat (w_new w e) (length its)) its s = Ok (cs, s') ->
  deach (delem w true dn add e) its acc s = Ok (fold_left (fun a v => add v a) cs acc, s').
Proof.
  induction its as [|d its IHi]; cbn [repeat length darray deach]; intros s cs s' acc H.
  - injection H as <- <-. reflexivity.
  - inv_bind H. destruct p as [v s1]. inv_bind H. destruct p as [vs s2]. injection H as <- <-. unfold delem at 1. rewrite E. cbn [rbind]. now rewrite (IHi _ _ _ _ E0).
Qed.
Lemma shape_repeat e n : Forall (shape w e) (repeat (w_new w e) n).
Proof. induction n; cbn; constructor; auto. Qed.

(** two items of different names *)
Lemma two_items n ta tb ka kb x y tab1 tab2 tab3 d1 d2 its' oa ob s : ka <> kb ->
  emit f w hp ta x ka tab1 = Ok (d1, tab2) -> emit f w hp tb y kb tab2 = Ok (d2, tab3) -> ok n ta x -> ok n tb y -> shape w ta oa -> shape w tb ob ->
  Forall2 (like V true) [d1; d2] its' -> invar n tab1 s ->
  exists cx cy s1 s2, dfield w true dn ta (IdName ka) oa its' s = Ok (cx, s1, 1%nat) /\ dfield w true dn tb (IdName kb) ob its' s1 = Ok (cy, s2, 2%nat) /\ length its' = 2%nat /\
    same_object (refs tab3 s2) x cx /\ same_object (refs tab3 s2) y cy /\ invar n tab3 s2 /\ ext tab1 s tab3 s2.
Proof.
  intros NE E1 E2 O1 O2 S1 S2 R I. inversion R as [|? d1' ? l R1 R']; subst. inversion R' as [|? d2' ? l' R2 R'']; subst. inversion R''; subst.
  destruct (IH _ _ _ _ _ _ _ _ _ oa s E1 O1 S1 R1 I) as (cx & s1 & C1 & C2 & C3 & C4).
  destruct (IH _ _ _ _ _ _ _ _ _ ob s1 E2 O2 S2 R2 C3) as (cy & s2 & D1 & D2 & D3 & D4).
  pose proof (like_name _ _ _ R1) as N1. rewrite (emit_name _ _ _ _ _ _ _ E1) in N1. pose proof (like_name _ _ _ R2) as N2. rewrite (emit_name _ _ _ _ _ _ _ E2) in N2.
  exists cx, cy, s1, s2. split; [apply (field_name ta ka oa [] d1' [d2'] s cx s1); auto; exact (emit_kind _ _ _ _ _ _ _ _ _ _ E1 O1 R1)|].
  split; [apply (field_name tb kb ob [d1'] d2' [] s1 cy s2); auto; [constructor; [congruence|constructor]|exact (emit_kind _ _ _ _ _ _ _ _ _ _ E2 O2 R2)]|].
  split; [reflexivity|]. split; [exact (so_ext _ _ _ _ _ _ (invar_ok _ _ _ C3) D4 C2)|]. split; [exact D2|]. split; [exact D3|]. exact (ext_trans _ _ _ _ _ _ (invar_ok _ _ _ C3) C4 D4).
Qed.

(** entries of maps *)
Lemma entries n k e nm : forall l tab its tab' its' s,
  emits (fun p tab => let* (d1, tab1) := emit f w hp k (fst p) str_key tab in let* (d2, tab2) := emit f w hp e (snd p) str_value tab1 in Ok (DScope [] TObject [d1; d2], tab2)) l tab = Ok (its, tab') ->
  Forall (ok n k) (map fst l) -> Forall (ok n e) (map snd l) -> Forall2 (like V nm) its its' -> invar n tab s ->
  Forall (fun d => is_sc d = true) its' /\
  exists cs s', (forall acc, deach (dentry w true dn k e) its' acc s = Ok (fold_left (fun a q => emplace (w_lt w) fst q a) cs acc, s')) /\
    Forall2 (same_object (refs tab' s')) (map fst l) (map fst cs) /\ Forall2 (same_object (refs tab' s')) (map snd l) (map snd cs) /\ invar n tab' s' /\ ext tab s tab' s'.
Proof.
  induction l as [|[x y] l IHl]; intros tab its tab' its' s H F1 F2 R I.
  - cbn in H. injection H as <- <-. inversion R; subst. split; [constructor|]. exists [], s. cbn. repeat (split; [first [exact I|reflexivity|solve [constructor]]|]). apply ext_refl.
  - cbn [emits] in H. inv_bind H. destruct p as [d t1]. inv_bind H. destruct p as [ds t2]. injection H as <- <-. inv_bind E. destruct p as [d1 ta]. inv_bind E. destruct p as [d2 tb]. injection E as <- <-.
    cbn [fst snd map] in *. inversion F1 as [|? ? X1 X2]; subst. inversion F2 as [|? ? Y1 Y2]; subst. inversion R as [|? d' ? ds' R1 R2]; subst. inversion R1 as [|? ? k' ? ? its2 _ R3]; subst. cbn [ty_eqb] in R3.
    destruct (two_items n k e str_key str_value x y _ _ _ _ _ its2 (w_new w k) (w_new w e) s ltac:(discriminate) E1 E2 X1 Y1 (NEW k) (NEW e) R3 I) as (cx & cy & s1 & s2 & A1 & A2 & A3 & A4 & A5 & A6 & A7).
    destruct (IHl tb ds t2 ds' s2 E0 X2 Y2 R2 A6) as (KK & cs & s3 & D1 & D2 & D3 & D4 & D5).
    split; [now constructor|]. exists ((cx, cy) :: cs), s3. split.
    + intros acc. cbn [deach fold_left]. unfold dentry at 1. cbn [items]. rewrite A1. cbn [rbind]. rewrite A2. cbn [rbind]. unfold quiet. cbn [negb orb Nat.max]. rewrite <- A3, skipn_all. cbn [forallb rbind]. apply D1.
    + cbn [map fst snd]. split; [|split; [|split; [exact D4|exact (ext_trans _ _ _ _ _ _ (invar_ok _ _ _ A6) A7 D5)]]].
      * constructor; [exact (so_ext _ _ _ _ _ _ (invar_ok _ _ _ A6) D5 A4)|exact D2].
      * constructor; [exact (so_ext _ _ _ _ _ _ (invar_ok _ _ _ A6) D5 A5)|exact D3].
Qed.
(** entries of tables *)
Lemma table n e : forall l tab its tab' its' s,
  emits (fun p => emit f w hp e (snd p) (fst p)) l tab = Ok (its, tab') -> Forall (ok n e) (map snd l) -> Forall2 (like V true) its its' -> invar n tab s ->
  Forall (fun d => is_sc d = scoped e) its' /\
  exists cs s', (forall acc, deach (dtab w true dn e) its' acc s = Ok (fold_left (fun a q => tab_insert (fst q) (snd q) a) cs acc, s')) /\
    map fst l = map fst cs /\ Forall2 (same_object (refs tab' s')) (map snd l) (map snd cs) /\ invar n tab' s' /\ ext tab s tab' s'.
Proof.
  induction l as [|[k y] l IHl]; intros tab its tab' its' s H F2 R I.
  - cbn in H. injection H as <- <-. inversion R; subst. split; [constructor|]. exists [], s. cbn. repeat (split; [first [exact I|reflexivity|solve [constructor]]|]). apply ext_refl.
  - cbn [emits] in H. inv_bind H. destruct p as [d t1]. inv_bind H. destruct p as [ds t2]. injection H as <- <-. cbn [fst snd map] in *.
    inversion F2 as [|? ? Y1 Y2]; subst. inversion R as [|? d' ? ds' R1 R2]; subst.
    pose proof (like_name _ _ _ R1) as N1. rewrite (emit_name _ _ _ _ _ _ _ E) in N1. pose proof (emit_kind _ _ _ _ _ _ _ _ _ _ E Y1 R1) as K1.
    destruct (IH _ _ _ _ _ _ _ _ _ (w_new w e) s E Y1 (NEW e) R1 I) as (c & s1 & C1 & C2 & C3 & C4).
    destruct (IHl t1 ds t2 ds' s1 E0 Y2 R2 C3) as (KK & cs & s2 & D1 & D2 & D3 & D4 & D5).
    split; [now constructor|]. exists ((k, c) :: cs), s2. split.
    + intros acc. cbn [deach fold_left fst snd]. unfold dtab at 1. rewrite C1. cbn [rbind]. rewrite N1. apply D1.
    + cbn [map fst snd]. split; [now f_equal|]. split; [|split; [exact D4|exact (ext_trans _ _ _ _ _ _ (invar_ok _ _ _ C3) C4 D5)]].
      constructor; [exact (so_ext _ _ _ _ _ _ (invar_ok _ _ _ C3) D5 C2)|exact D3].
Qed.

Lemma quiet_all its u : (length its <= u)%nat -> quiet true its u = true.
Proof. intros L. unfold quiet. rewrite skipn_all2 by exact L. reflexivity. Qed.
Lemma child_scope t old k ty its s c s' u : dstep w true dn t old k ty its s = Ok (c, s', u) -> (length its <= u)%nat ->
  dchild w true (said (S f) w true) t old (DScope k ty its) s = Ok (c, s').
Proof. intros H L. unfold dchild. cbn [said]. rewrite H. cbn [rbind]. now rewrite (quiet_all _ _ L). Qed.
Lemma unname_emits : forall fs vs tab, emits (fun fv : field * cv => emit f w hp (f_type (fst fv)) (snd fv) []) (combine fs vs) tab =
  emits emit_field (combine (map (fun g => mkField [] false (f_type g)) fs) vs) tab.
Proof.
  induction fs as [|x fs IHf]; destruct vs as [|v vs]; intros tab; cbn [map combine emits]; try reflexivity. cbn [fst snd f_type f_name].
  destruct (emit f w hp (f_type x) v [] tab) as [[d t1]| | |]; cbn [rbind]; try reflexivity. now rewrite IHf.
Qed.
Lemma len2 {A B} (R : A -> B -> Prop) l m : Forall2 R l m -> length l = length m. Proof. induction 1; cbn; auto. Qed.
Lemma tab_small n tab s : invar n tab s -> zlen tab <= zlen hp.
Proof.
  intros (_ & _ & _ & _ & ND & FA). assert (length (map fst tab) <= length (seq 0 (length hp)))%nat.
  { apply NoDup_incl_length; [exact ND|]. intros a Ia. apply in_seq. apply in_map_iff in Ia. destruct Ia as ([b k] & <- & Ib). rewrite Forall_forall in FA. apply FA in Ib. cbn in *. lia. }
  rewrite map_length, seq_length in H. unfold zlen. lia.
Qed.
Lemma ct_eqb_refl t : ct_eqb t t = true.
Proof.
  induction t; cbn; rewrite ?Nat.eqb_refl, ?Z.eqb_refl; auto; try (now destruct t); try (now destruct e); try (now rewrite IHt1, IHt2).
Qed.

Lemma fold_snoc {A} (l : list A) : forall acc, fold_left (fun a v => a ++ [v]) l acc = acc ++ l.
Proof. induction l as [|x l IHl]; intros acc; cbn [fold_left]; [now rewrite app_nil_r|]. rewrite IHl, <- app_assoc. reflexivity. Qed.
Lemma shared t n e x a nm name tab d tab' d' old s : t = CShared e \/ t = CWeak e -> nth_error hp a = Some (e, x) -> (lev a < n)%nat ->
  emit (S f) w hp t (VRef a) name tab = Ok (d, tab') -> like V nm d d' -> invar n tab s ->
  exists c s', dchild w true (said (S f) w true) t old d' s = Ok (c, s') /\ same_object (refs tab' s') (VRef a) c /\ invar n tab' s' /\ ext tab s tab' s'.
Proof.
  intros T EA LA H L I.
  assert (H' : (let '(ex, key, tab1) := insert_shared a tab in
                if ex then Ok (DScope name TObject [DVal str_shared_key (val_int TUI64 key)], tab1)
                else let* (d, tab2) := emit f w hp e x str_shared_value tab1 in Ok (DScope name TObject [DVal str_shared_key (val_int TUI64 key); d], tab2)) = Ok (d, tab'))
    by (destruct T as [-> | ->]; cbn [emit] in H; rewrite EA in H; exact H).
  clear H. unfold insert_shared in H'. pose proof (tab_small _ _ _ I) as TS. pose proof (proj2 HEAP) as HS. destruct (tab_key a tab) as [key|] eqn:EK.
  - injection H' as <- <-. inversion L as [|? ? k' ? ? its' _ R]; subst. cbn [ty_eqb] in R. inversion R as [|? d0 ? its0 R0 R1]; subst. inversion R1; subst.
    inversion R0 as [? ? k0 ? v0 NK VV|]; subst. rewrite (NK eq_refl) in *. clear NK.
    pose proof (tab_key_range _ _ _ (invar_ok _ _ _ I) EK) as KR. assert (KV := KEY key v0 (VNum 0) ltac:(lia) VV).
    destruct (proj1 (proj2 I) _ _ EK) as [[C1 _]|(b & e' & x' & c & C1 & C2 & C3 & C4)]; [lia|]. rewrite EA in C2. injection C2 as <- <-.
    exists (VRef b), s. split; [|split; [|split; [exact I|apply ext_refl]]].
    + eapply child_scope.
      * assert (FN := field_name (CNum TUI64) str_shared_key (VNum 0) [] (DVal str_shared_key v0) [] s (VNum key) s (Forall_nil _) eq_refl eq_refl). unfold dchild in FN. rewrite KV in FN. specialize (FN eq_refl). cbn [app] in FN.
        destruct T as [-> | ->]; unfold dstep; rewrite FN; cbn [rbind]; rewrite C1, C3, ct_eqb_refl; reflexivity.
      * cbn. lia.
    + constructor. exists key. now split.
  - inv_bind H'. destruct p as [d1 tab2]. injection H' as <- <-. inversion L as [|? ? k' ? ? its' _ R]; subst. cbn [ty_eqb] in R. inversion R as [|? d0 ? its0 R0 R1]; subst.
    inversion R1 as [|? d1' ? its1 R2 R3]; subst. inversion R3; subst. inversion R0 as [? ? k0 ? v0 NK VV|]; subst. rewrite (NK eq_refl) in *. clear NK.
    destruct (invar_push _ _ _ _ _ _ I EA LA EK) as [I1 NF].
    pose proof (tab_small _ _ _ I1) as TS1. assert (KV := KEY (zlen tab) v0 (VNum 0) ltac:(unfold zlen in *; rewrite app_length in TS1; cbn [length] in TS1; lia) VV).
    pose proof (proj1 HEAP _ _ _ EA) as OX.
    destruct (IH _ _ _ _ _ _ _ _ _ (w_new w e) s E OX (NEW e) R2 I1) as (c & s2 & C1 & C2 & C3 & C4).
    destruct (invar_pop _ _ _ _ _ _ _ _ _ I EA LA EK C3 C4 C2) as (NF2 & I3 & X3 & RF). cbn zeta in I3, X3, RF.
    exists (VRef (length (r_heap s2))), (mkRs (r_heap s2 ++ [(e, c)]) ((zlen tab, length (r_heap s2)) :: r_tab s2)). split; [|split; [now constructor|now split]].
    pose proof (like_name _ _ _ R2) as N2. rewrite (emit_name _ _ _ _ _ _ _ E) in N2. pose proof (emit_kind _ _ _ _ _ _ _ _ _ _ E OX R2) as K2.
    eapply child_scope.
    + assert (FN := field_name (CNum TUI64) str_shared_key (VNum 0) [] (DVal str_shared_key v0) [d1'] s (VNum (zlen tab)) s (Forall_nil _) eq_refl eq_refl). unfold dchild in FN. rewrite KV in FN. specialize (FN eq_refl). cbn [app] in FN.
      assert (FV := field_name e str_shared_value (w_new w e) [DVal str_shared_key v0] d1' [] s c s2 ltac:(constructor; [discriminate|constructor]) K2 N2 C1). cbn [app] in FV.
      destruct T as [-> | ->]; unfold dstep; rewrite FN; cbn [rbind]; rewrite NF, FV; cbn [rbind]; rewrite NF2; reflexivity.
    + cbn. lia.
Qed.

Lemma level : kept (S f).
Proof.
  intros n t v nm name tab d tab' d' old s H O SH L I. inversion O as
    [t0 v0 LT SC LF|c vs FV|c vs FV|e vs FV|e vs FV PL SO|e vs FV|k e l FK FE PL SO|e l FE ND|a b x y Oa Ob|e x Ox NN|e x Ox NN|e SC|e x a EA LA|e x a EA LA|pu c vs FV RG LI]; subst; cbn [emit] in H.
  - (* leaves *)
    assert (Q : exists sv, leaf_value t v = Some sv /\ d = DVal name sv /\ tab' = tab).
    { destruct t; try contradiction; destruct v; try discriminate H; [| | |inv_bind H; cbn [leaf_value]; rewrite E|]; injection H as <- <-; now eexists. }
    destruct Q as (sv & Q & -> & ->). inversion L as [? ? k' ? v' NK VV|]; subst. exists v, s. unfold dchild. rewrite (LEAF _ _ _ _ old SH LF Q VV). split; [reflexivity|]. split; [|split; [exact I|apply ext_refl]].
    destruct t; try contradiction; destruct v; try discriminate Q; constructor.
  - (* class *)
    destruct (Nat.eqb _ _); [|discriminate]. inv_bind H. destruct p as [its t1]. injection H as <- <-. inversion L as [|? ? k' ? ? its' _ R]; subst. cbn [ty_eqb] in R.
    inversion SH as [? ? X|? olds FO| | | |]; subst; [contradiction|].
    destruct (proj1 REG c) as [[N1 N2]|N].
    + destruct (named_fields n _ _ _ _ _ _ _ [] s N1 N2 (Forall_nil _) E FV FO R I 0 0) as (cs & s' & u & D1 & D2 & D3 & D4 & D5).
      exists (VList cs), s'. split; [|split; [now constructor|now split]]. eapply child_scope; [unfold dstep; cbn [is_scope negb app] in *; rewrite D1; reflexivity|]. cbn [app length] in D2. lia.
    + destruct (pos_fields n _ _ _ _ _ _ _ _ [] s N E FV FO R I) as (cs & s' & u & D1 & D2 & D3 & D4 & D5).
      exists (VList cs), s'. split; [|split; [now constructor|now split]]. eapply child_scope; [unfold dstep; cbn [is_scope negb app count kind_items filter length Z.of_nat] in *; rewrite D1; reflexivity|]. cbn [app length] in D2. lia.
  - (* tuple *)
    destruct (Nat.eqb _ _); [|discriminate]. inv_bind H. destruct p as [its t1]. injection H as <- <-. inversion L as [|? ? k' ? ? its' _ R]; subst.
    inversion SH as [? ? X| |? olds FO| | |]; subst; [contradiction|]. rewrite unname_emits in E.
    assert (FV' : Forall2 (fun g v => ok n (f_type g) v) (map (fun g => mkField [] false (f_type g)) (w_cls w c)) vs) by (clear - FV; induction FV; cbn; constructor; auto).
    assert (FO' : Forall2 (fun g v => shape w (f_type g) v) (map (fun g => mkField [] false (f_type g)) (w_cls w c)) olds) by (clear - FO; induction FO; cbn; constructor; auto).
    assert (UN : Forall (fun g => f_name g = [] /\ f_opt g = false) (map (fun g => mkField [] false (f_type g)) (w_cls w c))) by (clear; induction (w_cls w c); cbn; constructor; auto).
    destruct (pos_fields n _ _ _ _ _ _ _ _ [] s UN E FV' FO' R I) as (cs & s' & u & D1 & D2 & D3 & D4 & D5).
    exists (VList cs), s'. split; [|split; [now constructor|now split]]. eapply child_scope; [unfold dstep; cbn [is_scope negb app count kind_items filter length Z.of_nat] in *; rewrite D1; reflexivity|]. cbn [app length] in D2. lia.
  - (* sequence *)
    inv_bind H. destruct p as [its t1]. injection H as <- <-. inversion L as [|? ? k' ? ? its' _ R]; subst.
    destruct (elements n e _ vs tab its t1 its' (repeat (w_new w e) (length vs)) s (repeat_length _ _) (shape_repeat _ _) E FV R I) as (L1 & KK & cs & s' & D1 & D2 & D3 & D4).
    rewrite <- L1 in D1. exists (VList cs), s'. split; [|split; [now constructor|now split]].
    eapply child_scope; [unfold dstep; cbn [is_scope negb]; rewrite (kind_all _ _ KK), (each_array _ _ _ _ _ _ _ D1); cbn [rbind]|reflexivity].
    now rewrite fold_snoc.
  - (* set *)
    inv_bind H. destruct p as [its t1]. injection H as <- <-. inversion L as [|? ? k' ? ? its' _ R]; subst.
    destruct (elements n e _ vs tab its t1 its' (repeat (w_new w e) (length vs)) s (repeat_length _ _) (shape_repeat _ _) E FV R I) as (L1 & KK & cs & s' & D1 & D2 & D3 & D4).
    rewrite <- L1 in D1. exists (VList cs), s'. split; [|split; [now constructor|now split]].
    eapply child_scope; [unfold dstep; cbn [is_scope negb]; rewrite (kind_all _ _ KK), (each_array _ _ _ _ _ _ _ D1); cbn [rbind]|reflexivity].
    assert (cs = vs). { eapply plain_forall; [|exact PL|exact D2]. apply Forall_forall. intros x _ y. apply plain_same. }
    subst cs. rewrite (emplace_all (w_lt w) (fun v => v) vs []); [reflexivity|]. cbn [app]. now rewrite map_id.
  - (* array *)
    rewrite Nat.eqb_refl in H. inv_bind H. destruct p as [its t1]. injection H as <- <-. inversion L as [|? ? k' ? ? its' _ R]; subst.
    inversion SH as [? ? X| | |? ? olds LO FO| |]; subst; [contradiction|].
    destruct (elements n e _ vs tab its t1 its' olds s LO FO E FV R I) as (L1 & KK & cs & s' & D1 & D2 & D3 & D4).
    exists (VList cs), s'. split; [|split; [now constructor|now split]].
    eapply child_scope; [unfold dstep; cbn [is_scope negb]; rewrite (kind_all _ _ KK), LO, L1, Nat.eqb_refl; cbn [negb]; rewrite D1; reflexivity|].
    rewrite <- L1. clear - KK. induction KK as [|x l Hx _ IHk]; cbn [upto length]; [lia|]. unfold of_kind at 1. rewrite Hx, Bool.eqb_reflx. lia.
  - (* map *)
    inv_bind H. destruct p as [its t1]. injection H as <- <-. inversion L as [|? ? k' ? ? its' _ R]; subst.
    destruct (entries n k e _ l tab its t1 its' s E FK FE R I) as (KK & cs & s' & D1 & D2 & D3 & D4 & D5).
    exists (VMap cs), s'. split; [|split; [now constructor|now split]].
    eapply child_scope; [unfold dstep; cbn [is_scope negb]; rewrite (kind_all _ _ KK), D1; cbn [rbind]|reflexivity].
    assert (EK : map fst cs = map fst l). { eapply plain_forall; [|exact PL|exact D2]. apply Forall_forall. intros x _ y. apply plain_same. }
    rewrite (emplace_all (w_lt w) fst cs []); [reflexivity|]. cbn [app]. now rewrite EK.
  - (* table *)
    inv_bind H. destruct p as [its t1]. injection H as <- <-. inversion L as [|? ? k' ? ? its' _ R]; subst. cbn [ty_eqb] in R.
    destruct (table n e l tab its t1 its' s E FE R I) as (KK & cs & s' & D1 & D2 & D3 & D4 & D5).
    exists (VTab cs), s'. split; [|split; [now constructor|now split]].
    eapply child_scope; [unfold dstep; cbn [ty_eqb negb]; rewrite (kind_all _ _ KK), D1; cbn [rbind]|reflexivity].
    rewrite (tab_all cs []); [reflexivity|]. cbn [app]. now rewrite <- D2.
  - (* pair *)
    inv_bind H. destruct p as [d1 t1]. inv_bind H. destruct p as [d2 t2]. injection H as <- <-. inversion L as [|? ? k' ? ? its' _ R]; subst. cbn [ty_eqb] in R.
    inversion SH as [? ? X| | | |? ? oa ob Sa Sb|]; subst; [contradiction|].
    destruct (two_items n a b str_first str_second x y _ _ _ _ _ its' oa ob s ltac:(discriminate) E E0 Oa Ob Sa Sb R I) as (cx & cy & s1 & s2 & A1 & A2 & A3 & A4 & A5 & A6 & A7).
    exists (VList [cx; cy]), s2. split; [|split; [constructor; auto|now split]].
    eapply child_scope; [unfold dstep; cbn [ty_eqb negb]; rewrite A1; cbn [rbind]; rewrite A2; reflexivity|]. rewrite A3. cbn. lia.
  - (* pointer *)
    destruct (IH _ _ _ _ _ _ _ _ _ (w_new w e) s H Ox (NEW e) L I) as (c & s' & C1 & C2 & C3 & C4). exists (VSome c), s'. split; [|split; [now constructor|now split]].
    destruct d' as [k' v'|k' ty its'].
    + cbn [dchild] in C1 |- *. inversion L as [? ? ? ? ? NK VV|]; subst. cbn [paste_value]. pose proof (proj2 (emit_head _ _ _ _ _ _ _ H) n Ox) as [_ NT]. specialize (NT NN). cbn [doc_type] in NT.
      replace (ty_eqb (v_type v') TNull) with false. 2:{ destruct (v_type v') eqn:Ev; try reflexivity. exfalso. apply NT. now apply (NULL _ _ VV). }
      inv_bind C1. rewrite E. cbn [rbind]. injection C1 as <- <-. reflexivity.
    + cbn [dchild] in C1 |- *. cbn [said dstep]. inv_bind C1. destruct p as [[c' s''] u]. rewrite E. cbn [rbind]. destruct (quiet true its' u); [|discriminate]. injection C1 as <- <-. reflexivity.
  - (* unique pointer *)
    destruct (IH _ _ _ _ _ _ _ _ _ (w_new w e) s H Ox (NEW e) L I) as (c & s' & C1 & C2 & C3 & C4). exists (VSome c), s'. split; [|split; [now constructor|now split]].
    destruct d' as [k' v'|k' ty its'].
    + cbn [dchild] in C1 |- *. cbn [paste_value]. inv_bind C1. rewrite E. cbn [rbind]. injection C1 as <- <-. reflexivity.
    + cbn [dchild] in C1 |- *. cbn [said dstep]. inv_bind C1. destruct p as [[c' s''] u]. rewrite E. cbn [rbind]. destruct (quiet true its' u); [|discriminate]. injection C1 as <- <-. reflexivity.
  - (* null pointer *)
    injection H as <- <-. inversion L as [? ? k' ? v' NK VV|]; subst. exists VNone, s. split; [|split; [constructor|split; [exact I|apply ext_refl]]]. cbn [dchild paste_value].
    replace (ty_eqb (v_type v') TNull) with true; [reflexivity|]. symmetry. pose proof (proj2 (NULL _ _ VV) eq_refl) as ->. reflexivity.
  - exact (shared _ n e x a nm name tab d tab' d' old s (or_introl eq_refl) EA LA H L I).
  - exact (shared _ n e x a nm name tab d tab' d' old s (or_intror eq_refl) EA LA H L I).
  - (* polymorphic class *)
    destruct (Nat.eqb _ _); [|discriminate]. inv_bind H. destruct p as [its t1]. injection H as <- <-. inversion L as [|? ? k' ? ? its0 _ R]; subst. cbn [ty_eqb] in R.
    inversion R as [|? d0 ? its' R0 R1]; subst. inversion R0 as [? ? k0 ? v0 NK VV|]; subst. rewrite (NK eq_refl) in *. clear NK.
    destruct (TEXT _ _ LI VV) as (T1 & T2 & T3). destruct (proj2 REG _ _ _ RG) as [[N1 N2] N3].
    assert (SN : exists olds, w_new w (CCls c) = VList olds /\ Forall2 (fun g v => shape w (f_type g) v) (w_cls w c) olds).
    { pose proof (NEW (CCls c)) as SN. inversion SN as [? ? X| | | | |]; subst; [contradiction|]. eauto. }
    destruct SN as (olds & EN & FO).
    assert (PR : Forall (fun y => ~ In (doc_name y) (map f_name (w_cls w c))) [DVal str_type_id v0]) by (constructor; [exact N3|constructor]).
    destruct (named_fields n _ _ _ _ _ _ _ [DVal str_type_id v0] s N1 N2 PR E FV FO R1 I 1 0) as (cs & s' & u & D1 & D2 & D3 & D4 & D5).
    exists (VPoly c cs), s'. split; [|split; [now constructor|now split]].
    eapply child_scope.
    + unfold dstep. cbn [is_scope negb app] in *. unfold select. pose proof (pick_named false str_type_id [] (DVal str_type_id v0) its' (Forall_nil _) eq_refl eq_refl) as PN. cbn [app length] in PN. rewrite PN. rewrite T1, T2, T3. cbn [ty_eqb negb andb]. rewrite RG. cbn [rbind]. rewrite EN, D1. reflexivity.
    + cbn [app length] in D2 |- *. lia.
Qed.
End Level.

Theorem all_kept : forall F, kept F.
Proof. induction F; [intros n t v nm name tab d tab' d' old s H; discriminate H|now apply level]. Qed.

(** the root *)
Theorem stored_says F n t v nm name d tab' d' old : stored_doc F w hp t v name [] = Ok (d, tab') -> ok n t v -> shape w t old -> like V nm d d' ->
  exists c s, says F w true t old d' rs_new = Ok (c, s) /\ exists r, same_object r v c /\ same_heap r hp (r_heap s).
Proof.
  intros H O SH L.
  assert (SM : forall tab s, invar n tab s -> (forall a k, tab_key a tab = Some k -> exists b, find_key k (r_tab s) = Some b) -> same_heap (refs tab s) hp (r_heap s)).
  { intros tab s (T & C & K & J & _) AL. split; [|split].
    - intros a b b' (k & A1 & A2) (k' & B1 & B2). congruence.
    - intros a a' b (k & A1 & A2) (k' & B1 & B2). assert (k = k') by eauto. subst k'. eauto using tab_key_inj.
    - intros a b (k & A1 & A2). destruct (C _ _ A1) as [[_ N]|(b' & e & x & c & C1 & C2 & C3 & C4)]; [congruence|]. assert (b' = b) by congruence. subst b'. eauto 10. }
  assert (AL : forall tab s, ext [] rs_new tab s -> forall a k, tab_key a tab = Some k -> exists b, find_key k (r_tab s) = Some b).
  { intros tab s (_ & _ & _ & B) a k A. now apply (B a k). }
  unfold stored_doc in H. unfold says. destruct (null_root t v); [discriminate|]. destruct (scoped t) eqn:SC.
  - pose proof (emit_kind _ _ _ _ _ _ _ _ _ _ H O L) as K. destruct (all_kept F _ _ _ _ _ _ _ _ _ old rs_new H O SH L (invar_new n)) as (c & s & C1 & C2 & C3 & C4).
    exists c, s. split; [|exists (refs tab' s); eauto]. destruct d' as [|k ty its]; [cbn in K; congruence|]. cbn [dchild] in C1. inv_bind C1. destruct p as [[c' s'] u]. rewrite E. cbn [rbind].
    destruct (quiet true its u); [|discriminate]. injection C1 as <- <-. reflexivity.
  - inv_bind H. destruct p as [d1 t1]. injection H as <- <-. inversion L as [|? ? k' ? ? its' _ R]; subst. cbn [ty_eqb] in R. inversion R as [|? d1' ? its0 R1 R2]; subst. inversion R2; subst.
    destruct (all_kept F _ _ _ _ _ _ _ _ _ old rs_new E O SH R1 (invar_new n)) as (c & s & C1 & C2 & C3 & C4).
    exists c, s. split; [|exists (refs t1 s); eauto]. pose proof (emit_kind _ _ _ _ _ _ _ _ _ _ E O R1) as K.
    pose proof (field_pos F t old [] d1' [] rs_new c s K C1) as FP. cbn [items app count kind_items filter length Z.of_nat] in FP |- *. rewrite FP. reflexivity.
Qed.
End Store.
