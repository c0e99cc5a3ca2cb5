(** Unwrapping from a tree from which objects were unwrapped before. *)
From Coq Require Import ZArith List Bool Lia ZifyBool ZifyNat.
From Verif Require Import Base Lemmas M_Types M_Conv M_TpTools M_In S_Doc M_Tree S_Tree M_Object S_Object S_ObjSafe S_Again P_Tree P_Doc P_ObjEager P_ObjLazy P_ObjStore.
Import ListNotations.
Open Scope Z_scope.

(** two outcomes of the same kind *)
Inductive rr {A B} (Q : A -> B -> Prop) : res A -> res B -> Prop :=
| rr_ok a b : Q a b -> rr Q (Ok a) (Ok b)
| rr_err : rr Q Err Err
| rr_ub u : rr Q (UB u) (UB u)
| rr_fuel : rr Q Fuel Fuel.
Lemma rr_bind {A B C D} (Q : A -> B -> Prop) (R : C -> D -> Prop) a b f g : rr Q a b -> (forall x y, Q x y -> rr R (f x) (g y)) -> rr R (rbind a f) (rbind b g).
Proof. intros H G. destruct H; cbn [rbind]; try (constructor; fail). now apply G. Qed.
Lemma rr_same {A} (r : res A) : rr eq r r.
Proof. destruct r; constructor; reflexivity. Qed.

(** keys in a document *)
Inductive dkey_in (w : world) (k : Z) : doc -> Prop :=
| dk_here n t its v : In (DVal str_shared_key v) its -> paste_value w (CNum TUI64) (VNum 0) v = Ok (VNum k) -> dkey_in w k (DScope n t its)
| dk_below n t its d : In d its -> dkey_in w k d -> dkey_in w k (DScope n t its).
Lemma dkey_node w k : forall d, dkey_in w k d -> key_in w k (doc_node d).
Proof.
  induction 1 as [n t its v I E|n t its d I H IH]; rewrite doc_node_eq.
  - eapply ki_here; [|exact E]. now apply in_vals.
  - destruct H; (eapply ki_below; [apply in_subs; exact I|exact IH]).
Qed.
Lemma select_in sc id its j d : select sc id its = Some (j, d) -> In d its /\ is_sc d = sc /\ match id with IdName k => doc_name d = k | IdPos _ => True end.
Proof.
  destruct id as [k|i]; cbn [select].
  - intros E. pose proof (P_ObjEager.nth_match_find (of_name sc k) its) as H. rewrite E in H. symmetry in H. apply find_some in H. destruct H as [I H]. unfold of_name in H. apply andb_prop in H. destruct H as [H1 H2].
    apply eqb_prop in H1. apply bytes_eqb_eq in H2. auto.
  - destruct (i <? 0); [discriminate|]. intros E. destruct (nth_match_i _ _ _ _ _ E) as (H1 & H2 & _). apply eqb_prop in H2. split; [eapply nth_error_In; eauto|auto].
Qed.
Lemma find_key_app k a b : find_key k (a ++ b) = match find_key k a with Some x => Some x | None => find_key k b end.
Proof. induction a as [|[j x] a IH]; cbn [app find_key]; [reflexivity|]. now destruct (j =? k). Qed.
Lemma find_key_map k (f : nat -> nat) l : find_key k (map (fun q => (fst q, f (snd q))) l) = option_map f (find_key k l).
Proof. induction l as [|[j x] l IH]; cbn [map find_key fst snd]; [reflexivity|]. now destruct (j =? k). Qed.

Section Move.
Variables (w : world) (ns : bool) (s0 : rstate) (strict : bool).
Definition mv : cv -> cv := if ns then fun v => v else moved (length (r_heap s0)).
Definition sr (s : rstate) : rstate := if ns then s0 else behind s0 s.
Definition good (s : rstate) : Prop := ns = true -> s = rs_new.
Definition U (t : ct) : Prop := ns = true -> unshared w t.
Definition fresh (d : doc) : Prop := ns = false -> forall k, dkey_in w k d -> find_key k (r_tab s0) = None.
Definition fresh_items (its : list doc) : Prop := fresh (DScope [] TObject its).
Hypothesis Hnew : forall t, mv (w_new w t) = w_new w t.
Hypothesis Hlt : forall a b, w_lt w (mv a) (mv b) = w_lt w a b.

Lemma mv_list l : mv (VList l) = VList (map mv l).
Proof. unfold mv. destruct ns; [now rewrite map_id|reflexivity]. Qed.
Lemma mv_poly c l : mv (VPoly c l) = VPoly c (map mv l).
Proof. unfold mv. destruct ns; [now rewrite map_id|reflexivity]. Qed.
Definition mv2 (q : cv * cv) : cv * cv := (mv (fst q), mv (snd q)).
Definition mvt (q : bytes * cv) : bytes * cv := (fst q, mv (snd q)).
Lemma mv_map l : mv (VMap l) = VMap (map mv2 l).
Proof. unfold mv2, mv. destruct ns; [|reflexivity]. f_equal. rewrite <- (map_id l) at 1. apply map_ext. now intros []. Qed.
Lemma mv_tab l : mv (VTab l) = VTab (map mvt l).
Proof. unfold mvt, mv. destruct ns; [|reflexivity]. f_equal. rewrite <- (map_id l) at 1. apply map_ext. now intros []. Qed.
Lemma mv_some v : mv (VSome v) = VSome (mv v).
Proof. unfold mv. now destruct ns. Qed.
Lemma mv_num n : mv (VNum n) = VNum n.
Proof. unfold mv. now destruct ns. Qed.
Lemma mv_str n : mv (VStr n) = VStr n.
Proof. unfold mv. now destruct ns. Qed.
Lemma mv_none : mv VNone = VNone.
Proof. unfold mv. now destruct ns. Qed.
Lemma mv_ref a : ns = false -> mv (VRef a) = VRef (length (r_heap s0) + a).
Proof. intros N. unfold mv. now rewrite N. Qed.
Lemma emplace_mv {A} (g : A -> A) (key : A -> cv) : (forall a, key (g a) = mv (key a)) -> forall l a, emplace (w_lt w) key (g a) (map g l) = map g (emplace (w_lt w) key a l).
Proof.
  intros K. induction l as [|b l IH]; intros a; cbn [map emplace]; [reflexivity|]. rewrite !K, !Hlt. destruct (w_lt w (key a) (key b)); [reflexivity|]. destruct (w_lt w (key b) (key a)); [|reflexivity]. cbn [map]. now rewrite IH.
Qed.
Lemma tab_mv k v l : tab_insert k (mv v) (map mvt l) = map mvt (tab_insert k v l).
Proof.
  unfold tab_insert. replace (existsb (fun q => bytes_eqb (fst q) k) (map mvt l)) with (existsb (fun q : bytes * cv => bytes_eqb (fst q) k) l); [destruct (existsb _ l); [reflexivity|now rewrite map_app]|].
  induction l as [|q l IH]; cbn [map existsb fst mvt]; [reflexivity|now rewrite IH].
Qed.

Lemma rr_value : forall t old v, rr (fun x y => y = mv x) (paste_value w t old v) (paste_value w t (mv old) v).
Proof.
  induction t; intros old v; cbn [paste_value]; try (constructor; fail).
  - eapply rr_bind; [apply rr_same|]. intros x y <-. constructor. now rewrite mv_num.
  - destruct (ty_eqb _ _); [now constructor|]. destruct (ty_eqb _ _); [eapply rr_bind; [apply rr_same|]; intros x y <-; constructor; now rewrite mv_str|]. destruct (negb _); [constructor|].
    eapply rr_bind; [apply rr_same|]. intros x y <-. eapply rr_bind; [apply rr_same|]. intros z y <-. constructor. now rewrite mv_str.
  - eapply rr_bind; [apply rr_same|]. intros x y <-. constructor. now rewrite mv_str.
  - unfold mv at 2. destruct old; destruct ns eqn:N; cbn [moved]; try (constructor; fail); (eapply rr_bind; [apply rr_same|]; intros x y <-; constructor; unfold mv; rewrite ?N; reflexivity).
  - destruct (v_type v); try (constructor; fail); [destruct (Nat.eqb _ _); [constructor; now rewrite mv_str|]; eapply rr_bind; [apply rr_same|]; intros x y <-; constructor; now rewrite mv_str|constructor; now rewrite mv_str].
  - destruct (ty_eqb _ _); [constructor; now rewrite mv_none|]. eapply rr_bind; [rewrite <- (Hnew t) at 2; apply IHt|]. intros x y ->. constructor. now rewrite mv_some.
  - eapply rr_bind; [rewrite <- (Hnew t) at 2; apply IHt|]. intros x y ->. constructor. now rewrite mv_some.
Qed.

Definition Q2 {A} (g : A -> A) (r r' : A * rstate) : Prop := fst r' = g (fst r) /\ snd r' = sr (snd r) /\ good (snd r).
Definition Q3 {A} (g : A -> A) (r r' : A * rstate * nat) : Prop := Q2 g (fst r) (fst r') /\ snd r' = snd r.
Lemma q2 {A} (g : A -> A) a b s : b = g a -> good s -> Q2 g (a, s) (b, sr s).
Proof. intros -> G. now repeat split. Qed.
Lemma q3 {A} (g : A -> A) a b s u : b = g a -> good s -> Q3 g (a, s, u) (b, sr s, u).
Proof. intros E G. split; [now apply q2|reflexivity]. Qed.
Ltac unq := lazymatch goal with
  | |- Q3 _ ?a ?b -> _ => destruct a as [[? ?] ?], b as [[? ?] ?]; intros [(?&?&?) ?]; cbn [fst snd] in *; subst
  | |- Q2 _ ?a ?b -> _ => destruct a as [? ?], b as [? ?]; intros (?&?&?); cbn [fst snd] in *; subst
  end.

Section Step.
Variable dn : ct -> cv -> doc -> rstate -> res (cv * rstate * nat).
Hypothesis Hdn : forall t old d s, U t -> fresh d -> good s -> rr (Q3 mv) (dn t old d s) (dn t (mv old) d (sr s)).

Lemma fresh_in its d : fresh_items its -> In d its -> fresh d.
Proof. intros H I N k K. apply (H N). eapply dk_below; eauto. Qed.
Lemma fresh_scope k t its : fresh (DScope k t its) -> fresh_items its.
Proof. intros H N j K. apply (H N). inversion K; subst; [eapply dk_here|eapply dk_below]; eauto. Qed.
Lemma scope_fresh k t its : fresh_items its -> fresh (DScope k t its).
Proof. intros H N j K. apply (H N). inversion K; subst; [eapply dk_here|eapply dk_below]; eauto. Qed.
Lemma rr_child t old d s : U t -> fresh d -> good s -> rr (Q2 mv) (dchild w strict dn t old d s) (dchild w strict dn t (mv old) d (sr s)).
Proof.
  intros Ut Fr G. destruct d as [k v|k ty its]; cbn [dchild].
  - eapply rr_bind; [apply rr_value|]. intros x y ->. constructor. now apply q2.
  - eapply rr_bind; [now apply Hdn|]. intros x y. unq. destruct (quiet _ _ _); constructor. now apply q2.
Qed.
Lemma rr_field t id old its s : U t -> fresh_items its -> good s -> rr (Q3 mv) (dfield w strict dn t id old its s) (dfield w strict dn t id (mv old) its (sr s)).
Proof.
  intros Ut Fr G. unfold dfield. destruct (select (scoped t) id its) as [[j d]|] eqn:E; [|constructor]. destruct (select_in _ _ _ _ _ E) as (I & _). eapply rr_bind; [apply rr_child; [exact Ut|eapply fresh_in; eauto|exact G]|].
  intros x y. unq. constructor. now apply q3.
Qed.
Lemma rr_fields : forall fs olds its s vi ni, Forall (fun f => U (f_type f)) fs -> fresh_items its -> good s -> rr (Q3 (map mv)) (dfields w strict dn fs olds its s vi ni) (dfields w strict dn fs (map mv olds) its (sr s) vi ni).
Proof.
  induction fs as [|f fs IH]; intros olds its s vi ni Uf Fr G; [constructor; now apply q3|]. destruct olds as [|old olds]; cbn [dfields map]; [constructor|]. inversion Uf; subst.
  destruct (_ && _); [constructor|]. destruct (_ && _).
  - eapply rr_bind; [now apply IH|]. intros x y. unq. constructor. now apply q3.
  - eapply rr_bind; [now apply rr_field|]. intros x y. unq. eapply rr_bind; [now apply IH|]. intros x y. unq. constructor. now apply q3.
Qed.
Lemma rr_each {B} (g : B -> B) (f f' : doc -> B -> rstate -> res (B * rstate)) : forall l acc s, (forall d acc s, In d l -> good s -> rr (Q2 g) (f d acc s) (f' d (g acc) (sr s))) ->
  good s -> rr (Q2 g) (deach f l acc s) (deach f' l (g acc) (sr s)).
Proof.
  induction l as [|d l IH]; intros acc s H G; cbn [deach]; [constructor; now apply q2|]. eapply rr_bind; [apply H; [now left|exact G]|]. intros x y. unq. apply IH; [|assumption]. intros; apply H; [now right|assumption].
Qed.
Lemma rr_array e : forall olds l s, U e -> Forall fresh l -> good s -> rr (Q2 (map mv)) (darray w strict dn e olds l s) (darray w strict dn e (map mv olds) l (sr s)).
Proof.
  induction olds as [|old olds IH]; intros l s Ue Fr G; cbn [darray map]; [constructor; now apply q2|]. destruct l as [|d l]; [constructor; now apply q2|]. inversion Fr; subst.
  eapply rr_bind; [now apply rr_child|]. intros x y. unq. eapply rr_bind; [now apply IH|]. intros x y. unq. constructor. now apply q2.
Qed.
Lemma rr_elem {B} (g : B -> B) (add : cv -> B -> B) e d acc s : (forall v acc, add (mv v) (g acc) = g (add v acc)) -> U e -> fresh d -> good s ->
  rr (Q2 g) (delem w strict dn add e d acc s) (delem w strict dn add e d (g acc) (sr s)).
Proof. intros A Ue Fr G. unfold delem. eapply rr_bind; [rewrite <- (Hnew e) at 2; now apply rr_child|]. intros x y. unq. constructor. apply q2; [apply A|assumption]. Qed.
Lemma rr_entry k e d acc s : U k -> U e -> fresh d -> good s -> rr (Q2 (map mv2)) (dentry w strict dn k e d acc s) (dentry w strict dn k e d (map mv2 acc) (sr s)).
Proof.
  intros Uk Ue Fr G. assert (Fi : fresh_items (S_Object.items d)). { destruct d; cbn [S_Object.items]; [|eapply fresh_scope; exact Fr]. intros N j K. inversion K; subst; contradiction. }
  unfold dentry. eapply rr_bind; [rewrite <- (Hnew k) at 2; now apply rr_field|]. intros x y. unq. eapply rr_bind; [rewrite <- (Hnew e) at 2; now apply rr_field|]. intros x y. unq.
  destruct (quiet _ _ _); constructor. apply q2; [|assumption]. rewrite <- (emplace_mv mv2 fst); reflexivity.
Qed.
Lemma rr_tab e d acc s : U e -> fresh d -> good s -> rr (Q2 (map mvt)) (dtab w strict dn e d acc s) (dtab w strict dn e d (map mvt acc) (sr s)).
Proof. intros Ue Fr G. unfold dtab. eapply rr_bind; [rewrite <- (Hnew e) at 2; now apply rr_child|]. intros x y. unq. constructor. apply q2; [apply tab_mv|assumption]. Qed.
Lemma fresh_kind its sc : fresh_items its -> Forall fresh (kind_items sc its).
Proof. intros H. apply Forall_forall. intros d I. apply filter_In in I. eapply fresh_in; [exact H|apply I]. Qed.
Lemma U_cls c : U (CCls c) -> Forall (fun f => U (f_type f)) (w_cls w c).
Proof. intros H. apply Forall_forall. intros f I N e. destruct (H N e) as [A B]. split; intros P; [apply A|apply B]; eapply pt_cls; eauto. Qed.
Lemma U_tup c : U (CTup c) -> Forall (fun f => U (f_type f)) (map (fun f => mkField [] false (f_type f)) (w_cls w c)).
Proof. intros H. apply Forall_forall. intros f I N e. apply in_map_iff in I. destruct I as (g & <- & I). cbn [f_type]. destruct (H N e) as [A B]. split; intros P; [apply A|apply B]; eapply pt_tup; eauto. Qed.
Lemma U_poly b id c : U (CPoly b) -> w_reg w b id = Ok (Some c) -> Forall (fun f => U (f_type f)) (w_cls w c).
Proof. intros H E. apply Forall_forall. intros f I N e. destruct (H N e) as [A B]. split; intros P; [apply A|apply B]; eapply pt_poly; eauto. Qed.
Ltac Upart := let N := fresh "N" in let x := fresh "x" in intros N x; match goal with H : U _ |- _ => destruct (H N x) as [?A ?B] end; split; intros ?P;
  match goal with A : ~ _ |- False => apply A end.
Lemma U_of t e : (forall u, part w e u -> part w t u) -> U t -> U e.
Proof. intros H Ut N x. destruct (Ut N x) as [A B]. split; intros P; [apply A|apply B]; auto. Qed.
Lemma rr_members fs olds its s vi u0 (mk : list cv -> cv) : (forall l, mv (mk l) = mk (map mv l)) -> Forall (fun f => U (f_type f)) fs -> fresh_items its -> good s ->
  rr (Q3 mv) (let* (vs, s', u) := dfields w strict dn fs olds its s vi 0 in Ok (mk vs, s', Nat.max u0 u)) (let* (vs, s', u) := dfields w strict dn fs (map mv olds) its (sr s) vi 0 in Ok (mk vs, s', Nat.max u0 u)).
Proof. intros M Uf Fr G. eapply rr_bind; [now apply rr_fields|]. intros x y. unq. constructor. apply q3; [now rewrite M|assumption]. Qed.
Lemma mv_shape old : match old with VList l => mv old = VList (map mv l) | _ => match mv old with VList _ => False | _ => True end end.
Proof. destruct old; try apply mv_list; unfold mv; destruct ns; exact I. Qed.
Lemma key_value its s x : dfield w strict dn (CNum TUI64) (IdName str_shared_key) (VNum 0) its s = Ok x -> exists v, In (DVal str_shared_key v) its /\ paste_value w (CNum TUI64) (VNum 0) v = Ok (fst (fst x)) /\ snd (fst x) = s.
Proof.
  unfold dfield. destruct (select _ _ its) as [[j d]|] eqn:E; [|discriminate]. destruct (select_in _ _ _ _ _ E) as (I & S & K). change (scoped (CNum TUI64)) with false in S. destruct d as [k v|]; [|discriminate]. cbn [doc_name] in K. subst k.
  cbn [dchild]. destruct (paste_value w (CNum TUI64) (VNum 0) v) as [y| | |] eqn:P; cbn [rbind]; try discriminate. intros [= <-]. exists v. auto.
Qed.
Lemma behind_more s e x key : good s ->
  mkRs (r_heap (behind s0 s) ++ [(e, moved (length (r_heap s0)) x)]) ((key, length (r_heap (behind s0 s))) :: r_tab (behind s0 s)) = behind s0 (mkRs (r_heap s ++ [(e, x)]) ((key, length (r_heap s)) :: r_tab s)).
Proof. intros _. unfold behind. cbn [r_heap r_tab]. rewrite map_app, app_assoc, app_length, map_length. reflexivity. Qed.
Lemma behind_more' s e x : mkRs (r_heap (behind s0 s) ++ [(e, moved (length (r_heap s0)) x)]) (r_tab (behind s0 s)) = behind s0 (mkRs (r_heap s ++ [(e, x)]) (r_tab s)).
Proof. unfold behind. cbn [r_heap r_tab]. rewrite map_app, app_assoc. reflexivity. Qed.
Lemma rr_shared e its s : (ns = true -> False) -> U e -> fresh_items its -> good s ->
  let go := fun s => let* (key, s1, u1) := dfield w strict dn (CNum TUI64) (IdName str_shared_key) (VNum 0) its s in
        match key with
        | VNum key =>
            match find_key key (r_tab s1) with
            | Some a =>
                match nth_error (r_heap s1) a with
                | Some (u, _) => if ct_eqb u e then Ok (VRef a, s1, u1) else UB UbCast
                | None => UB UbDangling
                end
            | None =>
                let* (x, s2, u2) := dfield w strict dn e (IdName str_shared_value) (w_new w e) its s1 in
                let a := length (r_heap s2) in
                Ok (VRef a, mkRs (r_heap s2 ++ [(e, x)]) (match find_key key (r_tab s2) with Some _ => r_tab s2 | None => (key, a) :: r_tab s2 end), Nat.max u1 u2)
            end
        | _ => Err
        end in rr (Q3 mv) (go s) (go (sr s)).
Proof.
  intros N Ue Fr G go. assert (N' : ns = false) by (destruct ns; [destruct (N eq_refl)|reflexivity]). unfold go. clear go.
  assert (Un : U (CNum TUI64)) by (intros X; destruct (N X)).
  pose proof (rr_field (CNum TUI64) (IdName str_shared_key) (VNum 0) its s Un Fr G) as H. rewrite mv_num in H.
  destruct (dfield w strict dn (CNum TUI64) (IdName str_shared_key) (VNum 0) its s) as [[[key s1] u1]| |u|] eqn:E1; inversion H as [? b HQ EA EB| | |]; subst; cbn [rbind]; try (constructor; fail).
  clear H EB. destruct b as [[key' s1'] u1'], HQ as [(HA & HB & HC) HD]. cbn [fst snd] in HA, HB, HC, HD. subst key' s1' u1'. destruct (key_value _ _ _ E1) as (v & I & P & _). cbn [fst snd] in P.
  destruct key as [n| | | | | | | |]; rewrite ?mv_num; try (unfold mv; rewrite N'; cbn [moved]; constructor; fail).
  assert (K0 : find_key n (r_tab s0) = None) by (apply (Fr N'); eapply dk_here; eauto).
  assert (Kb : forall s, find_key n (r_tab (sr s)) = option_map (Nat.add (length (r_heap s0))) (find_key n (r_tab s))).
  { intros q. unfold sr. rewrite N'. unfold behind. cbn [r_tab]. rewrite find_key_app, find_key_map, K0. now destruct (find_key n (r_tab q)). }
  rewrite Kb. destruct (find_key n (r_tab s1)) as [a|]; cbn [option_map].
  - replace (nth_error (r_heap (sr s1)) (length (r_heap s0) + a)) with (option_map (fun q => (fst q, moved (length (r_heap s0)) (snd q))) (nth_error (r_heap s1) a)).
    2:{ unfold sr. rewrite N'. unfold behind. cbn [r_heap]. rewrite nth_error_app2 by lia. replace (length (r_heap s0) + a - length (r_heap s0))%nat with a by lia. now rewrite nth_error_map. }
    destruct (nth_error (r_heap s1) a) as [[u x]|]; cbn [option_map fst snd]; [|constructor]. destruct (ct_eqb u e); [|constructor]. constructor. apply q3; [now rewrite mv_ref|assumption].
  - pose proof (rr_field e (IdName str_shared_value) (w_new w e) its s1 Ue Fr ltac:(assumption)) as H. rewrite Hnew in H.
    destruct (dfield w strict dn e (IdName str_shared_value) (w_new w e) its s1) as [[[x s2] u2]| |u|]; inversion H as [? b HQ EA EB| | |]; subst; cbn [rbind]; try (constructor; fail).
    clear H EB. destruct b as [[x' s2'] u2'], HQ as [(HA & HB & HG) HD]. cbn [fst snd] in HA, HB, HG, HD. subst x' s2' u2'. rewrite Kb. constructor. split; [|reflexivity]. split; [|split].
    + cbn [fst snd]. rewrite mv_ref by exact N'. f_equal. unfold sr. rewrite N'. unfold behind. cbn [r_heap]. now rewrite app_length, map_length.
    + cbn [fst snd]. unfold mv. unfold sr. rewrite N'. destruct (find_key n (r_tab s2)); cbn [option_map]; [apply behind_more'|now apply behind_more].
    + intros X. destruct (N X).
Qed.
Lemma rr_step t old k ty its s : U t -> fresh_items its -> good s -> rr (Q3 mv) (dstep w strict dn t old k ty its s) (dstep w strict dn t (mv old) k ty its (sr s)).
Proof.
  intros Ut Fr G. destruct t; cbn [dstep]; try (constructor; fail).
  - destruct (negb _); [constructor|]. pose proof (mv_shape old) as Sh. destruct old; try (destruct (mv _); try contradiction; constructor; fail). rewrite Sh. apply rr_members; auto using mv_list, U_cls.
  - destruct (negb _); [constructor|]. assert (Ue : U t) by (eapply U_of; [|exact Ut]; intros; now apply pt_seq). eapply rr_bind; [apply (rr_each (map mv)); [|exact G]|].
    + intros d acc s' I G'. apply rr_elem; auto; [intros; now rewrite map_app|]. pose proof (fresh_kind its (scoped t) Fr) as X. rewrite Forall_forall in X. auto.
    + intros x y. unq. constructor. apply q3; [now rewrite mv_list|assumption].
  - destruct (negb _); [constructor|]. assert (Ue : U t) by (eapply U_of; [|exact Ut]; intros; now apply pt_set). eapply rr_bind; [apply (rr_each (map mv)); [|exact G]|].
    + intros d acc s' I G'. apply rr_elem; auto; [intros; now apply (emplace_mv mv (fun v => v))|]. pose proof (fresh_kind its (scoped t) Fr) as X. rewrite Forall_forall in X. auto.
    + intros x y. unq. constructor. apply q3; [now rewrite mv_list|assumption].
  - destruct (negb _); [constructor|]. assert (Uk : U t1) by (eapply U_of; [|exact Ut]; intros; now apply pt_key). assert (Ue : U t2) by (eapply U_of; [|exact Ut]; intros; now apply pt_map). eapply rr_bind; [apply (rr_each (map mv2)); [|exact G]|].
    + intros d acc s' I G'. apply rr_entry; auto. pose proof (fresh_kind its true Fr) as X. rewrite Forall_forall in X. auto.
    + intros x y. unq. constructor. apply q3; [now rewrite mv_map|assumption].
  - destruct (negb _); [constructor|]. assert (Ue : U t) by (eapply U_of; [|exact Ut]; intros; now apply pt_tab). eapply rr_bind; [apply (rr_each (map mvt)); [|exact G]|].
    + intros d acc s' I G'. apply rr_tab; auto. pose proof (fresh_kind its (scoped t) Fr) as X. rewrite Forall_forall in X. auto.
    + intros x y. unq. constructor. apply q3; [now rewrite mv_tab|assumption].
  - destruct (negb _); [constructor|]. assert (Ue : U t) by (eapply U_of; [|exact Ut]; intros; now apply pt_arr). pose proof (mv_shape old) as Sh. destruct old; try (destruct (mv _); try contradiction; constructor; fail). rewrite Sh, map_length.
    destruct (negb _); [constructor|]. destruct (negb _); [constructor|]. eapply rr_bind; [apply rr_array; auto using fresh_kind|]. intros x y. unq. constructor. apply q3; [now rewrite mv_list|assumption].
  - destruct (negb _); [constructor|]. assert (Ua : U t1) by (eapply U_of; [|exact Ut]; intros; now apply pt_fst). assert (Ub : U t2) by (eapply U_of; [|exact Ut]; intros; now apply pt_snd).
    pose proof (mv_shape old) as Sh. destruct old; try (destruct (mv _); try contradiction; constructor; fail). rewrite Sh. destruct vs as [|oa [|ob [|oc vs]]]; cbn [map]; try (constructor; fail).
    eapply rr_bind; [now apply rr_field|]. intros x y. unq. eapply rr_bind; [now apply rr_field|]. intros x y. unq. constructor. apply q3; [now rewrite mv_list|assumption].
  - destruct (negb _); [constructor|]. pose proof (mv_shape old) as Sh. destruct old; try (destruct (mv _); try contradiction; constructor; fail). rewrite Sh. apply rr_members; auto using mv_list, U_tup.
  - assert (Ue : U t) by (eapply U_of; [|exact Ut]; intros; now apply pt_ptr). eapply rr_bind; [rewrite <- (Hnew t) at 2; apply Hdn; auto using scope_fresh|]. intros x y. unq. constructor. apply q3; [now rewrite mv_some|assumption].
  - assert (Ue : U t) by (eapply U_of; [|exact Ut]; intros; now apply pt_uniq). eapply rr_bind; [rewrite <- (Hnew t) at 2; apply Hdn; auto using scope_fresh|]. intros x y. unq. constructor. apply q3; [now rewrite mv_some|assumption].
  - assert (Ue : U t) by (eapply U_of; [|exact Ut]; intros; now apply pt_shared). apply (rr_shared t its s); auto. intros N. destruct (Ut N t) as [X _]. apply X, pt_self.
  - assert (Ue : U t) by (eapply U_of; [|exact Ut]; intros; now apply pt_weak). apply (rr_shared t its s); auto. intros N. destruct (Ut N t) as [_ X]. apply X, pt_self.
  - destruct (negb _); [constructor|]. destruct (select false (IdName str_type_id) its) as [[j [kk v|]]|]; try (constructor; fail). destruct (_ && _); [constructor|].
    destruct (w_reg w _ (v_data v, v_enc v)) as [[c|]| | |] eqn:R; cbn [rbind]; try (constructor; fail). pose proof (mv_shape (w_new w (CCls c))) as Sh. rewrite Hnew in Sh. destruct (w_new w (CCls c)) as [| |olds| | | | | |]; try (constructor; fail).
    injection Sh as Sh. rewrite Sh at 2. apply rr_members; eauto using mv_poly, U_poly.
Qed.
End Step.
Lemma rr_said : forall F t old d s, U t -> fresh d -> good s -> rr (Q3 mv) (said F w strict t old d s) (said F w strict t (mv old) d (sr s)).
Proof. induction F as [|F IH]; intros t old d s Ut Fr G; cbn [said]; [constructor|]. destruct d as [|k ty its]; [constructor|]. apply rr_step; auto. eapply fresh_scope; exact Fr. Qed.
Lemma rr_says F t old k ty its s : U t -> fresh (DScope k ty its) -> good s -> rr (Q2 mv) (says F w strict t old (DScope k ty its) s) (says F w strict t (mv old) (DScope k ty its) (sr s)).
Proof.
  intros Ut Fr G. unfold says. destruct (scoped t).
  - eapply rr_bind; [now apply rr_said|]. intros x y. unq. constructor. now apply q2.
  - cbn [S_Object.items]. eapply rr_bind; [apply rr_field; auto using rr_said; eapply fresh_scope; exact Fr|]. intros x y. unq. constructor. now apply q2.
Qed.
End Move.

Lemma unwrap_doc F w t n : exists k ty its, doc_node (DScope k ty its) = n /\ forall s old, unwrap_prog F w t old n s = elift (says F w false t old (DScope k ty its) s).
Proof.
  destruct (tree_doc_scope [] n) as (ty & its & E). exists [], ty, its. assert (D : doc_node (DScope [] ty its) = n) by (rewrite <- E; apply doc_node_tree). split; [exact D|]. intros s' old'. rewrite <- D, doc_node_eq. apply eager_says.
Qed.
Lemma again_unshared F w t old n s : unshared w t -> unwrap_prog F w t old n s = ebind (unwrap_prog F w t old n rs_new) (fun r => ERet (fst r, s)).
Proof.
  intros Us. destruct (unwrap_doc F w t n) as (k & ty & its & _ & E). rewrite !E.
  pose proof (rr_says w true s false ltac:(reflexivity) ltac:(reflexivity) F t old k ty its rs_new (fun _ => Us) ltac:(intros X; discriminate X) (fun _ => eq_refl)) as H. change (mv true s old) with old in H. change (sr true s rs_new) with s in H.
  inversion H as [[v s1] [v' s'] (A & B & _) EA EB| | |]; cbn [elift ebind]; try reflexivity. cbn [fst snd] in *. subst v' s'. reflexivity.
Qed.
Lemma again_new_keys F w t old n s : address_free w -> no_pointers old -> new_keys w s n ->
  unwrap_prog F w t old n s = ebind (unwrap_prog F w t old n rs_new) (fun r => ERet (moved (length (r_heap s)) (fst r), behind s (snd r))).
Proof.
  intros [A1 A2] No K. destruct (unwrap_doc F w t n) as (k & ty & its & D & E). rewrite !E.
  assert (Fr : fresh w false s (DScope k ty its)). { intros _ j J. apply K. rewrite <- D. now apply dkey_node. }
  pose proof (rr_says w false s false (fun t => A1 t _) (fun a b => A2 _ a b) F t old k ty its rs_new ltac:(intros X; discriminate X) Fr ltac:(intros X; discriminate X)) as H. change (mv false s old) with (moved (length (r_heap s)) old) in H. rewrite No in H.
  replace (sr false s rs_new) with s in H by (unfold sr, behind; cbn; rewrite app_nil_r; now destruct s).
  inversion H as [[v s1] [v' s'] (A & B & _) EA EB| | |]; cbn [elift ebind]; try reflexivity. cbn [fst snd] in *. subst v' s'. reflexivity.
Qed.

(** * The same tree again *)
Notation ext := later.
Lemma ext_refl s : ext s s.
Proof. split; auto. Qed.
Lemma ext_trans a b c : ext a b -> ext b c -> ext a c.
Proof. intros [A B] [C D]. split; auto. Qed.
Definition newk (K : Z -> Prop) (s s1 : rstate) : Prop := forall k, find_key k (r_tab s) = None -> find_key k (r_tab s1) <> None -> K k.
Lemma newk_refl K s : newk K s s.
Proof. intros k A B. contradiction. Qed.
Lemma newk_trans K a b c : newk K a b -> newk K b c -> newk K a c.
Proof. intros A B k E N. destruct (find_key k (r_tab b)) eqn:F; [apply A; congruence|now apply B]. Qed.
Definition put2 {A} (x : A * rstate) (s : rstate) : A * rstate := (fst x, s).
Definition put3 {A} (x : A * rstate * nat) (s : rstate) : A * rstate * nat := (fst (fst x), s, snd x).
Definition st3 {A} (x : A * rstate * nat) : rstate := snd (fst x).
(** the number of items used does not count *)
Definition eq3 {A} (x y : A * rstate * nat) : Prop := fst x = fst y.
(** once it has succeeded, a computation gives the same result and changes nothing *)
Definition stable {R} (K : Z -> Prop) (st : R -> rstate) (put : R -> rstate -> R) (same : R -> R -> Prop) (c : rstate -> res R) : Prop :=
  forall s x, c s = Ok x -> ext s (st x) /\ newk K s (st x) /\ forall s2, ext (st x) s2 -> exists y, c s2 = Ok y /\ same y (put x s2).
Lemma st_bind {R T} K (st : R -> rstate) put (same : R -> R -> Prop) (st' : T -> rstate) put' (same' : T -> T -> Prop) c f : (forall x, put x (st x) = x) -> (forall x y z, same' x y -> same' y z -> same' x z) ->
  (forall x y, same x y -> forall b, f y = Ok b -> exists a, f x = Ok a /\ same' a b) -> stable K st put same c -> (forall s x, c s = Ok x -> stable K st' put' same' (fun s => f (put x s))) -> stable K st' put' same' (fun s => rbind (c s) f).
Proof.
  intros L Tr Sf Hc Hf s y E. destruct (c s) as [x| | |] eqn:C; cbn [rbind] in E; try discriminate. destruct (Hc _ _ C) as (A1 & A2 & A3). rewrite <- (L x) in E. destruct (Hf _ _ C _ _ E) as (B1 & B2 & B3).
  split; [eapply ext_trans; eauto|]. split; [eapply newk_trans; eauto|]. intros s2 E2. destruct (A3 s2) as (x' & C' & S'); [eapply ext_trans; eauto|]. destruct (B3 s2 E2) as (y' & D' & T'). destruct (Sf _ _ S' _ D') as (z & Z1 & Z2).
  exists z. rewrite C'. cbn [rbind]. split; [exact Z1|]. eapply Tr; eauto.
Qed.
Lemma st_err {R} K (st : R -> rstate) put same (r : res R) : (forall x, r <> Ok x) -> stable K st put same (fun _ => r).
Proof. intros H s x E. destruct (H x E). Qed.
Lemma st_ret2 {A} K (a : A) : stable K snd put2 eq (fun s => Ok (a, s)).
Proof. intros s x [= <-]. cbn [snd put2 fst]. split; [apply ext_refl|]. split; [apply newk_refl|]. eauto. Qed.
Lemma st_ret3 {A} K (a : A) u : stable K st3 put3 eq3 (fun s => Ok (a, s, u)).
Proof. intros s x [= <-]. unfold st3, put3. cbn [snd fst]. split; [apply ext_refl|]. split; [apply newk_refl|]. intros s2 _. eexists. split; [reflexivity|reflexivity]. Qed.
Lemma put2_law {A} (x : A * rstate) : put2 x (snd x) = x. Proof. now destruct x. Qed.
Lemma put3_law {A} (x : A * rstate * nat) : put3 x (st3 x) = x. Proof. now destruct x as [[a s] u]. Qed.
Lemma eq3_trans {A} (x y z : A * rstate * nat) : eq3 x y -> eq3 y z -> eq3 x z. Proof. unfold eq3. congruence. Qed.
Lemma st_weaken {R} (K K' : Z -> Prop) (st : R -> rstate) put same c : (forall k, K k -> K' k) -> stable K st put same c -> stable K' st put same c.
Proof. intros H S s x E. destruct (S _ _ E) as (A & B & C). split; [exact A|]. split; [intros k N1 N2; apply H; now apply B|exact C]. Qed.

Section Stable.
Variables (w : world).
Definition keys (d : doc) : Z -> Prop := fun k => dkey_in w k d.
Definition keyss (its : list doc) : Z -> Prop := keys (DScope [] TObject its).
Inductive dapart : doc -> Prop :=
| da_val k v : dapart (DVal k v)
| da_scope n t its : Forall dapart its -> (forall v k, In (DVal str_shared_key v) its -> paste_value w (CNum TUI64) (VNum 0) v = Ok (VNum k) -> Forall (fun d => ~ dkey_in w k d) its) -> dapart (DScope n t its).
Lemma keyss_in its d k : In d its -> keys d k -> keyss its k.
Proof. intros I H. eapply dk_below; eauto. Qed.
Lemma keyss_scope n t its k : keyss its k <-> keys (DScope n t its) k.
Proof. split; intros H; inversion H; subst; [eapply dk_here|eapply dk_below|eapply dk_here|eapply dk_below]; eauto. Qed.

Section Step.
Variable dn : ct -> cv -> doc -> rstate -> res (cv * rstate * nat).
Hypothesis Hdn : forall t old d, dapart d -> stable (keys d) st3 put3 eq3 (dn t old d).

Ltac resp := let x := fresh "x" in let y := fresh "y" in let H := fresh "H" in intros x y H; first [unfold eq3 in H; destruct x as [[? ?] ?], y as [[? ?] ?]; cbn [fst] in H; injection H as -> ->|destruct x as [? ?], y as [? ?]; injection H as -> ->]; let b := fresh "b" in let E := fresh "E" in intros b E.
Ltac trans := first [exact (@eq3_trans _)|apply eq_trans].
Ltac fin := match goal with E : Ok _ = Ok _ |- _ => injection E as <-; eexists; split; [reflexivity|reflexivity] | E : _ = Ok ?b |- _ => exists b; split; [exact E|reflexivity] end.
Ltac sb3 := eapply (st_bind _ st3 put3 eq3); [apply put3_law|trans| | |].
Ltac sb2 := eapply (st_bind _ snd put2 eq); [apply put2_law|trans| | |].
Lemma st_child t old d : dapart d -> stable (keys d) snd put2 eq (fun s => dchild w false dn t old d s).
Proof.
  intros D. destruct d as [k v|k ty its]; cbn [dchild].
  - destruct (paste_value w t old v); cbn [rbind]; try (apply st_err; discriminate). apply st_ret2.
  - sb3; [resp; cbn [quiet negb orb] in *; fin|now apply Hdn|]. intros s [[x sx] u] _. unfold put3. cbn [fst snd quiet negb orb]. apply st_ret2.
Qed.
Lemma st_field t id old its : Forall dapart its -> stable (keyss its) st3 put3 eq3 (fun s => dfield w false dn t id old its s).
Proof.
  intros D. unfold dfield. destruct (select (scoped t) id its) as [[j d]|] eqn:E; [|apply st_err; discriminate]. destruct (select_in _ _ _ _ _ E) as (I & _). clear E. rewrite Forall_forall in D.
  sb2; [resp; fin|apply (st_weaken (keys d)); [intros k; now apply keyss_in|apply st_child; auto]|]. intros s [x sx] _. unfold put2. cbn [fst snd]. apply st_ret3.
Qed.
Lemma rb_resp {A B} (c : res (A * rstate * nat)) (f g : A * rstate * nat -> res (B * rstate * nat)) b : (forall x b, g x = Ok b -> exists a, f x = Ok a /\ eq3 a b) -> rbind c g = Ok b -> exists a, rbind c f = Ok a /\ eq3 a b.
Proof. intros H. destruct c; cbn [rbind]; try discriminate. apply H. Qed.
Lemma st_fields : forall fs olds its vi ni, Forall dapart its -> stable (keyss its) st3 put3 eq3 (fun s => dfields w false dn fs olds its s vi ni).
Proof.
  induction fs as [|f fs IH]; intros olds its vi ni D; cbn [dfields]; [apply st_ret3|]. destruct olds as [|old olds]; [apply st_err; discriminate|]. destruct (_ && _); [apply st_err; discriminate|]. destruct (_ && _).
  - sb3; [resp; fin|now apply IH|]. intros s [[x sx] u] _. unfold put3. cbn [fst snd]. apply st_ret3.
  - sb3; [resp|now apply st_field|].
    + revert E. apply rb_resp. intros [[? ?] ?] ? E. fin.
    + intros s [[x sx] u] _. unfold put3 at 2. cbn [fst snd]. sb3; [resp; fin|now apply IH|]. intros s' [[y sy] u'] _. unfold put3. cbn [fst snd]. apply st_ret3.
Qed.
Lemma st_each {B} K (f : doc -> B -> rstate -> res (B * rstate)) : forall l acc, (forall d acc, In d l -> stable K snd put2 eq (f d acc)) -> stable K snd put2 eq (fun s => deach f l acc s).
Proof.
  induction l as [|d l IH]; intros acc H; cbn [deach]; [apply st_ret2|]. sb2; [resp; fin|apply H; now left|]. intros s [x sx] _. unfold put2 at 2. cbn [fst snd]. apply IH. intros; apply H; now right.
Qed.
Lemma st_array e its : forall olds l, Forall dapart its -> incl l its -> stable (keyss its) snd put2 eq (fun s => darray w false dn e olds l s).
Proof.
  intros olds l D. revert l. induction olds as [|old olds IH]; intros l I; cbn [darray]; [apply st_ret2|]. destruct l as [|d l]; [apply st_ret2|]. rewrite Forall_forall in D.
  sb2; [resp; fin|apply (st_weaken (keys d)); [intros k; apply keyss_in, I; now left|apply st_child, D, I; now left]|]. intros s [x sx] _. unfold put2 at 2. cbn [fst snd]. sb2; [resp; fin|apply IH; intros z Z; apply I; now right|]. intros s' [y sy] _. unfold put2. cbn [fst snd]. apply st_ret2.
Qed.
Lemma st_elem {B} (add : cv -> B -> B) e d acc : dapart d -> stable (keys d) snd put2 eq (fun s => delem w false dn add e d acc s).
Proof. intros D. unfold delem. sb2; [resp; fin|now apply st_child|]. intros s [x sx] _. unfold put2. cbn [fst snd]. apply st_ret2. Qed.
Lemma st_tab e d acc : dapart d -> stable (keys d) snd put2 eq (fun s => dtab w false dn e d acc s).
Proof. intros D. unfold dtab. sb2; [resp; fin|now apply st_child|]. intros s [x sx] _. unfold put2. cbn [fst snd]. apply st_ret2. Qed.
Lemma st_entry k e d acc : dapart d -> stable (keys d) snd put2 eq (fun s => dentry w false dn k e d acc s).
Proof.
  intros D. destruct d as [n v|n t its]. { unfold dentry. cbn [S_Object.items]. unfold dfield at 1. cbn [select nth_match]. apply st_err. discriminate. }
  inversion D; subst. unfold dentry. cbn [S_Object.items]. apply (st_weaken (keyss its)); [intros j; apply keyss_scope|].
  sb3; [resp|now apply st_field|].
  - cbn [quiet negb orb] in *. destruct (dfield _ _ _ e _ _ _ _) as [[[? ?] ?]| | |]; cbn [rbind] in *; try discriminate. fin.
  - intros s [[x sx] u] _. unfold put3 at 1. cbn [fst snd]. sb3; [resp; cbn [quiet negb orb] in *; fin|now apply st_field|]. intros s' [[y sy] u'] _. unfold put3. cbn [fst snd quiet negb orb]. apply st_ret2.
Qed.
Lemma st_members fs olds its vi u0 (mk : list cv -> cv) : Forall dapart its -> stable (keyss its) st3 put3 eq3 (fun s => let* (vs, s', u) := dfields w false dn fs olds its s vi 0 in Ok (mk vs, s', Nat.max u0 u)).
Proof. intros D. sb3; [resp; fin|now apply st_fields|]. intros s [[x sx] u] _. unfold put3. cbn [fst snd]. apply st_ret3. Qed.
Lemma st_kind {B} its sc (f : doc -> B -> rstate -> res (B * rstate)) acc : Forall dapart its -> (forall d acc, dapart d -> stable (keys d) snd put2 eq (f d acc)) -> stable (keyss its) snd put2 eq (fun s => deach f (kind_items sc its) acc s).
Proof.
  intros D H. apply st_each. intros d a I. apply filter_In in I. destruct I as [I _]. rewrite Forall_forall in D. apply (st_weaken (keys d)); [intros k; now apply keyss_in|auto].
Qed.
Lemma st_shared e its : Forall dapart its -> (forall v k, In (DVal str_shared_key v) its -> paste_value w (CNum TUI64) (VNum 0) v = Ok (VNum k) -> Forall (fun d => ~ dkey_in w k d) its) ->
  stable (keyss its) st3 put3 eq3 (fun s => let* (key, s1, u1) := dfield w false dn (CNum TUI64) (IdName str_shared_key) (VNum 0) its s in
        match key with
        | VNum key =>
            match find_key key (r_tab s1) with
            | Some a =>
                match nth_error (r_heap s1) a with
                | Some (u, _) => if ct_eqb u e then Ok (VRef a, s1, u1) else UB UbCast
                | None => UB UbDangling
                end
            | None =>
                let* (x, s2, u2) := dfield w false dn e (IdName str_shared_value) (w_new w e) its s1 in
                let a := length (r_heap s2) in
                Ok (VRef a, mkRs (r_heap s2 ++ [(e, x)]) (match find_key key (r_tab s2) with Some _ => r_tab s2 | None => (key, a) :: r_tab s2 end), Nat.max u1 u2)
            end
        | _ => Err
        end).
Proof.
  intros D Ap s x E.
  destruct (dfield w false dn (CNum TUI64) (IdName str_shared_key) (VNum 0) its s) as [[[key s1] u1]| | |] eqn:E1; cbn [rbind] in E; try discriminate. destruct (key_value w false dn its s _ E1) as (v & I & P & <-). cbn [fst snd] in P |- *.
  assert (Ek : forall s2, dfield w false dn (CNum TUI64) (IdName str_shared_key) (VNum 0) its s2 = Ok (key, s2, u1)).
  { intros s2. unfold dfield in *. destruct (select (scoped (CNum TUI64)) (IdName str_shared_key) its) as [[j d]|] eqn:Se; [|discriminate]. destruct (select_in _ _ _ _ _ Se) as (_ & Sd & _). destruct d as [kk vv|]; [|discriminate]. cbn [dchild] in *.
    destruct (paste_value w (CNum TUI64) (VNum 0) vv); cbn [rbind] in *; try discriminate. injection E1 as -> <-. reflexivity. }
  destruct key as [key| | | | | | | |]; try discriminate. destruct (find_key key (r_tab s1)) as [a|] eqn:Fk.
  - destruct (nth_error (r_heap s1) a) as [[u y]|] eqn:Hp; [|discriminate]. destruct (ct_eqb u e) eqn:Ce; [|discriminate]. injection E as <-. unfold st3, put3. cbn [fst snd]. split; [apply ext_refl|]. split; [apply newk_refl|].
    intros s2 [X1 X2]. rewrite Ek. cbn [rbind]. rewrite (X1 _ _ Fk), (X2 _ _ Hp), Ce. eexists. split; reflexivity.
  - destruct (dfield w false dn e (IdName str_shared_value) (w_new w e) its s1) as [[[y s2] u2]| | |] eqn:E2; cbn [rbind] in E; try discriminate. injection E as <-.
    assert (Ch : exists d, In d its /\ ext s1 s2 /\ newk (keys d) s1 s2).
    { unfold dfield in E2. destruct (select (scoped e) (IdName str_shared_value) its) as [[j d]|] eqn:Se; [|discriminate]. destruct (select_in _ _ _ _ _ Se) as (Id & _). exists d. rewrite Forall_forall in D.
      destruct (dchild w false dn e (w_new w e) d s1) as [[y' s2']| | |] eqn:E3; cbn [rbind] in E2; try discriminate. injection E2 as -> -> _. destruct (st_child e (w_new w e) d (D d Id) _ _ E3) as (A & B & _). auto. }
    destruct Ch as (d & Id & Ex & Nk). specialize (Ap v key I P). rewrite Forall_forall in Ap.
    assert (F2 : find_key key (r_tab s2) = None). { destruct (find_key key (r_tab s2)) eqn:Z; [|reflexivity]. destruct (Ap d Id). apply Nk; [exact Fk|congruence]. }
    rewrite F2. unfold st3, put3. cbn [fst snd r_tab r_heap]. split; [|split].
    + eapply ext_trans; [exact Ex|]. split; cbn [r_tab r_heap].
      * intros k a H. cbn [find_key]. destruct (key =? k) eqn:Z; [|exact H]. apply Z.eqb_eq in Z. subst k. congruence.
      * intros a q H. rewrite nth_error_app1; [exact H|]. apply nth_error_Some. congruence.
    + intros k N1 N2. cbn [r_tab find_key] in N2. destruct (key =? k) eqn:Z.
      * apply Z.eqb_eq in Z. subst k. eapply dk_here; eauto.
      * eapply keyss_in; [exact Id|]. now apply Nk.
    + intros s3 [X1 X2]. cbn [r_tab r_heap] in X1, X2. rewrite Ek. cbn [rbind]. rewrite (X1 key (length (r_heap s2))) by (cbn [find_key]; now rewrite Z.eqb_refl).
      rewrite (X2 (length (r_heap s2)) (e, y)) by (rewrite nth_error_app2, Nat.sub_diag by lia; reflexivity). rewrite P_ObjStore.ct_eqb_refl. eexists. split; reflexivity.
Qed.
Lemma st_step t old k ty its : Forall dapart its -> (forall v k, In (DVal str_shared_key v) its -> paste_value w (CNum TUI64) (VNum 0) v = Ok (VNum k) -> Forall (fun d => ~ dkey_in w k d) its) ->
  stable (keyss its) st3 put3 eq3 (fun s => dstep w false dn t old k ty its s).
Proof.
  intros D Ap. destruct t; cbn [dstep]; try (apply st_err; discriminate).
  - destruct (negb _); [apply st_err; discriminate|]. destruct old; try (apply st_err; discriminate). now apply st_members.
  - destruct (negb _); [apply st_err; discriminate|]. sb2; [resp; fin|apply st_kind; [exact D|intros; now apply st_elem]|]. intros s [x sx] _. unfold put2. cbn [fst snd]. apply st_ret3.
  - destruct (negb _); [apply st_err; discriminate|]. sb2; [resp; fin|apply st_kind; [exact D|intros; now apply st_elem]|]. intros s [x sx] _. unfold put2. cbn [fst snd]. apply st_ret3.
  - destruct (negb _); [apply st_err; discriminate|]. sb2; [resp; fin|apply st_kind; [exact D|intros; now apply st_entry]|]. intros s [x sx] _. unfold put2. cbn [fst snd]. apply st_ret3.
  - destruct (negb _); [apply st_err; discriminate|]. sb2; [resp; fin|apply st_kind; [exact D|intros; now apply st_tab]|]. intros s [x sx] _. unfold put2. cbn [fst snd]. apply st_ret3.
  - destruct (negb _); [apply st_err; discriminate|]. destruct old; try (apply st_err; discriminate). destruct (negb _); [apply st_err; discriminate|]. destruct (negb _); [apply st_err; discriminate|].
    sb2; [resp; fin|apply st_array; [exact D|intros d I; apply filter_In in I; apply I]|]. intros s [x sx] _. unfold put2. cbn [fst snd]. apply st_ret3.
  - destruct (negb _); [apply st_err; discriminate|]. destruct old as [| |[|oa [|ob [|oc vs]]]| | | | | |]; try (apply st_err; discriminate). sb3; [resp|now apply st_field|].
    + revert E. apply rb_resp. intros [[? ?] ?] ? E. fin.
    + intros s [[x sx] u] _. unfold put3 at 2. cbn [fst snd]. sb3; [resp; fin|now apply st_field|]. intros s' [[y sy] u'] _. unfold put3. cbn [fst snd]. apply st_ret3.
  - destruct (negb _); [apply st_err; discriminate|]. destruct old; try (apply st_err; discriminate). now apply st_members.
  - apply (st_weaken (keys (DScope k ty its))); [intros j; apply keyss_scope|]. sb3; [resp; fin|apply Hdn; now constructor|]. intros s [[x sx] u] _. unfold put3. cbn [fst snd]. apply st_ret3.
  - apply (st_weaken (keys (DScope k ty its))); [intros j; apply keyss_scope|]. sb3; [resp; fin|apply Hdn; now constructor|]. intros s [[x sx] u] _. unfold put3. cbn [fst snd]. apply st_ret3.
  - now apply st_shared.
  - now apply st_shared.
  - destruct (negb _); [apply st_err; discriminate|]. destruct (select false (IdName str_type_id) its) as [[j [kk v|]]|]; try (apply st_err; discriminate). destruct (_ && _); [apply st_err; discriminate|].
    destruct (w_reg w _ (v_data v, v_enc v)) as [[c|]| | |]; cbn [rbind]; try (apply st_err; discriminate). destruct (w_new w (CCls c)) as [| |olds| | | | | |]; try (apply st_err; discriminate). now apply st_members.
Qed.
End Step.
Lemma st_said : forall F t old d, dapart d -> stable (keys d) st3 put3 eq3 (fun s => said F w false t old d s).
Proof.
  induction F as [|F IH]; intros t old d D; cbn [said]; [apply st_err; discriminate|]. destruct d as [|k ty its]; [apply st_err; discriminate|]. inversion D; subst. apply (st_weaken (keyss its)); [intros j; apply keyss_scope|]. now apply st_step.
Qed.
Lemma st_says F t old k ty its s v s1 s2 : dapart (DScope k ty its) -> says F w false t old (DScope k ty its) s = Ok (v, s1) -> ext s1 s2 -> says F w false t old (DScope k ty its) s2 = Ok (v, s2).
Proof.
  intros D. unfold says. destruct (scoped t); intros E X.
  - destruct (said F w false t old (DScope k ty its) s) as [[[v' s1'] u]| | |] eqn:Es; cbn [rbind] in E; try discriminate. injection E as -> ->. destruct (st_said F t old _ D _ _ Es) as (_ & _ & H). destruct (H s2 X) as ([[v2 s2'] u2] & -> & Q). unfold eq3, put3 in Q. cbn [fst snd] in Q. injection Q as -> ->. reflexivity.
  - inversion D; subst. cbn [S_Object.items] in *. destruct (dfield w false (said F w false) t (IdPos 0) old its s) as [[[v' s1'] u]| | |] eqn:Es; cbn [rbind] in E; try discriminate. injection E as -> ->.
    destruct (st_field (said F w false) (st_said F) t (IdPos 0) old its ltac:(assumption) _ _ Es) as (_ & _ & H). destruct (H s2 X) as ([[v2 s2'] u2] & -> & Q). unfold eq3, put3 in Q. cbn [fst snd] in Q. injection Q as -> ->. reflexivity.
Qed.
End Stable.
Lemma key_doc w k : forall d, match d with DScope _ _ _ => True | _ => False end -> key_in w k (doc_node d) -> dkey_in w k d.
Proof.
  induction d as [|n t its IH] using doc_ind2; [intros []|]. intros _ H. rewrite doc_node_eq in H. inversion H as [? ? ? v I P|? ? ? q I K]; subst.
  - eapply dk_here; [|exact P]. clear - I. unfold vals_of in I. apply in_flat_map in I. destruct I as ([k' v'|] & I & J); [|destruct J]. destruct J as [J|[]]. injection J as -> ->. exact I.
  - unfold subs_of in I. apply in_flat_map in I. destruct I as ([|k' t' i'] & I & J); [destruct J|]. destruct J as [<-|[]]. cbn [snd] in K. eapply dk_below; [exact I|]. rewrite Forall_forall in IH. now apply (IH _ I).
Qed.
Lemma apart_doc w : forall d, match d with DScope _ _ _ => True | _ => False end -> keys_apart w (doc_node d) -> dapart w d.
Proof.
  induction d as [|n t its IH] using doc_ind2; [intros []|]. intros _ H. rewrite doc_node_eq in H. inversion H as [? ? ? A B]; subst. rewrite Forall_forall in A, IH. constructor.
  - apply Forall_forall. intros [k' v'|k' t' i'] I; [constructor|]. apply (IH _ I); [exact Logic.I|]. apply (A (k', doc_node (DScope k' t' i'))). now apply in_subs.
  - intros v k I P. apply Forall_forall. intros [k' v'|k' t' i'] J K; [inversion K|]. specialize (B v k (in_vals _ _ _ I) P). rewrite Forall_forall in B. apply (B (k', doc_node (DScope k' t' i'))); [now apply in_subs|]. now apply dkey_node.
Qed.
(** the same tree, the same type: the same shared objects *)
Lemma again_same F w t old n s v s1 : keys_apart w n -> unwrap_prog F w t old n s = ERet (v, s1) -> forall s2, ext s1 s2 -> unwrap_prog F w t old n s2 = ERet (v, s2).
Proof.
  intros A E s2 X. destruct (unwrap_doc F w t n) as (k & ty & its & D & U'). rewrite U' in E |- *. destruct (says F w false t old (DScope k ty its) s) as [r| | |] eqn:Es; try discriminate. injection E as ->.
  rewrite (st_says w F t old k ty its s v s1 s2); auto. apply apart_doc; [exact I|]. now rewrite D.
Qed.
Lemma again_later F w t old n s v s1 : keys_apart w n -> unwrap_prog F w t old n s = ERet (v, s1) -> later s s1.
Proof.
  intros A E. destruct (unwrap_doc F w t n) as (k & ty & its & D & U'). rewrite U' in E. destruct (says F w false t old (DScope k ty its) s) as [r| | |] eqn:Es; try discriminate. injection E as ->.
  assert (Ap : dapart w (DScope k ty its)) by (apply apart_doc; [exact I|now rewrite D]). unfold says in Es. destruct (scoped t).
  - destruct (said F w false t old (DScope k ty its) s) as [[[v' s1'] u]| | |] eqn:E; cbn [rbind] in Es; try discriminate. injection Es as -> ->. now destruct (st_said w F t old _ Ap _ _ E).
  - inversion Ap; subst. cbn [S_Object.items] in *. destruct (dfield w false (said F w false) t (IdPos 0) old its s) as [[[v' s1'] u]| | |] eqn:E; cbn [rbind] in Es; try discriminate. injection Es as -> ->.
    now destruct (st_field w (said F w false) (st_said w F) t (IdPos 0) old its ltac:(assumption) _ _ E).
Qed.

(** * Deciding the premises *)
Definition own_keys (w : world) (vs : list (bytes * value)) : list Z :=
  flat_map (fun q => if bytes_eqb (fst q) str_shared_key then match paste_value w (CNum TUI64) (VNum 0) (snd q) with Ok (VNum k) => [k] | _ => [] end else []) vs.
Fixpoint all_keys (w : world) (n : node) : list Z := match n with mkNode _ vs ns => own_keys w vs ++ flat_map (fun q => all_keys w (snd q)) ns end.
Fixpoint apart_b (w : world) (n : node) : bool :=
  match n with mkNode _ vs ns => forallb (fun q => apart_b w (snd q)) ns && forallb (fun k => forallb (fun q => negb (existsb (Z.eqb k) (all_keys w (snd q)))) ns) (own_keys w vs) end.
Lemma own_keys_in w vs v k : In (str_shared_key, v) vs -> paste_value w (CNum TUI64) (VNum 0) v = Ok (VNum k) -> In k (own_keys w vs).
Proof. intros I P. apply in_flat_map. exists (str_shared_key, v). split; [exact I|]. cbn [fst snd]. replace (bytes_eqb str_shared_key str_shared_key) with true by reflexivity. rewrite P. now left. Qed.
Lemma all_keys_in w k n : key_in w k n -> In k (all_keys w n).
Proof.
  induction 1 as [t vs ns v I P|t vs ns q I H IH]; cbn [all_keys]; apply in_or_app; [left; eapply own_keys_in; eauto|right]. apply in_flat_map. eauto.
Qed.
Lemma apart_b_ok w : forall n, apart_b w n = true -> keys_apart w n.
Proof.
  induction n as [t vs ns IH] using node_ind'. cbn [apart_b]. intros H. apply andb_prop in H. destruct H as [A B]. rewrite forallb_forall in A, B. rewrite Forall_forall in IH. constructor.
  - apply Forall_forall. intros q I. apply (IH q I), (A q I).
  - intros v k I P. specialize (B k (own_keys_in _ _ _ _ I P)). rewrite forallb_forall in B. apply Forall_forall. intros q J K. specialize (B q J). apply all_keys_in in K.
    assert (X : existsb (Z.eqb k) (all_keys w (snd q)) = true) by (apply existsb_exists; exists k; split; [exact K|apply Z.eqb_refl]). rewrite X in B. discriminate.
Qed.
Lemma new_keys_b w s n : forallb (fun k => match find_key k (r_tab s) with Some _ => false | None => true end) (all_keys w n) = true -> new_keys w s n.
Proof. intros H k K. rewrite forallb_forall in H. specialize (H k (all_keys_in _ _ _ K)). now destruct (find_key k (r_tab s)). Qed.
