(** What an object stored by a program is for a program whose classes have changed. *)
From Coq Require Import ZArith List Bool Lia ZifyBool ZifyNat.
From Verif Require Import Base Lemmas M_Types M_Conv M_TpTools M_Charset S_Doc M_Tree S_Tree M_Object S_Object P_ObjEager P_ObjLazy S_ObjStore S_Evolve P_ObjStore.
Import ListNotations.
Open Scope Z_scope.

Ltac inv_bind H := let p := fresh "p" in let E := fresh "E" in apply bind_ok in H; destruct H as (p & E & H).

Lemma all3_len {A B C} (P : A -> B -> C -> Prop) l m n : all3 P l m n -> length m = length l /\ length n = length l.
Proof. induction 1; cbn; lia. Qed.

Lemma same_place (a b : field) (q r : list field) : forall p p', NoDup (names (p ++ a :: q)) -> p ++ a :: q = p' ++ b :: r -> f_name a = f_name b -> length p = length p'.
Proof.
  induction p as [|x p IHp]; intros [|y p'] ND E N; cbn [app length names map] in *; inversion E; subst; [reflexivity| | |].
  - inversion ND as [|? ? N1 _]; subst. exfalso. apply N1. rewrite N, map_app. apply in_or_app. right. now left.
  - inversion ND as [|? ? N1 _]; subst. exfalso. apply N1. rewrite <- N, map_app. apply in_or_app. right. now left.
  - inversion ND; subst. f_equal. now apply IHp.
Qed.

Section Evolve.
Variables (w1 w2 : world) (R : nat -> nat -> Prop) (direct : bool) (hp : heap_t) (lev : nat -> nat) (leaf : ct -> cv -> Prop) (V : value -> value -> Prop).
Hypothesis REG2 : regular w2.
Hypothesis NEW : forall t, shape w2 t (w_new w2 t).
Hypothesis EV : evolution w1 w2 R direct.
Hypothesis LEAF : forall t v sv v' old, shape w2 t old -> leaf t v -> leaf_value t v = Some sv -> V sv v' -> paste_value w2 t old v' = Ok v.
Hypothesis INT : forall a b v sv v' old, integer a -> integer b -> int_min b <= int_min a -> int_max a <= int_max b -> leaf (CNum a) v -> leaf_value (CNum a) v = Some sv -> V sv v' ->
  (exists n, v = VNum n) /\ paste_value w2 (CNum b) old v' = Ok v.
Hypothesis SOLID : forall t v sv, leaf t v -> leaf_value t v = Some sv -> v_type sv <> TNull.
Hypothesis NULL : forall sv v', V sv v' -> (v_type v' = TNull <-> v_type sv = TNull).
Hypothesis TEXT : forall s v', leaf (CStr EUTF8) (VStr s) -> V (val_string s EUTF8) v' -> v_type v' = TString /\ v_data v' = s /\ v_enc v' = EUTF8.

Notation ok := (storable w1 hp lev leaf).
Notation becomes := (becomes w1 w2 R).
Notation turns := (turns w1 w2).

Lemma becomes_scoped : forall t1 t2, becomes t1 t2 -> scoped t2 = scoped t1.
Proof.
  fix IH 3. intros t1 t2 B. destruct B as [t|a b Ia Ib| | | |a b B|a|k a b K B|a b B|m a b B| |a b B|a b B|]; try reflexivity; try exact (IH _ _ B).
  destruct a, b; try contradiction; reflexivity.
Qed.

Definition kept (f : nat) : Prop := forall n t1 t2 v nm name tab d tab' d' old s,
  emit f w1 hp t1 v name tab = Ok (d, tab') -> ok n t1 v -> becomes t1 t2 -> shape w2 t2 old -> like V nm d d' ->
  exists c, dchild w2 direct (said f w2 direct) t2 old d' s = Ok (c, s) /\ turns t1 t2 v old c.

Section Level.
Variable f : nat.
Hypothesis IH : kept f.
Notation dn := (said f w2 direct).
Notation emit_field := (fun fv : field * cv => emit f w1 hp (f_type (fst fv)) (snd fv) (f_name (fst fv))).

Lemma ename t v name tab d tab' : emit f w1 hp t v name tab = Ok (d, tab') -> doc_name d = name.
Proof. intros H. apply (emit_head w1 hp lev leaf SOLID _ _ _ _ _ _ _ H). Qed.
Lemma ekind t v name tab d tab' n nm d' : emit f w1 hp t v name tab = Ok (d, tab') -> ok n t v -> like V nm d d' -> is_sc d' = scoped t.
Proof. intros H O L. rewrite (like_sc _ _ _ _ L). now apply (emit_head w1 hp lev leaf SOLID _ _ _ _ _ _ _ H) in O. Qed.
Lemma at_name t k old pre d post s c s' : Forall (fun x => doc_name x <> k) pre -> is_sc d = scoped t -> doc_name d = k ->
  dchild w2 direct dn t old d s = Ok (c, s') -> dfield w2 direct dn t (IdName k) old (pre ++ d :: post) s = Ok (c, s', S (length pre)).
Proof. intros P K N H. unfold dfield, select. rewrite (pick_named _ _ _ _ _ P K N), H. reflexivity. Qed.
Lemma at_pos t old pre d post s c s' : is_sc d = scoped t ->
  dchild w2 direct dn t old d s = Ok (c, s') -> dfield w2 direct dn t (IdPos (Z.of_nat (count (scoped t) pre))) old (pre ++ d :: post) s = Ok (c, s', S (length pre)).
Proof. intros K H. unfold dfield, select. replace (Z.of_nat _ <? 0) with false by lia. rewrite Nat2Z.id, (pick_pos _ _ _ K), H. reflexivity. Qed.

(** ** The items of a class *)
Definition written (n : nat) (fl : field) (v : cv) (d' : doc) : Prop :=
  ok n (f_type fl) v /\ exists tab d tab', emit f w1 hp (f_type fl) v (f_name fl) tab = Ok (d, tab') /\ like V true d d'.
Lemma items_written n : forall fs vs tab its tab' its', emits emit_field (combine fs vs) tab = Ok (its, tab') -> Forall2 (fun g v => ok n (f_type g) v) fs vs ->
  Forall2 (like V true) its its' -> all3 (written n) fs vs its'.
Proof.
  induction fs as [|x fs IHf]; intros vs tab its tab' its' H FV Q; inversion FV as [|? v ? vs' V1 V2]; subst; cbn [combine emits] in H.
  - injection H as <- <-. inversion Q; subst. constructor.
  - inv_bind H. destruct p as [d t1]. inv_bind H. destruct p as [ds t2]. injection H as <- <-. inversion Q as [|? d' ? ds' R1 R2]; subst. cbn [fst snd] in E. constructor; [|eauto].
    split; [exact V1|]. eauto.
Qed.
Lemma written_head n fl v d' : written n fl v d' -> doc_name d' = f_name fl /\ is_sc d' = scoped (f_type fl).
Proof. intros (O & tab & d & tab' & E & L). split; [rewrite (like_name _ _ _ L); exact (ename _ _ _ _ _ _ E)|exact (ekind _ _ _ _ _ _ _ _ _ E O L)]. Qed.
Lemma written_names n fs vs its : all3 (written n) fs vs its -> map doc_name its = names fs.
Proof. induction 1 as [|fl v d fs vs its W A IHa]; [reflexivity|]. cbn [map names]. f_equal; [now apply written_head in W|exact IHa]. Qed.
Lemma written_in n fs vs its fl : all3 (written n) fs vs its -> In fl fs -> NoDup (names fs) ->
  exists v d pre post, In (fl, v) (combine fs vs) /\ its = pre ++ d :: post /\ written n fl v d /\ Forall (fun x => doc_name x <> f_name fl) pre /\
    exists fpre fpost, fs = fpre ++ fl :: fpost /\ length fpre = length pre.
Proof.
  induction 1 as [|x v d fs vs its W A IHa]; intros I ND; [destruct I|]. cbn [names map] in ND. inversion ND as [|? ? N1 N2]; subst. destruct I as [->|I].
  - exists v, d, [], its. split; [now left|]. split; [reflexivity|]. split; [exact W|]. split; [constructor|]. exists [], fs. auto.
  - destruct (IHa I N2) as (v' & d' & pre & post & Q1 & -> & Q3 & Q4 & fpre & fpost & -> & Q5). exists v', d', (d :: pre), post. split; [now right|]. split; [reflexivity|]. split; [exact Q3|]. split.
    + constructor; [|exact Q4]. destruct (written_head _ _ _ _ W) as [-> _]. intros E. apply N1. rewrite E. apply in_map. exact I.
    + exists (x :: fpre), fpost. cbn. auto.
Qed.
Lemma absent_name sc k fs its : map doc_name its = names fs -> ~ In k (names fs) -> existsb (of_name sc k) its = false.
Proof.
  intros N A. destruct (existsb _ _) eqn:Ex; [|reflexivity]. apply existsb_exists in Ex. destruct Ex as (y & Iy & Ny). unfold of_name in Ny. apply andb_prop in Ny. destruct Ny as [_ Ny].
  apply bytes_eqb_eq in Ny. exfalso. apply A. rewrite <- N, <- Ny. now apply in_map.
Qed.
Lemma other_kind pre d post k sc : Forall (fun x => doc_name x <> k) pre -> Forall (fun x => doc_name x <> k) post -> is_sc d = sc -> existsb (of_name (negb sc) k) (pre ++ d :: post) = false.
Proof.
  intros P1 P2 K. destruct (existsb _ _) eqn:Ex; [|reflexivity]. apply existsb_exists in Ex. destruct Ex as (y & Iy & Ny). unfold of_name in Ny. apply andb_prop in Ny. destruct Ny as [Ny1 Ny2].
  apply bytes_eqb_eq in Ny2. apply Bool.eqb_prop in Ny1. apply in_app_or in Iy. rewrite Forall_forall in P1, P2. destruct Iy as [Iy|[<-|Iy]].
  - now apply P1 in Iy. - rewrite K in Ny1. now destruct sc. - now apply P2 in Iy.
Qed.

Definition fits (fs : list field) (g : field) : Prop :=
  (exists fl, In fl fs /\ f_name fl = f_name g /\ becomes (f_type fl) (f_type g)) \/ (f_opt g = true /\ ~ In (f_name g) (names fs)).
Definition member_turns (fs : list field) (vs : list cv) (g : field) (old c : cv) : Prop :=
  (exists fl v, In (fl, v) (combine fs vs) /\ f_name fl = f_name g /\ turns (f_type fl) (f_type g) v old c) \/ (~ In (f_name g) (names fs) /\ c = old).

(** [lead]: what comes before the members (the type id) *)
Lemma evolve_fields n fs vs its lead : all3 (written n) fs vs its -> NoDup (names fs) -> forall gs olds s vi ni,
  Forall (fun x => ~ In (doc_name x) (names gs)) lead ->
  Forall (fun g => 0 < zlen (f_name g)) gs -> (forall g, In g gs -> fits fs g) -> Forall2 (fun g v => shape w2 (f_type g) v) gs olds ->
  exists cs u, dfields w2 direct dn gs olds (lead ++ its) s vi ni = Ok (cs, s, u) /\ all3 (member_turns fs vs) gs olds cs /\ (u <= length (lead ++ its))%nat /\
    (forall g fpre fl fpost, In g gs -> fs = fpre ++ fl :: fpost -> f_name fl = f_name g -> (length lead + S (length fpre) <= u)%nat) /\
    (forall g, In g gs -> ~ In (f_name g) (names fs) -> u = length (lead ++ its)).
Proof.
  intros A ND. pose proof (written_names _ _ _ _ A) as NS. induction gs as [|g gs IHg]; intros olds s vi ni LD FN FT FO.
  - inversion FO; subst. exists [], O. cbn [dfields]. split; [reflexivity|]. split; [constructor|]. split; [lia|]. split; intros; contradiction.
  - inversion FO as [|? o ? olds' O1 O2]; subst. inversion FN as [|? ? FN1 FN2]; subst.
    assert (LD' : Forall (fun x => ~ In (doc_name x) (names gs)) lead) by (eapply Forall_impl; [|exact LD]; cbn; tauto).
    assert (LG : Forall (fun x => doc_name x <> f_name g) lead) by (eapply Forall_impl; [|exact LD]; cbn; intros y Hy Q; apply Hy; now left).
    assert (LX : forall sc, existsb (of_name sc (f_name g)) lead = false).
    { intros sc. destruct (existsb _ _) eqn:Ex; [|reflexivity]. apply existsb_exists in Ex. destruct Ex as (y & Iy & Ny). unfold of_name in Ny. apply andb_prop in Ny. destruct Ny as [_ Ny].
      apply bytes_eqb_eq in Ny. rewrite Forall_forall in LG. now apply LG in Iy. }
    destruct (FT g (or_introl eq_refl)) as [(fl & I & NE & B)|[OP NI]].
    + destruct (written_in _ _ _ _ _ A I ND) as (v & d & pre & post & Q1 & Q2 & Q3 & Q4 & fpre & fpost & Q5 & Q6).
      destruct (written_head _ _ _ _ Q3) as [HN HK]. rewrite <- (becomes_scoped _ _ B) in HK. rewrite NE in HN, Q4.
      assert (P2 : Forall (fun x => doc_name x <> f_name g) post).
      { subst its. apply Forall_forall. intros y Iy E. rewrite map_app in NS. cbn [map] in NS. rewrite <- NS in ND. apply NoDup_remove in ND. destruct ND as [_ ND]. apply ND.
        apply in_or_app. right. rewrite HN, <- E. now apply in_map. }
      destruct Q3 as (OK & tab & d0 & tab' & E & L). destruct (IH _ _ _ _ _ _ _ _ _ _ o s E OK B O1 L) as (c & C1 & C2).
      destruct (IHg olds' s (if scoped (f_type g) then vi else vi + 1) (if scoped (f_type g) then ni + 1 else ni) LD' FN2 (fun g' I' => FT g' (or_intror I')) O2) as (cs & u & D1 & D2 & D3 & D4 & D5).
      assert (LP : Forall (fun x => doc_name x <> f_name g) (lead ++ pre)) by (apply Forall_app; now split).
      exists (c :: cs), (Nat.max (S (length (lead ++ pre))) u). split; [|split; [|split; [|split]]].
      * cbn [dfields]. subst its. rewrite !app_assoc in D1 |- *. rewrite (other_kind _ _ _ _ _ LP P2 HK). replace (existsb (of_name (scoped (f_type g)) (f_name g)) ((lead ++ pre) ++ d :: post)) with true.
        2:{ symmetry. apply existsb_exists. exists d. split; [apply in_or_app; right; now left|]. unfold of_name. now rewrite HK, Bool.eqb_reflx, HN, bytes_eqb_refl. }
        cbn [negb]. rewrite !andb_false_r. replace (0 <? zlen (f_name g)) with true by lia. rewrite (at_name _ _ _ _ _ _ _ _ _ LP HK HN C1). cbn [rbind]. now rewrite D1.
      * constructor; [|exact D2]. left. eauto 6.
      * subst its. rewrite !app_length in D3. repeat rewrite app_length. cbn [length] in D3 |- *. lia.
      * intros g' fp fl' fq [<-|I'] EF EN; [|specialize (D4 g' fp fl' fq I' EF EN); lia].
        assert (length fp = length fpre) by (rewrite EF in Q5, ND; refine (same_place _ _ _ _ _ _ ND Q5 _); congruence).
        rewrite app_length. lia.
      * intros g' [<-|I'] NI; [exfalso; apply NI; rewrite <- NE; now apply in_map|]. rewrite (D5 g' I' NI). rewrite Nat.max_r; [reflexivity|]. subst its. repeat rewrite app_length. cbn [length]. lia.
    + destruct (IHg olds' s vi ni LD' FN2 (fun g' I' => FT g' (or_intror I')) O2) as (cs & u & D1 & D2 & D3 & D4 & D5).
      exists (o :: cs), (length (lead ++ its)). split; [|split; [|split; [|split]]].
      * cbn [dfields]. rewrite OP, !existsb_app, !LX, !(absent_name _ _ _ _ NS NI). cbn [orb negb andb]. rewrite andb_false_r. rewrite D1. reflexivity.
      * constructor; [|exact D2]. right. auto.
      * lia.
      * intros g' fp fl' fq _ EF EN. destruct (all3_len _ _ _ _ A) as [_ LI]. rewrite EF, app_length in LI. cbn [length] in LI. rewrite app_length. lia.
      * intros; reflexivity.
Qed.

(** positions *)
Lemma pos_evolve n : forall fs gs vs its pre nm olds s, Forall (fun g => f_name g = [] /\ f_opt g = false) gs -> Forall2 (fun fl g => becomes (f_type fl) (f_type g)) fs gs ->
  all3 (fun fl v d' => ok n (f_type fl) v /\ exists tab d tab' k, emit f w1 hp (f_type fl) v k tab = Ok (d, tab') /\ like V nm d d') fs vs its ->
  Forall2 (fun g v => shape w2 (f_type g) v) gs olds ->
  exists cs u, dfields w2 direct dn gs olds (pre ++ its) s (Z.of_nat (count false pre)) (Z.of_nat (count true pre)) = Ok (cs, s, u) /\ (length (pre ++ its) <= Nat.max (length pre) u)%nat /\
    turns_all w1 w2 fs gs vs olds cs.
Proof.
  intros fs gs vs its pre nm olds s FN FB A. revert gs olds pre s FN FB. induction A as [|fl v d' fs vs its W A IHa]; intros gs olds pre s FN FB FO; inversion FB as [|? g ? gs' B1 B2]; subst.
  - inversion FO; subst. exists [], O. cbn [dfields]. rewrite app_nil_r. split; [reflexivity|]. split; [lia|constructor].
  - inversion FO as [|? o ? olds' O1 O2]; subst. inversion FN as [|? ? [FN1 FN1'] FN2]; subst. destruct W as (OK & tab & d & tab' & k & E & L).
    pose proof (ekind _ _ _ _ _ _ _ _ _ E OK L) as K1. rewrite <- (becomes_scoped _ _ B1) in K1.
    destruct (IH _ _ _ _ _ _ _ _ _ _ o s E OK B1 O1 L) as (c & C1 & C2).
    destruct (IHa gs' olds' (pre ++ [d']) s FN2 B2 O2) as (cs & u & D1 & D2 & D3). rewrite <- app_assoc in D1, D2. cbn [app] in D1, D2. rewrite app_length in D2. cbn [length] in D2.
    exists (c :: cs), (Nat.max (S (length pre)) u). split; [|split; [|now constructor]].
    + cbn [dfields]. rewrite FN1, FN1'. cbn [andb zlen length Z.of_nat Z.ltb Z.compare].
      replace (if scoped (f_type g) then Z.of_nat (count true pre) else Z.of_nat (count false pre)) with (Z.of_nat (count (scoped (f_type g)) pre)) by (now destruct (scoped (f_type g))).
      rewrite (at_pos _ _ _ _ _ _ _ _ K1 C1). cbn [rbind]. rewrite !count_snoc in D1.
      assert (KT : of_kind true d' = scoped (f_type g)) by (unfold of_kind; rewrite K1; now destruct (scoped (f_type g))).
      assert (KF : of_kind false d' = negb (scoped (f_type g))) by (unfold of_kind; rewrite K1; now destruct (scoped (f_type g))).
      rewrite KT, KF in D1.
      replace (if scoped (f_type g) then Z.of_nat (count false pre) else Z.of_nat (count false pre) + 1)
        with (Z.of_nat (count false pre + (if negb (scoped (f_type g)) then 1 else 0))%nat) by (destruct (scoped (f_type g)); cbn [negb]; lia).
      replace (if scoped (f_type g) then Z.of_nat (count true pre) + 1 else Z.of_nat (count true pre))
        with (Z.of_nat (count true pre + (if scoped (f_type g) then 1 else 0))%nat) by (destruct (scoped (f_type g)); lia).
      now rewrite D1.
    + rewrite !app_length in D2. repeat rewrite app_length. cbn [length] in D2 |- *. lia.
Qed.

(** elements *)
Lemma elements n a b nm : becomes a b -> forall vs tab its tab' its' olds s, length olds = length vs -> Forall (shape w2 b) olds ->
  emits (fun x => emit f w1 hp a x []) vs tab = Ok (its, tab') -> Forall (ok n a) vs -> Forall2 (like V nm) its its' ->
  length its' = length vs /\ Forall (fun d => is_sc d = scoped b) its' /\
  exists cs, darray w2 direct dn b olds its' s = Ok (cs, s) /\ all3 (turns a b) vs olds cs.
Proof.
  intros B. induction vs as [|v vs IHv]; intros tab its tab' its' olds s L FO H FV Q.
  - destruct olds; [|discriminate]. cbn in H. injection H as <- <-. inversion Q; subst. split; [reflexivity|]. split; [constructor|]. exists []. split; [reflexivity|constructor].
  - destruct olds as [|o olds]; [discriminate|]. cbn [emits] in H. inv_bind H. destruct p as [d t1]. inv_bind H. destruct p as [ds t2]. injection H as <- <-.
    inversion Q as [|? d' ? ds' R1 R2]; subst. inversion FV as [|? ? V1 V2]; subst. inversion FO as [|? ? O1 O2]; subst.
    pose proof (ekind _ _ _ _ _ _ _ _ _ E V1 R1) as K1. rewrite <- (becomes_scoped _ _ B) in K1.
    destruct (IH _ _ _ _ _ _ _ _ _ _ o s E V1 B O1 R1) as (c & C1 & C2).
    destruct (IHv t1 ds t2 ds' olds s) as (L1 & KK & cs & D1 & D2); auto.
    split; [cbn; lia|]. split; [now constructor|]. exists (c :: cs). cbn [darray]. rewrite C1. cbn [rbind]. rewrite D1. split; [reflexivity|now constructor].
Qed.
Lemma each_array {B} (add : cv -> B -> B) e : forall its s cs s' acc, darray w2 direct dn e (repeat (w_new w2 e) (length its)) its s = Ok (cs, s') ->
  deach (delem w2 direct dn add e) its acc s = Ok (fold_left (fun a v => add v a) cs acc, s').
Proof.
  induction its as [|d its IHi]; cbn [repeat length darray deach]; intros s cs s' acc H.
  - injection H as <- <-. reflexivity.
  - inv_bind H. destruct p as [v s1]. inv_bind H. destruct p as [vs s2]. injection H as <- <-. unfold delem at 1. rewrite E. cbn [rbind]. now rewrite (IHi _ _ _ _ E0).
Qed.
Lemma shape_repeat e n : Forall (shape w2 e) (repeat (w_new w2 e) n).
Proof. induction n; cbn; constructor; auto. Qed.
Lemma all3_repeat {A B C} (P : A -> B -> C -> Prop) o : forall vs n cs, all3 P vs (repeat o n) cs -> Forall2 (fun v c => P v o c) vs cs.
Proof. induction vs as [|v vs IHv]; intros [|n] cs H; cbn in H; inversion H; subst; constructor; eauto. Qed.
Lemma leaf_same t : leaf_type t -> forall v old c, turns t t v old c -> c = v.
Proof. intros L v old c T. destruct t; try contradiction; inversion T; reflexivity. Qed.

(** two items of different names *)
Lemma two_items n ta tb ta' tb' ka kb x y tab1 tab2 tab3 d1 d2 its' oa ob s : ka <> kb -> becomes ta ta' -> becomes tb tb' ->
  emit f w1 hp ta x ka tab1 = Ok (d1, tab2) -> emit f w1 hp tb y kb tab2 = Ok (d2, tab3) -> ok n ta x -> ok n tb y -> shape w2 ta' oa -> shape w2 tb' ob ->
  Forall2 (like V true) [d1; d2] its' ->
  exists cx cy, dfield w2 direct dn ta' (IdName ka) oa its' s = Ok (cx, s, 1%nat) /\ dfield w2 direct dn tb' (IdName kb) ob its' s = Ok (cy, s, 2%nat) /\ length its' = 2%nat /\
    turns ta ta' x oa cx /\ turns tb tb' y ob cy.
Proof.
  intros NE Ba Bb E1 E2 O1 O2 S1 S2 Q. inversion Q as [|? d1' ? l R1 R']; subst. inversion R' as [|? d2' ? l' R2 R'']; subst. inversion R''; subst.
  destruct (IH _ _ _ _ _ _ _ _ _ _ oa s E1 O1 Ba S1 R1) as (cx & C1 & C2).
  destruct (IH _ _ _ _ _ _ _ _ _ _ ob s E2 O2 Bb S2 R2) as (cy & D1 & D2).
  pose proof (like_name _ _ _ R1) as N1. rewrite (ename _ _ _ _ _ _ E1) in N1. pose proof (like_name _ _ _ R2) as N2. rewrite (ename _ _ _ _ _ _ E2) in N2.
  exists cx, cy. split; [apply (at_name ta' ka oa [] d1' [d2'] s cx s); auto; rewrite (becomes_scoped _ _ Ba); exact (ekind _ _ _ _ _ _ _ _ _ E1 O1 R1)|].
  split; [apply (at_name tb' kb ob [d1'] d2' [] s cy s); auto; [constructor; [congruence|constructor]|rewrite (becomes_scoped _ _ Bb); exact (ekind _ _ _ _ _ _ _ _ _ E2 O2 R2)]|].
  split; [reflexivity|]. now split.
Qed.

Lemma quiet_all its u : (length its <= u)%nat -> quiet direct its u = true.
Proof. intros L. unfold quiet. rewrite skipn_all2 by exact L. apply orb_true_r. Qed.

(** entries of maps *)
Lemma entries n k a b nm : leaf_type k -> becomes a b -> forall l tab its tab' its' s,
  emits (fun p tab => let* (d1, tab1) := emit f w1 hp k (fst p) str_key tab in let* (d2, tab2) := emit f w1 hp a (snd p) str_value tab1 in Ok (DScope [] TObject [d1; d2], tab2)) l tab = Ok (its, tab') ->
  Forall (ok n k) (map fst l) -> Forall (ok n a) (map snd l) -> Forall2 (like V nm) its its' ->
  Forall (fun d => is_sc d = true) its' /\
  exists cs, (forall acc, deach (dentry w2 direct dn k b) its' acc s = Ok (fold_left (fun a q => emplace (w_lt w2) fst q a) cs acc, s)) /\
    map fst cs = map fst l /\ Forall2 (fun v c => turns a b v (w_new w2 b) c) (map snd l) (map snd cs).
Proof.
  intros K B. induction l as [|[x y] l IHl]; intros tab its tab' its' s H F1 F2 Q.
  - cbn in H. injection H as <- <-. inversion Q; subst. split; [constructor|]. exists []. split; [reflexivity|]. split; [reflexivity|constructor].
  - cbn [emits] in H. inv_bind H. destruct p as [d t1]. inv_bind H. destruct p as [ds t2]. injection H as <- <-. inv_bind E. destruct p as [d1 ta]. inv_bind E. destruct p as [d2 tb]. injection E as <- <-.
    cbn [fst snd map] in *. inversion F1 as [|? ? X1 X2]; subst. inversion F2 as [|? ? Y1 Y2]; subst. inversion Q as [|? d' ? ds' R1 R2]; subst. inversion R1 as [|? ? k' ? ? its2 _ R3]; subst. cbn [ty_eqb] in R3.
    destruct (two_items n k a k b str_key str_value x y _ _ _ _ _ its2 (w_new w2 k) (w_new w2 b) s ltac:(discriminate) (bc_leaf _ _ _ k K) B E1 E2 X1 Y1 (NEW k) (NEW b) R3) as (cx & cy & A1 & A2 & A3 & A4 & A5).
    apply (leaf_same k K) in A4. subst cx.
    destruct (IHl tb ds t2 ds' s E0 X2 Y2 R2) as (KK & cs & D1 & D2 & D3).
    split; [now constructor|]. exists ((x, cy) :: cs). split.
    + intros acc. cbn [deach fold_left]. unfold dentry at 1. cbn [items]. rewrite A1. cbn [rbind]. rewrite A2. cbn [rbind Nat.max]. rewrite quiet_all by lia. cbn [rbind]. apply D1.
    + cbn [map fst snd]. split; [now f_equal|now constructor].
Qed.
(** entries of tables *)
Lemma table n a b : becomes a b -> forall l tab its tab' its' s,
  emits (fun p => emit f w1 hp a (snd p) (fst p)) l tab = Ok (its, tab') -> Forall (ok n a) (map snd l) -> Forall2 (like V true) its its' ->
  Forall (fun d => is_sc d = scoped b) its' /\
  exists cs, (forall acc, deach (dtab w2 direct dn b) its' acc s = Ok (fold_left (fun a q => tab_insert (fst q) (snd q) a) cs acc, s)) /\
    map fst cs = map fst l /\ Forall2 (fun v c => turns a b v (w_new w2 b) c) (map snd l) (map snd cs).
Proof.
  intros B. induction l as [|[k y] l IHl]; intros tab its tab' its' s H F2 Q.
  - cbn in H. injection H as <- <-. inversion Q; subst. split; [constructor|]. exists []. split; [reflexivity|]. split; [reflexivity|constructor].
  - cbn [emits] in H. inv_bind H. destruct p as [d t1]. inv_bind H. destruct p as [ds t2]. injection H as <- <-. cbn [fst snd map] in *.
    inversion F2 as [|? ? Y1 Y2]; subst. inversion Q as [|? d' ? ds' R1 R2]; subst.
    pose proof (like_name _ _ _ R1) as N1. rewrite (ename _ _ _ _ _ _ E) in N1. pose proof (ekind _ _ _ _ _ _ _ _ _ E Y1 R1) as K1. rewrite <- (becomes_scoped _ _ B) in K1.
    destruct (IH _ _ _ _ _ _ _ _ _ _ (w_new w2 b) s E Y1 B (NEW b) R1) as (c & C1 & C2).
    destruct (IHl t1 ds t2 ds' s E0 Y2 R2) as (KK & cs & D1 & D2 & D3).
    split; [now constructor|]. exists ((k, c) :: cs). split.
    + intros acc. cbn [deach fold_left fst snd]. unfold dtab at 1. rewrite C1. cbn [rbind]. rewrite N1. apply D1.
    + cbn [map fst snd]. split; [now f_equal|now constructor].
Qed.

Lemma child_scope t old k ty its s c s' u : dstep w2 direct dn t old k ty its s = Ok (c, s', u) -> quiet direct its u = true ->
  dchild w2 direct (said (S f) w2 direct) t old (DScope k ty its) s = Ok (c, s').
Proof. intros H L. unfold dchild. cbn [said]. rewrite H. cbn [rbind]. now rewrite L. Qed.

(** a class without the type id ([lead] empty), or with it *)
Lemma class_quiet n c1 c2 vs its lead u : all3 (written n) (w_cls w1 c1) vs its -> (direct = true -> tail_kept w1 w2 c1 c2) -> Forall (fun d => is_sc d = false) lead ->
  (forall g fpre fl fpost, In g (w_cls w2 c2) -> w_cls w1 c1 = fpre ++ fl :: fpost -> f_name fl = f_name g -> (length lead + S (length fpre) <= u)%nat) ->
  (forall g, In g (w_cls w2 c2) -> ~ In (f_name g) (names (w_cls w1 c1)) -> u = length (lead ++ its)) -> quiet direct (lead ++ its) u = true.
Proof.
  intros A TK LD H1 H2. unfold quiet. destruct direct eqn:D; [|reflexivity]. cbn [negb orb]. destruct (TK eq_refl) as [(g & Ig & Ng)|T].
  - rewrite (H2 g Ig Ng), skipn_all. reflexivity.
  - apply forallb_forall. intros d Id. apply In_nth_error in Id. destruct Id as [i Ei]. destruct (is_sc d) eqn:K; [exfalso|reflexivity].
    assert (Ej : nth_error (lead ++ its) (u + i) = Some d).
    { rewrite <- Ei. clear. revert u. induction (lead ++ its) as [|x l IHl]; intros [|u]; cbn [skipn nth_error Nat.add]; try reflexivity; [now destruct i|apply IHl]. }
    destruct (Nat.lt_ge_cases (u + i) (length lead)) as [LT|GE].
    { rewrite nth_error_app1 in Ej by exact LT. apply nth_error_In in Ej. rewrite Forall_forall in LD. apply LD in Ej. congruence. }
    rewrite nth_error_app2 in Ej by exact GE.
    assert (Q : exists pre fl post, w_cls w1 c1 = pre ++ fl :: post /\ length pre = (u + i - length lead)%nat /\ scoped (f_type fl) = true).
    { revert Ej. generalize (u + i - length lead)%nat. clear - A K SOLID. intros j. revert j. induction A as [|fl v x fs vs its W A IHa]; intros [|j] E; cbn [nth_error] in E; try discriminate.
      - injection E as ->. exists [], fl, fs. split; [reflexivity|]. split; [reflexivity|]. destruct (written_head _ _ _ _ W) as [_ <-]. exact K.
      - destruct (IHa j E) as (pre & fl' & post & -> & <- & Q). exists (fl :: pre), fl', post. auto. }
    destruct Q as (pre & fl & post & EF & LP & SC). destruct (T _ _ _ EF SC) as (f' & If & Nf).
    apply in_split in If. destruct If as (p1 & p2 & EP). apply in_map_iff in Nf. destruct Nf as (g & Eg & Ig).
    assert (EF' : w_cls w1 c1 = (pre ++ p1) ++ f' :: p2) by (rewrite EF, EP, <- app_assoc; reflexivity).
    pose proof (H1 g _ _ _ Ig EF' (eq_sym Eg)) as HU. rewrite app_length in HU. lia.
Qed.

Lemma class_evolves n c1 c2 vs its olds s : all3 (written n) (w_cls w1 c1) vs its -> compatible w1 w2 R c1 c2 -> Forall2 (fun g v => shape w2 (f_type g) v) (w_cls w2 c2) olds -> forall vi ni lead,
  Forall (fun x => ~ In (doc_name x) (names (w_cls w2 c2))) lead ->
  exists cs u, dfields w2 direct dn (w_cls w2 c2) olds (lead ++ its) s vi ni = Ok (cs, s, u) /\ turns (CCls c1) (CCls c2) (VList vs) (VList olds) (VList cs) /\
    (Forall (fun d => is_sc d = false) lead -> (direct = true -> tail_kept w1 w2 c1 c2) -> quiet direct (lead ++ its) u = true).
Proof.
  intros A ((N1 & N2) & (N3 & N4) & CF) FO vi ni lead LD.
  destruct (evolve_fields n _ _ _ lead A N2 _ olds s vi ni LD N3 CF FO) as (cs & u & D1 & D2 & _ & D4 & D5).
  exists cs, u. split; [exact D1|]. split; [constructor; [now split|exact D2]|]. intros LK TK. exact (class_quiet n c1 c2 vs its lead u A TK LK D4 D5).
Qed.

Lemma pos_written n nm : forall fs vs tab its tab' its' (fn : field -> bytes), emits (fun fv : field * cv => emit f w1 hp (f_type (fst fv)) (snd fv) (fn (fst fv))) (combine fs vs) tab = Ok (its, tab') ->
  Forall2 (fun g v => ok n (f_type g) v) fs vs -> Forall2 (like V nm) its its' ->
  all3 (fun fl v d' => ok n (f_type fl) v /\ exists tab d tab' k, emit f w1 hp (f_type fl) v k tab = Ok (d, tab') /\ like V nm d d') fs vs its'.
Proof.
  intros fs vs tab its tab' its' fn. revert vs tab its tab' its'. induction fs as [|x fs IHf]; intros vs tab its tab' its' H FV Q; inversion FV as [|? v ? vs' V1 V2]; subst; cbn [combine emits] in H.
  - injection H as <- <-. inversion Q; subst. constructor.
  - inv_bind H. destruct p as [d t1]. inv_bind H. destruct p as [ds t2]. injection H as <- <-. inversion Q as [|? d' ? ds' R1 R2]; subst. cbn [fst snd] in E. constructor; [|eauto].
    split; [exact V1|]. eauto 6.
Qed.

Lemma level : kept (S f).
Proof.
  intros n t1 t2 v nm name tab d tab' d' old s H O B SH L. pose proof EV as (EV1 & EV2 & _). inversion O as
    [t0 v0 LT SC LF|c vs FV|c vs FV|e vs FV|e vs FV PL SO|e vs FV|k e l FK FE PL SO|e l FE ND|a b x y Oa Ob|e x Ox NN|e x Ox NN|e SC|e x a EA LA|e x a EA LA|pu c vs FV RG LI]; subst; cbn [emit] in H.
  - (* leaves *)
    assert (Q : exists sv, leaf_value t1 v = Some sv /\ d = DVal name sv /\ tab' = tab).
    { destruct t1; try contradiction; destruct v; try discriminate H; [| | |inv_bind H; cbn [leaf_value]; rewrite E|]; injection H as <- <-; now eexists. }
    destruct Q as (sv & Q & -> & ->). inversion L as [? ? k' ? v' NK VV|]; subst. exists v. unfold dchild.
    inversion B as [t0 LT'|a b Ia Ib M1 M2| | | | | | | | | | | |]; subst; try contradiction.
    + rewrite (LEAF _ _ _ _ old SH LF Q VV). split; [reflexivity|now constructor].
    + destruct (INT a b v sv v' old Ia Ib M1 M2 LF Q VV) as [[z ->] ->]. split; [reflexivity|constructor].
  - (* class *)
    destruct (Nat.eqb _ _); [|discriminate]. inv_bind H. destruct p as [its tx]. injection H as <- <-. inversion L as [|? ? k' ? ? its' _ Q]; subst. cbn [ty_eqb] in Q.
    inversion B as [t0 LT'| |? c2 RC|? c2 U1 U2 FB| | | | | | | | | |]; subst; try contradiction; (inversion SH as [? ? X|? olds FO| | | |]; subst; [contradiction|]).
    + destruct (EV1 _ _ RC) as [CO TK]. pose proof (items_written n _ _ _ _ _ _ E FV Q) as A.
      destruct (class_evolves n c c2 vs its' olds s A CO FO 0 0 [] (Forall_nil _)) as (cs & u & D1 & D2 & D3). exists (VList cs). split; [|exact D2].
      eapply child_scope; [unfold dstep; cbn [is_scope negb app] in *; rewrite D1; reflexivity|]. exact (D3 (Forall_nil _) TK).
    + pose proof (pos_written n true _ _ _ _ _ _ f_name E FV Q) as A.
      destruct (pos_evolve n _ _ _ _ [] true olds s U2 FB A FO) as (cs & u & D1 & D2 & D3). exists (VList cs). split; [|now constructor].
      eapply child_scope; [unfold dstep; cbn [is_scope negb app count kind_items filter length Z.of_nat] in *; rewrite D1; reflexivity|]. cbn [app length] in D2. apply quiet_all. lia.
  - (* tuple *)
    destruct (Nat.eqb _ _); [|discriminate]. inv_bind H. destruct p as [its tx]. injection H as <- <-. inversion L as [|? ? k' ? ? its' _ Q]; subst.
    inversion B as [t0 LT'| | | |? c2 FB| | | | | | | | |]; subst; try contradiction. inversion SH as [? ? X| |? olds FO| | |]; subst; [contradiction|].
    pose proof (pos_written n _ _ _ _ _ _ _ (fun _ => []) E FV Q) as A.
    set (um := map (fun g => mkField [] false (f_type g)) (w_cls w2 c2)).
    assert (U2 : Forall (fun g => f_name g = [] /\ f_opt g = false) um) by (unfold um; clear; induction (w_cls w2 c2); cbn; constructor; auto).
    assert (FO' : Forall2 (fun g v => shape w2 (f_type g) v) um olds) by (unfold um; clear - FO; induction FO; cbn; constructor; auto).
    assert (FB' : Forall2 (fun fl g => becomes (f_type fl) (f_type g)) (w_cls w1 c) um) by (unfold um; clear - FB; induction FB; cbn; constructor; auto).
    destruct (pos_evolve n _ _ _ _ [] _ olds s U2 FB' A FO') as (cs & u & D1 & D2 & D3). exists (VList cs). split.
    + eapply child_scope; [unfold dstep; cbn [is_scope negb app count kind_items filter length Z.of_nat] in *; fold um; rewrite D1; reflexivity|]. cbn [app length] in D2. apply quiet_all. lia.
    + constructor. unfold um in D3. clear - D3. remember (map _ _) as gs eqn:EG. revert EG. generalize (w_cls w2 c2). induction D3 as [|fl g fs gs v vs o olds c0 cs T D IHd]; intros l EG; destruct l as [|g' l]; try discriminate EG; constructor; injection EG as -> ->; auto.
  - (* sequence *)
    inv_bind H. destruct p as [its tx]. injection H as <- <-. inversion L as [|? ? k' ? ? its' _ Q]; subst.
    inversion B as [t0 LT'| | | | |? b B'| | | | | | | |]; subst; try contradiction.
    destruct (elements n e b _ B' vs tab its tx its' (repeat (w_new w2 b) (length vs)) s (repeat_length _ _) (shape_repeat _ _) E FV Q) as (L1 & KK & cs & D1 & D2).
    apply all3_repeat in D2. rewrite <- L1 in D1. exists (VList cs). split; [|now constructor].
    eapply child_scope; [unfold dstep; cbn [is_scope negb]; rewrite (kind_all _ _ KK), (each_array _ _ _ _ _ _ _ D1); cbn [rbind]|now apply quiet_all].
    now rewrite fold_snoc.
  - (* set *)
    inv_bind H. destruct p as [its tx]. injection H as <- <-. inversion L as [|? ? k' ? ? its' _ Q]; subst.
    inversion B as [t0 LT'| | | | | |? LE| | | | | | |]; subst; try contradiction.
    destruct (elements n e e _ (bc_leaf _ _ _ e LE) vs tab its tx its' (repeat (w_new w2 e) (length vs)) s (repeat_length _ _) (shape_repeat _ _) E FV Q) as (L1 & KK & cs & D1 & D2).
    apply all3_repeat in D2. rewrite <- L1 in D1. assert (cs = vs). { clear - D2 LE. induction D2 as [|v c vs cs T _ IHt]; [reflexivity|]. f_equal; [exact (leaf_same e LE _ _ _ T)|exact IHt]. } subst cs.
    exists (VList vs). split; [|now constructor].
    eapply child_scope; [unfold dstep; cbn [is_scope negb]; rewrite (kind_all _ _ KK), (each_array _ _ _ _ _ _ _ D1); cbn [rbind]|now apply quiet_all].
    rewrite (emplace_all (w_lt w2) (fun v => v) vs []); [reflexivity|]. cbn [app]. rewrite map_id. intros i j p q Lij P1 P2. rewrite !EV2. now apply (SO i j).
  - (* array *)
    rewrite Nat.eqb_refl in H. inv_bind H. destruct p as [its tx]. injection H as <- <-. inversion L as [|? ? k' ? ? its' _ Q]; subst.
    inversion B as [t0 LT'| | | | | | | | |? ? b B'| | | |]; subst; try contradiction. inversion SH as [? ? X| | |? ? olds LO FO| |]; subst; [contradiction|].
    destruct (elements n e b _ B' vs tab its tx its' olds s LO FO E FV Q) as (L1 & KK & cs & D1 & D2).
    exists (VList cs). split; [|now constructor].
    eapply child_scope; [unfold dstep; cbn [is_scope negb]; rewrite (kind_all _ _ KK), LO, L1, Nat.eqb_refl; cbn [negb]; rewrite D1; reflexivity|]. apply quiet_all.
    rewrite <- L1. clear - KK. induction KK as [|x l Hx _ IHk]; cbn [upto length]; [lia|]. unfold of_kind at 1. rewrite Hx, Bool.eqb_reflx. lia.
  - (* map *)
    inv_bind H. destruct p as [its tx]. injection H as <- <-. inversion L as [|? ? k' ? ? its' _ Q]; subst.
    inversion B as [t0 LT'| | | | | | |? ? b LK B'| | | | | |]; subst; try contradiction.
    destruct (entries n k e b _ LK B' l tab its tx its' s E FK FE Q) as (KK & cs & D1 & D2 & D3).
    exists (VMap cs). split; [|now constructor].
    eapply child_scope; [unfold dstep; cbn [is_scope negb]; rewrite (kind_all _ _ KK), D1; cbn [rbind]|now apply quiet_all].
    rewrite (emplace_all (w_lt w2) fst cs []); [reflexivity|]. cbn [app]. rewrite D2. intros i j p q Lij P1 P2. rewrite !EV2. now apply (SO i j).
  - (* table *)
    inv_bind H. destruct p as [its tx]. injection H as <- <-. inversion L as [|? ? k' ? ? its' _ Q]; subst. cbn [ty_eqb] in Q.
    inversion B as [t0 LT'| | | | | | | |? b B'| | | | |]; subst; try contradiction.
    destruct (table n e b B' l tab its tx its' s E FE Q) as (KK & cs & D1 & D2 & D3).
    exists (VTab cs). split; [|now constructor].
    eapply child_scope; [unfold dstep; cbn [ty_eqb negb]; rewrite (kind_all _ _ KK), D1; cbn [rbind]|now apply quiet_all].
    rewrite (tab_all cs []); [reflexivity|]. cbn [app]. now rewrite D2.
  - (* pair *)
    inv_bind H. destruct p as [d1 tx]. inv_bind H. destruct p as [d2 ty0]. injection H as <- <-. inversion L as [|? ? k' ? ? its' _ Q]; subst. cbn [ty_eqb] in Q.
    inversion B as [t0 LT'| | | | | | | | | |? ? a' b' Ba Bb| | |]; subst; try contradiction. inversion SH as [? ? X| | | |? ? oa ob Sa Sb|]; subst; [contradiction|].
    destruct (two_items n a b a' b' str_first str_second x y _ _ _ _ _ its' oa ob s ltac:(discriminate) Ba Bb E E0 Oa Ob Sa Sb Q) as (cx & cy & A1 & A2 & A3 & A4 & A5).
    exists (VList [cx; cy]). split; [|now constructor].
    eapply child_scope; [unfold dstep; cbn [ty_eqb negb]; rewrite A1; cbn [rbind]; rewrite A2; reflexivity|]. apply quiet_all. rewrite A3. cbn. lia.
  - (* pointer *)
    inversion B as [t0 LT'| | | | | | | | | | |? b B'| |]; subst; try contradiction.
    destruct (IH _ _ _ _ _ _ _ _ _ _ (w_new w2 b) s H Ox B' (NEW b) L) as (c & C1 & C2). exists (VSome c). split; [|now constructor].
    destruct d' as [k' v'|k' ty its'].
    + cbn [dchild] in C1 |- *. inversion L as [? ? ? ? ? NK VV|]; subst. cbn [paste_value]. pose proof (proj2 (emit_head w1 hp lev leaf SOLID _ _ _ _ _ _ _ H) n Ox) as [_ NT]. specialize (NT NN). cbn [doc_type] in NT.
      replace (ty_eqb (v_type v') TNull) with false. 2:{ destruct (v_type v') eqn:Ev; try reflexivity. exfalso. apply NT. now apply (NULL _ _ VV). }
      inv_bind C1. rewrite E. cbn [rbind]. injection C1 as <-. reflexivity.
    + cbn [dchild] in C1 |- *. cbn [said dstep]. inv_bind C1. destruct p as [[c' s''] u]. rewrite E. cbn [rbind]. destruct (quiet direct its' u); [|discriminate]. injection C1 as <- <-. reflexivity.
  - (* unique pointer *)
    inversion B as [t0 LT'| | | | | | | | | | | |? b B'|]; subst; try contradiction.
    destruct (IH _ _ _ _ _ _ _ _ _ _ (w_new w2 b) s H Ox B' (NEW b) L) as (c & C1 & C2). exists (VSome c). split; [|now constructor].
    destruct d' as [k' v'|k' ty its'].
    + cbn [dchild] in C1 |- *. cbn [paste_value]. inv_bind C1. rewrite E. cbn [rbind]. injection C1 as <-. reflexivity.
    + cbn [dchild] in C1 |- *. cbn [said dstep]. inv_bind C1. destruct p as [[c' s''] u]. rewrite E. cbn [rbind]. destruct (quiet direct its' u); [|discriminate]. injection C1 as <- <-. reflexivity.
  - (* null pointer *)
    inversion B as [t0 LT'| | | | | | | | | | |? b B'| |]; subst; try contradiction.
    injection H as <- <-. inversion L as [? ? k' ? v' NK VV|]; subst. exists VNone. split; [|constructor]. cbn [dchild paste_value].
    replace (ty_eqb (v_type v') TNull) with true; [reflexivity|]. symmetry. pose proof (proj2 (NULL _ _ VV) eq_refl) as ->. reflexivity.
  - inversion B; subst; contradiction.
  - inversion B; subst; contradiction.
  - (* polymorphic class *)
    destruct (Nat.eqb _ _); [|discriminate]. inv_bind H. destruct p as [its tx]. injection H as <- <-. inversion L as [|? ? k' ? ? its0 _ Q]; subst. cbn [ty_eqb] in Q.
    inversion Q as [|? d0 ? its' R0 R1]; subst. inversion R0 as [? ? k0 ? v0 NK VV|]; subst. rewrite (NK eq_refl) in *. clear NK.
    inversion B as [t0 LT'| | | | | | | | | | | | |? u2 BP]; subst; try contradiction. destruct (BP c RG) as (c2 & RG2 & RC). destruct (EV1 _ _ RC) as [CO TK].
    destruct (TEXT _ _ LI VV) as (T1 & T2 & T3). destruct (proj2 REG2 _ _ _ RG2) as [_ N3].
    assert (SN : exists olds, w_new w2 (CCls c2) = VList olds /\ Forall2 (fun g v => shape w2 (f_type g) v) (w_cls w2 c2) olds).
    { pose proof (NEW (CCls c2)) as SN. inversion SN as [? ? X| | | | |]; subst; [contradiction|]. eauto. }
    destruct SN as (olds & EN & FO). pose proof (items_written n _ _ _ _ _ _ E FV R1) as A.
    assert (PR : Forall (fun y => ~ In (doc_name y) (names (w_cls w2 c2))) [DVal str_type_id v0]) by (constructor; [exact N3|constructor]).
    destruct (class_evolves n c c2 vs its' olds s A CO FO 1 0 [DVal str_type_id v0] PR) as (cs & u & D1 & D2 & D3).
    exists (VPoly c2 cs). split; [|constructor; [exact RG2|now rewrite EN]].
    eapply child_scope.
    + unfold dstep. cbn [is_scope negb app] in *. unfold select. pose proof (pick_named false str_type_id [] (DVal str_type_id v0) its' (Forall_nil _) eq_refl eq_refl) as PN. cbn [app length] in PN. rewrite PN. rewrite T1, T2, T3. cbn [ty_eqb negb andb]. rewrite RG2. cbn [rbind]. rewrite EN, D1. reflexivity.
    + specialize (D3 ltac:(constructor; [reflexivity|constructor]) TK). cbn [app] in D3. revert D3. unfold quiet. destruct direct; [|reflexivity]. cbn [negb orb]. clear. intros D3.
      destruct u as [|u]; [|exact D3]. cbn [Nat.max skipn forallb is_sc negb andb] in D3 |- *. exact D3.
Qed.
End Level.

Theorem all_kept : forall F, kept F.
Proof. induction F; [intros n t1 t2 v nm name tab d tab' d' old s H; discriminate H|now apply level]. Qed.

(** the root *)
Theorem evolves_says F n t1 t2 v nm name d tab' d' old s : stored_doc F w1 hp t1 v name [] = Ok (d, tab') -> ok n t1 v -> becomes_root w1 w2 R t1 t2 -> shape w2 t2 old -> like V nm d d' ->
  exists c, says F w2 direct t2 old d' s = Ok (c, s) /\ turns t1 t2 v old c.
Proof.
  intros H O [B|(c1 & c2 & -> & -> & CO)] SH L; unfold stored_doc in H.
  - unfold says. rewrite (becomes_scoped _ _ B). destruct (null_root t1 v); [discriminate|]. destruct (scoped t1) eqn:SC.
    + pose proof (ekind F _ _ _ _ _ _ _ _ _ H O L) as K. destruct (all_kept F _ _ _ _ _ _ _ _ _ _ old s H O B SH L) as (c & C1 & C2).
      exists c. split; [|exact C2]. destruct d' as [|k ty its]; [cbn in K; congruence|]. cbn [dchild] in C1. inv_bind C1. destruct p as [[c' s'] u]. rewrite E. cbn [rbind].
      destruct (quiet direct its u); [|discriminate]. injection C1 as <- <-. reflexivity.
    + inv_bind H. destruct p as [d1 tx]. injection H as <- <-. inversion L as [|? ? k' ? ? its' _ Q]; subst. cbn [ty_eqb] in Q. inversion Q as [|? d1' ? its0 R1 R2]; subst. inversion R2; subst.
      destruct (all_kept F _ _ _ _ _ _ _ _ _ _ old s E O B SH R1) as (c & C1 & C2).
      exists c. split; [|exact C2]. pose proof (ekind F _ _ _ _ _ _ _ _ _ E O R1) as K. rewrite <- (becomes_scoped _ _ B) in K.
      pose proof (at_pos F t2 old [] d1' [] s c s K C1) as FP. cbn [items app count kind_items filter length Z.of_nat] in FP |- *. rewrite FP. reflexivity.
  - cbn [null_root scoped] in H. destruct F as [|f]; [discriminate|]. cbn [emit] in H. destruct v as [z|z|vs|l|l| |x|a0|c0 vs]; try discriminate. destruct (Nat.eqb _ _); [|discriminate]. inv_bind H. destruct p as [its tx]. injection H as <- <-.
    inversion L as [|? ? k' ? ? its' _ Q]; subst. cbn [ty_eqb] in Q. inversion O as [? ? X|? ? FV| | | | | | | | | | | | |]; subst; [contradiction|]. inversion SH as [? ? X|? olds FO| | | |]; subst; [contradiction|].
    pose proof (items_written f n _ _ _ _ _ _ E FV Q) as A. destruct (class_evolves f (all_kept f) n c1 c2 vs its' olds s A CO FO 0 0 [] (Forall_nil _)) as (cs & u & D1 & D2 & _).
    exists (VList cs). split; [|exact D2]. unfold says. cbn [scoped said]. unfold dstep. cbn [is_scope negb app] in D1 |- *. rewrite D1. reflexivity.
Qed.
End Evolve.
