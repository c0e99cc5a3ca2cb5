(** Documents that agree say the same. *)
From Coq Require Import ZArith List Bool Lia ZifyBool ZifyNat Permutation.
From Verif Require Import Base Lemmas M_Types M_Conv M_TpTools M_Charset S_Doc M_Tree S_Tree M_Object S_Object S_Agree P_ObjEager P_ObjLazy.
Import ListNotations.
Open Scope Z_scope.

Lemma quiet_layout strict its its' u : map is_sc its = map is_sc its' -> quiet strict its u = quiet strict its' u.
Proof.
  intros H. unfold quiet. f_equal. revert its its' H. induction u as [|u IH]; intros its its' H.
  - cbn [skipn]. revert its' H. induction its as [|d its IH]; intros [|d' its'] H; try discriminate; [reflexivity|]. cbn in H. injection H as H1 H2. cbn [forallb]. now rewrite H1, (IH _ H2).
  - destruct its as [|d its], its' as [|d' its']; try discriminate; [reflexivity|]. cbn in H. injection H as _ H. cbn [skipn]. now apply IH.
Qed.
Lemma quiet_covered need its u : covered need its -> (forall f j e, In f need -> field_item f its = Some (j, e) -> (S j <= u)%nat) ->
  (forall f, In f need -> f_opt f = true -> field_item f its = None -> (length its <= u)%nat) -> quiet true its u = true.
Proof.
  intros C H1 H2. unfold quiet. cbn [negb orb]. apply forallb_forall. intros d I. apply In_nth_error in I. destruct I as [i E]. assert (E2 : nth_error its (u + i) = Some d).
  { clear - E. revert its E. induction u as [|u IH]; intros its E; [exact E|]. destruct its as [|x its]; [now destruct i|]. cbn [Nat.add nth_error]. apply IH. exact E. }
  destruct (is_sc d) eqn:S; [exfalso|reflexivity]. destruct (C _ _ E2 S) as [(f & j & e & I & F & L)|(f & I & O & F)].
  - specialize (H1 _ _ _ I F). lia.
  - specialize (H2 _ I O F). assert (u + i < length its)%nat by (apply nth_error_Some; congruence). lia.
Qed.


Lemma agree_shape w direct r T d d' : agree w direct r T d d' -> d' = d \/ exists k ty its its', d = DScope k ty its /\ d' = DScope k ty its'.
Proof. induction 1; eauto 10. Qed.
Lemma agree_kind w direct r T d d' : agree w direct r T d d' -> is_sc d' = is_sc d /\ doc_name d' = doc_name d.
Proof. intros H. destruct (agree_shape _ _ _ _ _ _ H) as [->|(k & ty & its & its' & -> & ->)]; now split. Qed.
Lemma agree_val w direct r T k v d' : agree w direct r T (DVal k v) d' -> d' = DVal k v.
Proof. intros H. destruct (agree_shape _ _ _ _ _ _ H) as [->|(n & ty & its & its' & E & _)]; [reflexivity|discriminate]. Qed.

Section Step.
Variables (w : world) (direct : bool) (dn : ct -> cv -> doc -> rstate -> res (cv * rstate * nat)).
Notation ag := (agree w direct).
Hypothesis IH : forall r t old d d' s v s' u, ag r (Of t) d d' -> dn t old d s = Ok (v, s', u) -> (r = false -> quiet direct (items d) u = true) ->
  exists u', dn t old d' s = Ok (v, s', u') /\ (r = false -> quiet direct (items d') u' = true).
Definition alike (f : field) (its its' : list doc) : Prop :=
  (field_item f its = None /\ field_item f its' = None) \/
  exists i j a b, field_item f its = Some (i, a) /\ field_item f its' = Some (j, b) /\ ag false (Of (f_type f)) a b.

Lemma agree_child t old d d' s x : ag false (Of t) d d' -> dchild w direct dn t old d s = Ok x -> dchild w direct dn t old d' s = Ok x.
Proof.
  intros A H. destruct (agree_shape _ _ _ _ _ _ A) as [->|(k & ty & its & its' & -> & ->)]; [exact H|]. cbn [dchild] in *.
  destruct (dn t old (DScope k ty its) s) as [[[v s'] u]| | |] eqn:E; try discriminate. cbn [rbind] in H. destruct (quiet direct its u) eqn:Q; [|discriminate].
  destruct (IH _ _ _ _ _ _ _ _ _ A E (fun _ => Q)) as (u' & E' & Q'). rewrite E'. cbn [rbind]. cbn [items] in Q'. now rewrite (Q' eq_refl).
Qed.
Lemma agree_field f old its its' s v s1 u1 : alike f its its' -> dfield w direct dn (f_type f) (IdName (f_name f)) old its s = Ok (v, s1, u1) ->
  exists i j a b, field_item f its = Some (i, a) /\ field_item f its' = Some (j, b) /\ u1 = S i /\
    dfield w direct dn (f_type f) (IdName (f_name f)) old its' s = Ok (v, s1, S j).
Proof.
  unfold dfield. intros [[A B]|(i & j & a & b & A & B & C)] H; unfold field_item in A, B; rewrite A in H; [discriminate|].
  destruct (dchild w direct dn (f_type f) old a s) as [[x s']| | |] eqn:E; try discriminate. cbn [rbind] in H. injection H as -> -> <-.
  exists i, j, a, b. unfold field_item. rewrite A, B. rewrite (agree_child _ _ _ _ _ _ C E). easy.
Qed.

Lemma agree_fields its its' : forall fs olds s vi ni vs s' u,
  Forall (fun f => 0 < zlen (f_name f)) fs -> (forall f, In f fs -> alike f its its') -> (direct = true -> unambiguous fs its') ->
  dfields w direct dn fs olds its s vi ni = Ok (vs, s', u) ->
  exists u', dfields w direct dn fs olds its' s vi ni = Ok (vs, s', u') /\
    (forall f j e, In f fs -> field_item f its' = Some (j, e) -> (S j <= u')%nat \/ (length its' <= u')%nat) /\
    (forall f, In f fs -> f_opt f = true -> field_item f its' = None -> (length its' <= u')%nat) /\
    (same_layout fs its its' -> u' = u).
Proof.
  induction fs as [|f fs IHf]; intros olds s vi ni vs s' u N A U H.
  - cbn [dfields] in *. injection H as <- <- <-. exists 0%nat. repeat split; try reflexivity; cbn [In]; tauto.
  - destruct olds as [|old olds]; [discriminate|]. inversion N as [|? ? N1 N2]; subst. cbn [dfields] in *.
    pose proof (A f (or_introl eq_refl)) as Af.
    assert (Ex : existsb (of_name (scoped (f_type f)) (f_name f)) its' = existsb (of_name (scoped (f_type f)) (f_name f)) its).
    { rewrite !existsb_match. destruct Af as [[B C]|(i & j & a & b & B & C & _)]; unfold field_item, select in B, C; now rewrite B, C. }
    destruct (f_opt f && direct && existsb (of_name (negb (scoped (f_type f))) (f_name f)) its) eqn:E1; [discriminate|].
    assert (E1' : f_opt f && direct && existsb (of_name (negb (scoped (f_type f))) (f_name f)) its' = false).
    { destruct (f_opt f) eqn:O; [|reflexivity]. destruct direct eqn:D; [|reflexivity]. cbn [andb]. apply (U eq_refl); [now left|exact O]. }
    rewrite E1', Ex. clear E1 E1'.
    assert (A2 : forall g, In g fs -> alike g its its') by (intros g I; apply A; now right).
    assert (U2 : direct = true -> unambiguous fs its') by (intros D g I; apply (U D); now right).
    assert (L2 : same_layout (f :: fs) its its' -> same_layout fs its its').
    { intros [M L]. split; [exact M|]. intros g j d j' d' I. apply L. now right. }
    destruct (f_opt f && negb (existsb (of_name (scoped (f_type f)) (f_name f)) its)) eqn:E2.
    + destruct (dfields w direct dn fs olds its s vi ni) as [[[vs1 s1] u1]| | |] eqn:E; try discriminate. cbn [rbind] in H. injection H as <- <- <-.
      destruct (IHf _ _ _ _ _ _ _ N2 A2 U2 E) as (u' & R & B1 & B2 & B3). rewrite R. cbn [rbind]. exists (length its'). split; [reflexivity|]. split; [|split].
      * intros; right; lia.
      * intros; lia.
      * intros [M _]. apply (f_equal (@length bool)) in M. rewrite !map_length in M. now symmetry.
    + apply Z.ltb_lt in N1. rewrite N1 in *.
      destruct (dfield w direct dn (f_type f) (IdName (f_name f)) old its s) as [[[v s1] u1]| | |] eqn:E; try discriminate. cbn [rbind] in H.
      destruct (agree_field _ _ _ _ _ _ _ _ Af E) as (i & j & a & b & F1 & F2 & -> & E'). rewrite E'. cbn [rbind].
      destruct (dfields w direct dn fs olds its s1 _ _) as [[[vs2 s2] u2]| | |] eqn:E3; try discriminate. cbn [rbind] in H. injection H as <- <- <-.
      destruct (IHf _ _ _ _ _ _ _ N2 A2 U2 E3) as (u' & R & B1 & B2 & B3). rewrite R. cbn [rbind]. exists (Nat.max (S j) u'). split; [reflexivity|]. split; [|split].
      * intros g x e [<-|I] G; [rewrite F2 in G; injection G as <- <-; left; lia|]. destruct (B1 _ _ _ I G); [left|right]; lia.
      * intros g [<-|I] O G; [rewrite F2 in G; discriminate|]. pose proof (B2 _ I O G). lia.
      * intros L. rewrite (B3 (L2 L)). destruct L as [_ L]. now rewrite (L f i a j b (or_introl eq_refl) F1 F2).
Qed.
Lemma field_lt f its j e : field_item f its = Some (j, e) -> (S j <= length its)%nat.
Proof. unfold field_item, select. intros H. apply nth_match_0 in H. destruct H as [H _]. assert (j < length its)%nat by (apply nth_error_Some; congruence). lia. Qed.

(** what has to be shown of the number of items needed *)
Lemma rec_quiet (r : bool) fs need its its' u u' :
  (direct = true -> unambiguous fs its' /\ (r = true \/ covered need its' \/ same_layout fs its its')) ->
  (r = false -> quiet direct its u = true) -> 
  (forall f j e, In f need -> field_item f its' = Some (j, e) -> (S j <= u')%nat) ->
  (forall f, In f need -> f_opt f = true -> field_item f its' = None -> (length its' <= u')%nat) ->
  (same_layout fs its its' -> u' = u) -> r = false -> quiet direct its' u' = true.
Proof.
  intros D Q B1 B2 B3 R. destruct direct eqn:Ed; [|reflexivity]. destruct (D eq_refl) as [_ [T|[C|L]]]; [congruence| |].
  - exact (quiet_covered _ _ _ C B1 B2).
  - rewrite (B3 L). destruct L as [M _]. rewrite <- (quiet_layout true its its' u M). now apply Q.
Qed.

Lemma agree_unnamed its its' (ts : list ct) :
  (forall e i, nth_error (filter (fun g => Bool.eqb (scoped g) (scoped e)) ts) i = Some e ->
     (select (scoped e) (IdPos (Z.of_nat i)) its = None /\ select (scoped e) (IdPos (Z.of_nat i)) its' = None) \/
     exists j a b, select (scoped e) (IdPos (Z.of_nat i)) its = Some (j, a) /\ select (scoped e) (IdPos (Z.of_nat i)) its' = Some (j, b) /\ ag false (Of e) a b) ->
  forall fs pre olds s vs s' u, Forall (fun f => f_name f = [] /\ f_opt f = false) fs -> pre ++ map f_type fs = ts ->
  dfields w direct dn fs olds its s (Z.of_nat (length (filter (fun g => Bool.eqb (scoped g) false) pre))) (Z.of_nat (length (filter (fun g => Bool.eqb (scoped g) true) pre))) = Ok (vs, s', u) ->
  dfields w direct dn fs olds its' s (Z.of_nat (length (filter (fun g => Bool.eqb (scoped g) false) pre))) (Z.of_nat (length (filter (fun g => Bool.eqb (scoped g) true) pre))) = Ok (vs, s', u).
Proof.
  intros A. induction fs as [|f fs IHf]; intros pre olds s vs s' u N E H; [exact H|].
  destruct olds as [|old olds]; [discriminate|]. inversion N as [|? ? [N1 N0] N2]; subst x l. cbn [dfields] in *. rewrite N0, N1 in *. cbn [andb zlen length Z.of_nat Z.ltb Z.compare] in *.
  set (vi := Z.of_nat (length (filter (fun g => Bool.eqb (scoped g) false) pre))) in *. set (ni := Z.of_nat (length (filter (fun g => Bool.eqb (scoped g) true) pre))) in *.
  destruct (dfield w direct dn (f_type f) _ old its s) as [[[v s1] u1]| | |] eqn:D; try discriminate. cbn [rbind] in H.
  assert (D' : dfield w direct dn (f_type f) (IdPos (if scoped (f_type f) then ni else vi)) old its' s = Ok (v, s1, u1)).
  { assert (I : (if scoped (f_type f) then ni else vi) = Z.of_nat (length (filter (fun g => Bool.eqb (scoped g) (scoped (f_type f))) pre))) by (subst vi ni; now destruct (scoped (f_type f))).
    rewrite I in *. specialize (A (f_type f) (length (filter (fun g => Bool.eqb (scoped g) (scoped (f_type f))) pre))). rewrite <- E, filter_app in A. cbn [map filter] in A.
    rewrite Bool.eqb_reflx, nth_error_app2, Nat.sub_diag in A by lia. unfold dfield in *. destruct (A eq_refl) as [[B C]|(j & a & b & B & C & AB)]; rewrite B in D; [discriminate|].
    rewrite C. destruct (dchild w direct dn (f_type f) old a s) as [[x s2]| | |] eqn:DC; try discriminate. cbn [rbind] in D. injection D as <- <- <-. now rewrite (agree_child _ _ _ _ _ _ AB DC). }
  rewrite D'. cbn [rbind].
  assert (V : (if scoped (f_type f) then vi else vi + 1) = Z.of_nat (length (filter (fun g => Bool.eqb (scoped g) false) (pre ++ [f_type f])))).
  { rewrite filter_app, app_length. cbn [filter]. subst vi. destruct (scoped (f_type f)); cbn [Bool.eqb length]; lia. }
  assert (W : (if scoped (f_type f) then ni + 1 else ni) = Z.of_nat (length (filter (fun g => Bool.eqb (scoped g) true) (pre ++ [f_type f])))).
  { rewrite filter_app, app_length. cbn [filter]. subst ni. destruct (scoped (f_type f)); cbn [Bool.eqb length]; lia. }
  rewrite V, W in *. destruct (dfields w direct dn fs olds its s1 _ _) as [[[vs2 s2] u2]| | |] eqn:E3; try discriminate.
  assert (Ep : (pre ++ [f_type f]) ++ map f_type fs = ts) by (rewrite <- E, <- app_assoc; reflexivity).
  now rewrite (IHf _ _ _ _ _ _ N2 Ep E3).
Qed.

Lemma agree_each {B} (R : doc -> doc -> Prop) (f : doc -> B -> rstate -> res (B * rstate)) : (forall d d' a s x, R d d' -> f d a s = Ok x -> f d' a s = Ok x) ->
  forall l l' acc s x, Forall2 R l l' -> deach f l acc s = Ok x -> deach f l' acc s = Ok x.
Proof.
  intros H l l' acc s x F. revert acc s x. induction F as [|d d' l l' D F IHl]; intros acc s x E; [exact E|]. cbn [deach] in *.
  destruct (f d acc s) as [[a1 s1]| | |] eqn:G; try discriminate. rewrite (H _ _ _ _ _ D G). cbn [rbind] in *. now apply IHl.
Qed.
Lemma agree_array e olds l l' s x : Forall2 (ag false (Of e)) l l' -> darray w direct dn e olds l s = Ok x -> darray w direct dn e olds l' s = Ok x.
Proof.
  intros F. revert olds s x. induction F as [|d d' l l' D F IHl]; intros [|old olds] s x E; try exact E. cbn [darray] in *.
  destruct (dchild w direct dn e old d s) as [[v s1]| | |] eqn:G; try discriminate. rewrite (agree_child _ _ _ _ _ _ D G). cbn [rbind] in *.
  destruct (darray w direct dn e olds l s1) as [[vs s2]| | |] eqn:K; try discriminate. now rewrite (IHl _ _ _ K).
Qed.
Lemma agree_elem {B} (add : cv -> B -> B) e d d' acc s x : ag false (Of e) d d' -> delem w direct dn add e d acc s = Ok x -> delem w direct dn add e d' acc s = Ok x.
Proof. unfold delem. intros A H. destruct (dchild w direct dn e _ d s) as [[v s1]| | |] eqn:G; try discriminate. now rewrite (agree_child _ _ _ _ _ _ A G). Qed.
Lemma agree_tab e d d' acc s x : ag false (Of e) d d' -> dtab w direct dn e d acc s = Ok x -> dtab w direct dn e d' acc s = Ok x.
Proof.
  unfold dtab. intros A H. destruct (dchild w direct dn e _ d s) as [[v s1]| | |] eqn:G; try discriminate. rewrite (agree_child _ _ _ _ _ _ A G).
  destruct (agree_kind _ _ _ _ _ _ A) as [_ N]. now rewrite N.
Qed.
Lemma agree_filter T sc l l' : Forall2 (ag false T) l l' -> Forall2 (ag false T) (kind_items sc l) (kind_items sc l') /\ map is_sc l = map is_sc l'.
Proof.
  unfold kind_items. induction 1 as [|d d' l l' D F [IH1 IH2]]; [split; [constructor|reflexivity]|]. destruct (agree_kind _ _ _ _ _ _ D) as [K _]. cbn [filter map]. assert (K2 : of_kind sc d' = of_kind sc d) by (unfold of_kind; now rewrite K). rewrite K2. split; [|congruence].
  destruct (of_kind sc d); [constructor|]; assumption.
Qed.
Lemma upto_layout sc : forall its its' n, map is_sc its = map is_sc its' -> upto sc n its = upto sc n its'.
Proof.
  induction its as [|d its IHi]; intros [|d' its'] n H; try discriminate; [reflexivity|]. cbn [map] in H. injection H as H1 H2. destruct n; [reflexivity|]. cbn [upto]. unfold of_kind. rewrite H1. f_equal. now apply IHi.
Qed.
Lemma quiet_all strict (its : list doc) : quiet strict its (length its) = true.
Proof. unfold quiet. rewrite skipn_all. apply orb_true_r. Qed.
Lemma rec_inv r fs need d d' : ag r (Rec fs need) d d' -> d' = d \/ exists k ty its its', d = DScope k ty its /\ d' = DScope k ty its' /\
  (forall f, In f fs -> alike f its its') /\ (direct = true -> unambiguous fs its' /\ (r = true \/ covered need its' \/ same_layout fs its its')).
Proof. intros H. inversion H; subst; [now left|]. right. do 4 eexists. do 2 (split; [reflexivity|]). split; assumption. Qed.

(** two members, one after the other *)
Lemma agree_two f g oa ob its its' s x s1 u1 y s2 u2 : alike f its its' -> alike g its its' ->
  dfield w direct dn (f_type f) (IdName (f_name f)) oa its s = Ok (x, s1, u1) -> dfield w direct dn (f_type g) (IdName (f_name g)) ob its s1 = Ok (y, s2, u2) ->
  exists u1' u2', dfield w direct dn (f_type f) (IdName (f_name f)) oa its' s = Ok (x, s1, u1') /\ dfield w direct dn (f_type g) (IdName (f_name g)) ob its' s1 = Ok (y, s2, u2') /\
    (forall h j e, In h [f; g] -> field_item h its' = Some (j, e) -> (S j <= Nat.max u1' u2')%nat) /\
    (forall h, In h [f; g] -> field_item h its' <> None) /\
    (forall fs, In f fs -> In g fs -> same_layout fs its its' -> Nat.max u1' u2' = Nat.max u1 u2).
Proof.
  intros A B H1 H2. destruct (agree_field _ _ _ _ _ _ _ _ A H1) as (i & j & a & b & F1 & F2 & -> & E1). destruct (agree_field _ _ _ _ _ _ _ _ B H2) as (i2 & j2 & a2 & b2 & G1 & G2 & -> & E2).
  exists (S j), (S j2). do 2 (split; [assumption|]). split; [|split].
  - intros h x0 e [<-|[<-|[]]] K; [rewrite F2 in K|rewrite G2 in K]; injection K as <- _; lia.
  - intros h [<-|[<-|[]]] K; congruence.
  - intros fs I1 I2 [_ L]. now rewrite (L _ _ _ _ _ I1 F1 F2), (L _ _ _ _ _ I2 G1 G2).
Qed.
Lemma agree_entry k e d d' acc s x : ag false (Rec [key_field k; value_field e] [key_field k; value_field e]) d d' ->
  dentry w direct dn k e d acc s = Ok x -> dentry w direct dn k e d' acc s = Ok x.
Proof.
  intros A H. destruct (rec_inv _ _ _ _ _ A) as [->|(n & ty & its & its' & -> & -> & P & D)]; [exact H|]. unfold dentry in *. cbn [items] in *.
  destruct (dfield w direct dn k (IdName str_key) (w_new w k) its s) as [[[key s1] u1]| | |] eqn:E1; try discriminate. cbn [rbind] in H.
  destruct (dfield w direct dn e (IdName str_value) (w_new w e) its s1) as [[[val s2] u2]| | |] eqn:E2; try discriminate. cbn [rbind] in H.
  destruct (quiet direct its (Nat.max u1 u2)) eqn:Q; [|discriminate].
  destruct (agree_two (key_field k) (value_field e) _ _ _ _ _ _ _ _ _ _ _ (P _ (or_introl eq_refl)) (P _ (or_intror (or_introl eq_refl))) E1 E2) as (u1' & u2' & F1 & F2 & B1 & B2 & B3).
  cbn [key_field value_field f_type f_name] in F1, F2. rewrite F1. cbn [rbind]. rewrite F2. cbn [rbind].
  rewrite (rec_quiet false _ _ its its' (Nat.max u1 u2) (Nat.max u1' u2') D (fun _ => Q)); auto.
  - intros f I _ K. now elim (B2 _ I).
  - intros L. refine (B3 _ _ _ L); cbn [In]; tauto.
Qed.

Lemma alike_members r fs need u0 its its' olds s vi vs s' u : Forall (fun f => 0 < zlen (f_name f)) fs -> (forall f, In f fs -> alike f its its') ->
  (direct = true -> unambiguous fs its' /\ (r = true \/ covered need its' \/ same_layout fs its its')) -> (need = fs) -> u0 = 0%nat ->
  dfields w direct dn fs olds its s vi 0 = Ok (vs, s', u) -> (r = false -> quiet direct its (Nat.max u0 u) = true) ->
  exists u', dfields w direct dn fs olds its' s vi 0 = Ok (vs, s', u') /\ (r = false -> quiet direct its' (Nat.max u0 u') = true).
Proof.
  intros N A D -> -> H Q. destruct (agree_fields its its' fs olds s vi 0 vs s' u N A (fun d => proj1 (D d)) H) as (u' & R & B1 & B2 & B3).
  exists u'. split; [exact R|]. cbn [Nat.max] in *. refine (rec_quiet r fs fs its its' u u' D Q _ B2 B3).
  intros f j e I F. destruct (B1 _ _ _ I F) as [L|L]; [exact L|]. pose proof (field_lt _ _ _ _ F). lia.
Qed.

Lemma agree_step r t old d d' k ty its its' s v s' u : d = DScope k ty its -> d' = DScope k ty its' -> ag r (Of t) d d' ->
  dstep w direct dn t old k ty its s = Ok (v, s', u) -> (r = false -> quiet direct its u = true) ->
  exists u', dstep w direct dn t old k ty its' s = Ok (v, s', u') /\ (r = false -> quiet direct its' u' = true).
Proof.
  intros Ed Ed' A H Q. inversion A as [r0 T d0|r0 fs need n ty0 i1 i2 Hp Hd|r0 c d0 d0' N A1|r0 a b d0 d0' A1|r0 t0 e d0 d0' T0 A1|r0 b0 n ty0 i1 i2 j kk vv c Sel Reg N A1|r0 t0 e d0 d0' T0 A1|r0 t0 e n ty0 i1 i2 T0 F|r0 a b n ty0 i1 i2 F|r0 t0 c n ty0 i1 i2 T0 M F]; subst; try discriminate.
  - repeat match goal with X : DScope _ _ _ = DScope _ _ _ |- _ => injection X; clear X; intros; subst end. now exists u.
  - (* class *) destruct (rec_inv _ _ _ _ _ A1) as [E|(n & ty0 & j1 & j2 & E1 & E2 & P & D)]; [injection E as ->; now exists u|]. injection E1 as <- <- <-. injection E2 as <-.
    cbn [dstep] in *. destruct (negb (is_scope ty)); [discriminate|]. destruct old as [| |olds| | | | | |]; try discriminate.
    destruct (dfields w direct dn (w_cls w c) olds its s 0 0) as [[[vs s1] u1]| | |] eqn:E; try discriminate. cbn [rbind] in H. injection H as <- <- <-.
    destruct (alike_members r _ _ 0 _ _ _ _ _ _ _ _ (proj1 N) P D eq_refl eq_refl E Q) as (u' & R & Q'). rewrite R. cbn [rbind]. eauto.
  - (* pair *) destruct (rec_inv _ _ _ _ _ A1) as [E|(n & ty0 & j1 & j2 & E1 & E2 & P & D)]; [injection E as ->; now exists u|]. injection E1 as <- <- <-. injection E2 as <-.
    cbn [dstep] in *. destruct (negb (ty_eqb ty TObject)); [discriminate|]. destruct old as [| |[|oa [|ob [|? ?]]]| | | | | |]; try discriminate.
    destruct (dfield w direct dn a (IdName str_first) oa its s) as [[[x s1] u1]| | |] eqn:E1; try discriminate. cbn [rbind] in H.
    destruct (dfield w direct dn b (IdName str_second) ob its s1) as [[[y s2] u2]| | |] eqn:E2; try discriminate. cbn [rbind] in H. injection H as <- <- <-.
    destruct (agree_two (first_field a) (second_field b) _ _ _ _ _ _ _ _ _ _ _ (P _ (or_introl eq_refl)) (P _ (or_intror (or_introl eq_refl))) E1 E2) as (u1' & u2' & F1 & F2 & B1 & B2 & B3).
    cbn [first_field second_field f_type f_name] in F1, F2. rewrite F1. cbn [rbind]. rewrite F2. cbn [rbind]. eexists. split; [reflexivity|].
    refine (rec_quiet r _ _ its its' (Nat.max u1 u2) (Nat.max u1' u2') D Q B1 _ _).
    + intros f I _ K. now elim (B2 _ I).
    + intros L. refine (B3 _ _ _ L); cbn [In]; tauto.
  - (* shared *) destruct (rec_inv _ _ _ _ _ A1) as [E|(n & ty0 & j1 & j2 & E1 & E2 & P & D)]; [injection E as ->; now exists u|]. injection E1 as <- <- <-. injection E2 as <-.
    pose proof (P _ (or_introl eq_refl)) as Pk. pose proof (P _ (or_intror (or_introl eq_refl))) as Pv.
    assert (St : forall i, dstep w direct dn t old k ty i s = dstep w direct dn (CShared e) old k ty i s) by (intros i; destruct T0 as [-> | ->]; reflexivity).
    rewrite St in *. clear St. cbn [dstep] in *.
    destruct (dfield w direct dn (CNum TUI64) (IdName str_shared_key) (VNum 0) its s) as [[[key s1] u1]| | |] eqn:E1; try discriminate. cbn [rbind] in H.
    destruct (agree_field shared_key_field _ _ _ _ _ _ _ Pk E1) as (i & j & a & b & F1 & F2 & -> & E1').
    cbn [shared_key_field f_type f_name] in E1'. rewrite E1'. cbn [rbind]. destruct key as [key| | | | | | | |]; try discriminate.
    assert (Bk : forall f x e0 y, In f [shared_key_field] -> field_item f its' = Some (x, e0) -> (S x <= Nat.max (S j) y)%nat).
    { intros f x e0 y [<-|[]] K. rewrite F2 in K. injection K as <- _. lia. }
    destruct (find_key key (r_tab s1)) as [a0|] eqn:Fk.
    + destruct (nth_error (r_heap s1) a0) as [[u0 x0]|]; [|discriminate]. destruct (ct_eqb u0 e); [|discriminate]. injection H as <- <- <-. eexists. split; [reflexivity|].
      refine (rec_quiet r _ _ its its' (S i) (S j) D Q _ _ _).
      * intros f x e0 I K. specialize (Bk f x e0 0%nat I K). lia.
      * intros f [<-|[]] O. discriminate.
      * intros [_ L]. now rewrite (L _ _ _ _ _ (or_introl eq_refl) F1 F2).
    + destruct (dfield w direct dn e (IdName str_shared_value) (w_new w e) its s1) as [[[y s2] u2]| | |] eqn:E2; try discriminate. cbn [rbind] in H. injection H as <- <- <-.
      destruct (agree_field (shared_value_field e) _ _ _ _ _ _ _ Pv E2) as (i2 & j2 & a2 & b2 & G1 & G2 & -> & E2').
      cbn [shared_value_field f_type f_name] in E2'. rewrite E2'. cbn [rbind]. eexists. split; [reflexivity|].
      refine (rec_quiet r _ _ its its' (Nat.max (S i) (S i2)) (Nat.max (S j) (S j2)) D Q _ _ _).
      * intros f x e0 I K. exact (Bk f x e0 _ I K).
      * intros f [<-|[]] O. discriminate.
      * intros [_ L]. now rewrite (L _ _ _ _ _ (or_introl eq_refl) F1 F2), (L _ _ _ _ _ (or_intror (or_introl eq_refl)) G1 G2).
  - (* poly *) repeat match goal with X : DScope _ _ _ = DScope _ _ _ |- _ => injection X; clear X; intros; subst end.
    destruct (rec_inv _ _ _ _ _ A1) as [E|(n & ty0 & j1 & j2 & E1 & E2 & P & D)]; [injection E as ->; now exists u|]. injection E1 as <- <- <-. injection E2 as <-.
    cbn [dstep] in *. destruct (negb (is_scope ty)); [discriminate|]. rewrite Sel in H. rewrite Reg in H. cbn [rbind] in H.
    assert (Pt : exists j', select false (IdName str_type_id) its' = Some (j', DVal kk vv)).
    { destruct (P _ (or_introl eq_refl)) as [[X _]|(i & j' & a & b & X & Y & Z)]; [change (select false (IdName str_type_id) its = None) in X|change (select false (IdName str_type_id) its = Some (i, a)) in X]; rewrite Sel in X; [discriminate|].
      injection X as <- <-. rewrite (agree_val _ _ _ _ _ _ _ Z) in Y. now exists j'. }
    destruct Pt as [j' Sel']. rewrite Sel', Reg. cbn [rbind].
    destruct (negb (ty_eqb (v_type vv) TString) && negb (ty_eqb (v_type vv) TBinary)); [discriminate|]. destruct (w_new w (CCls c)) as [| |olds| | | | | |]; try discriminate.
    destruct (dfields w direct dn (w_cls w c) olds its s 1 0) as [[[vs s1] u1]| | |] eqn:E; try discriminate. cbn [rbind] in H. injection H as <- <- <-.
    destruct (agree_fields its its' (w_cls w c) olds s 1 0 vs s1 u1 (proj1 N) (fun f I => P f (or_intror I)) (fun d f I => proj1 (D d) f (or_intror I)) E) as (u' & R & B1 & B2 & B3).
    rewrite R. cbn [rbind]. eexists. split; [reflexivity|].
    refine (rec_quiet r _ _ its its' _ _ D Q _ _ _).
    + intros f x e0 [<-|I] K.
      * change (select false (IdName str_type_id) its' = Some (x, e0)) in K. rewrite Sel' in K. injection K as <- _. lia.
      * pose proof (field_lt _ _ _ _ K). destruct (B1 _ _ _ I K); lia.
    + intros f [<-|I] O K; [discriminate|]. pose proof (B2 _ I O K). lia.
    + intros L. rewrite (B3 (conj (proj1 L) (fun f x d x' d' I => proj2 L f x d x' d' (or_intror I)))). now rewrite (proj2 L type_id_field _ _ _ _ (or_introl eq_refl) Sel Sel').
  - (* pointer *) assert (St : forall i, dstep w direct dn t old k ty i s = dstep w direct dn (CPtr e) old k ty i s) by (intros i; destruct T0 as [-> | ->]; reflexivity).
    rewrite St in *. cbn [dstep] in *. destruct (dn e (w_new w e) (DScope k ty its) s) as [[[x s1] u1]| | |] eqn:E; try discriminate. cbn [rbind] in H. injection H as <- <- <-.
    destruct (IH _ _ _ _ _ _ _ _ _ A1 E Q) as (u' & E' & Q'). rewrite E'. cbn [rbind]. eauto.
  - (* elements *) repeat match goal with X : DScope _ _ _ = DScope _ _ _ |- _ => injection X; clear X; intros; subst end.
    destruct (agree_filter _ (scoped e) _ _ F) as [F1 F2]. pose proof F2 as L. apply (f_equal (@length bool)) in L. rewrite !map_length in L.
    destruct t as [| | | | | |e0|e0| |e0|n e0| | | | | | |]; try contradiction; subst e0; cbn [dstep] in *.
    + destruct (negb (is_scope ty)); [discriminate|]. destruct (deach _ (kind_items (scoped e) its) [] s) as [[vs s1]| | |] eqn:E; try discriminate. cbn [rbind] in H. injection H as <- <- <-.
      rewrite (agree_each _ _ (fun d d' acc s x => agree_elem (fun v acc => acc ++ [v]) e d d' acc s x) _ _ _ _ _ F1 E). cbn [rbind]. eexists. split; [reflexivity|]. intros _. apply quiet_all.
    + destruct (negb (is_scope ty)); [discriminate|]. destruct (deach _ (kind_items (scoped e) its) [] s) as [[vs s1]| | |] eqn:E; try discriminate. cbn [rbind] in H. injection H as <- <- <-.
      rewrite (agree_each _ _ (fun d d' acc s x => agree_elem (emplace (w_lt w) (fun v => v)) e d d' acc s x) _ _ _ _ _ F1 E). cbn [rbind]. eexists. split; [reflexivity|]. intros _. apply quiet_all.
    + destruct (negb (ty_eqb ty TObject)); [discriminate|]. destruct (deach _ (kind_items (scoped e) its) [] s) as [[vs s1]| | |] eqn:E; try discriminate. cbn [rbind] in H. injection H as <- <- <-.
      rewrite (agree_each _ _ (fun d d' acc s x => agree_tab e d d' acc s x) _ _ _ _ _ F1 E). cbn [rbind]. eexists. split; [reflexivity|]. intros _. apply quiet_all.
    + destruct (negb (is_scope ty)); [discriminate|]. destruct old as [| |olds| | | | | |]; try discriminate. destruct (negb (Nat.eqb (length olds) n)); [discriminate|].
      assert (Lf : length (kind_items (scoped e) its') = length (kind_items (scoped e) its)) by (clear - F1; induction F1; cbn [length]; congruence). rewrite Lf.
      destruct (negb (Nat.eqb _ n)); [discriminate|]. destruct (darray w direct dn e olds _ s) as [[vs s1]| | |] eqn:E; try discriminate. cbn [rbind] in H. injection H as <- <- <-.
      rewrite (agree_array _ _ _ _ _ _ F1 E). cbn [rbind]. rewrite <- (upto_layout _ _ _ n F2). eexists. split; [reflexivity|]. intros R. rewrite <- (quiet_layout _ _ _ _ F2). auto.
  - (* map *) repeat match goal with X : DScope _ _ _ = DScope _ _ _ |- _ => injection X; clear X; intros; subst end.
    destruct (agree_filter _ true _ _ F) as [F1 F2]. cbn [dstep] in *. destruct (negb (is_scope ty)); [discriminate|].
    destruct (deach _ (kind_items true its) [] s) as [[vs s1]| | |] eqn:E; try discriminate. cbn [rbind] in H. injection H as <- <- <-.
    rewrite (agree_each _ _ (fun d d' acc s x => agree_entry a b d d' acc s x) _ _ _ _ _ F1 E). cbn [rbind]. eexists. split; [reflexivity|]. intros _. apply quiet_all.
  - (* tuple *) repeat match goal with X : DScope _ _ _ = DScope _ _ _ |- _ => injection X; clear X; intros; subst end.
    assert (St : exists fs, (forall i, dstep w direct dn t old k ty i s = if negb (is_scope ty) then Err else
        match old with VList olds => let* (vs, s', u) := dfields w direct dn fs olds i s 0 0 in Ok (VList vs, s', Nat.max 0 u) | _ => Err end) /\
        Forall (fun f => f_name f = [] /\ f_opt f = false) fs /\ map f_type fs = map f_type (w_cls w c)).
    { destruct T0 as [->|[-> N]].
      - exists (map (fun f => mkField [] false (f_type f)) (w_cls w c)). split; [reflexivity|]. split; [|now rewrite map_map]. apply Forall_forall. intros f I. apply in_map_iff in I. destruct I as (g & <- & _). now split.
      - exists (w_cls w c). split; [reflexivity|]. now split. }
    destruct St as (fs & St & N & Ts). rewrite St in *. destruct (negb (is_scope ty)); [discriminate|]. destruct old as [| |olds| | | | | |]; try discriminate.
    destruct (dfields w direct dn fs olds its s 0 0) as [[[vs s1] u1]| | |] eqn:E; try discriminate. cbn [rbind] in H. injection H as <- <- <-.
    rewrite <- Ts in F. assert (E' : dfields w direct dn fs olds its' s 0 0 = Ok (vs, s1, u1)) by exact (agree_unnamed its its' (map f_type fs) F fs [] olds s vs s1 u1 N eq_refl E).
    rewrite E'. cbn [rbind]. eexists. split; [reflexivity|].
    intros R. rewrite <- (quiet_layout _ _ _ _ M). auto.
Qed.
End Step.

(** documents that agree say the same *)
Theorem agree_said w direct : forall F r t old d d' s v s' u, agree w direct r (Of t) d d' -> said F w direct t old d s = Ok (v, s', u) ->
  (r = false -> quiet direct (items d) u = true) -> exists u', said F w direct t old d' s = Ok (v, s', u') /\ (r = false -> quiet direct (items d') u' = true).
Proof.
  induction F as [|F IHF]; intros r t old d d' s v s' u A H Q; [discriminate|]. destruct (agree_shape _ _ _ _ _ _ A) as [->|(k & ty & its & its' & -> & ->)]; [now exists u|].
  cbn [said items] in *. exact (agree_step w direct (said F w direct) IHF r t old _ _ k ty its its' s v s' u eq_refl eq_refl A H Q).
Qed.
Theorem agree_says w direct F t old d d' s x : scoped t = true -> agree w direct true (Of t) d d' -> says F w direct t old d s = Ok x -> says F w direct t old d' s = Ok x.
Proof.
  intros Sc A H. unfold says in *. rewrite Sc in *. destruct (said F w direct t old d s) as [[[v s'] u]| | |] eqn:E; try discriminate. cbn [rbind] in H. 
  destruct (agree_said w direct F true t old d d' s v s' u A E) as (u' & E' & _); [discriminate|]. now rewrite E'.
Qed.
