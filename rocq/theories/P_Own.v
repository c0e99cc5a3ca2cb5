(** Which restored objects survive the tree. *)
From Coq Require Import ZArith List Bool Arith Lia Permutation.
From Verif Require Import Base Lemmas M_Types M_In S_Doc M_Tree M_Object S_Object S_ObjStore M_ObjIO S_ObjIO S_Agree S_Own M_Own P_ObjIO P_ObjFit P_ObjPart P_Cycle P_ObjSafe P_NoCycle P_ObjStore.
Import ListNotations.

(** * Counting *)
Section Count.
Variable held : nat -> list nat.
Variable n : nat.
Variable roots : list nat.
Hypothesis down : forall a b, In a (held b) -> (a < b)%nat.
Hypothesis outside : forall b, (n <= b)%nat -> held b = [].

Inductive reaches : nat -> Prop :=
| re_root a : In a roots -> reaches a
| re_next a b : reaches b -> In a (held b) -> reaches a.

Definition gone (D : list nat) (b : nat) : bool := if in_dec Nat.eq_dec b D then true else false.
Definition living (D : list nat) : list nat := flat_map held (filter (fun b => negb (gone D b)) (seq 0 n)).
Local Notation occ := (count_occ Nat.eq_dec).

Lemma filter_one : forall D a (l : list nat), NoDup l -> In a l -> ~ In a D ->
  Permutation (filter (fun b => negb (gone D b)) l) (a :: filter (fun b => negb (gone (a :: D) b)) l).
Proof.
  intros D a. induction l as [|x l IH]; intros ND I N; [destruct I|]. inversion ND as [|? ? N1 ND1]; subst. cbn [filter].
  destruct I as [->|I].
  - assert (G1 : gone D a = false) by (unfold gone; destruct (in_dec Nat.eq_dec a D); [contradiction|auto]).
    assert (G2 : gone (a :: D) a = true) by (unfold gone; destruct (in_dec Nat.eq_dec a (a :: D)) as [|X]; [auto|exfalso; apply X; now left]).
    rewrite G1, G2. cbn [negb]. apply perm_skip.
    assert (E : filter (fun b => negb (gone D b)) l = filter (fun b => negb (gone (a :: D) b)) l).
    { apply filter_ext_in. intros b Ib. f_equal. unfold gone. destruct (in_dec Nat.eq_dec b D) as [X|X], (in_dec Nat.eq_dec b (a :: D)) as [Y|Y]; auto.
      - exfalso. apply Y. now right.
      - destruct Y as [->|Y]; [|contradiction]. contradiction. }
    rewrite E. auto.
  - assert (Ne : x <> a) by (intros ->; contradiction).
    assert (G : gone (a :: D) x = gone D x).
    { unfold gone. destruct (in_dec Nat.eq_dec x D) as [X|X], (in_dec Nat.eq_dec x (a :: D)) as [Y|Y]; auto.
      - exfalso. apply Y. now right.
      - destruct Y as [Y|Y]; [congruence|contradiction]. }
    rewrite G. destruct (gone D x); cbn [negb]; [now apply IH|].
    rewrite (IH ND1 I N). apply perm_swap.
Qed.
Lemma living_one D a : ~ In a D -> Permutation (living D) (held a ++ living (a :: D)).
Proof.
  intros N. destruct (Nat.lt_ge_cases a n) as [L|L].
  - unfold living. rewrite (Permutation_flat_map held (filter_one D a (seq 0 n) (seq_NoDup n 0) ltac:(apply in_seq; lia) N)). reflexivity.
  - rewrite (outside a L). cbn [app]. unfold living.
    assert (E : filter (fun b => negb (gone D b)) (seq 0 n) = filter (fun b => negb (gone (a :: D) b)) (seq 0 n)).
    { apply filter_ext_in. intros b Ib. apply in_seq in Ib. f_equal. unfold gone. destruct (in_dec Nat.eq_dec b D) as [X|X], (in_dec Nat.eq_dec b (a :: D)) as [Y|Y]; auto.
      - exfalso. apply Y. now right.
      - destruct Y as [Y|Y]; [lia|contradiction]. }
    now rewrite E.
Qed.

Record good (work : list nat) (cnt : nat -> nat) (D : list nat) : Prop := mkGood {
  g_cnt : forall a, cnt a = occ (roots ++ living D ++ work) a;
  g_dead : forall a, In a D -> cnt a = 0%nat;
  g_live : forall a, (a < n)%nat -> ~ In a D -> (0 < cnt a)%nat }.

Lemma set_same cnt a k : set_count cnt a k a = k. Proof. unfold set_count. now rewrite Nat.eqb_refl. Qed.
Lemma set_other cnt a k b : b <> a -> set_count cnt a k b = cnt b. Proof. unfold set_count. intros H. apply Nat.eqb_neq in H. now rewrite H. Qed.

Lemma release_good : forall fuel work cnt D, good work cnt D -> (length (work ++ living D) < fuel)%nat ->
  exists D' cnt', release held fuel work cnt D = Ok D' /\ good [] cnt' D'.
Proof.
  induction fuel as [|fuel IH]; intros work cnt D [GC GD GL] L; [lia|]. cbn [release]. destruct work as [|a r].
  - exists D, cnt. split; [auto|now constructor].
  - assert (C : cnt a = (occ (roots ++ living D ++ r) a + 1)%nat).
    { rewrite GC, !count_occ_app. cbn [count_occ]. destruct (Nat.eq_dec a a); [lia|congruence]. }
    destruct (cnt a) as [|[|k]] eqn:Ca; [lia| |].
    + assert (Na : ~ In a D) by (intros X; apply GD in X; congruence). pose proof (living_one D a Na) as PL.
      apply IH.
      * constructor.
        -- intros b. destruct (Nat.eq_dec b a) as [->|Ne].
           ++ rewrite set_same. assert (Z : occ (roots ++ living D ++ r) a = 0%nat) by lia. rewrite !count_occ_app in *.
              pose proof (proj1 (Permutation_count_occ Nat.eq_dec _ _) PL a) as Q. rewrite count_occ_app in Q. lia.
           ++ rewrite set_other by auto. rewrite GC, !count_occ_app. cbn [count_occ]. destruct (Nat.eq_dec a b); [congruence|].
              pose proof (proj1 (Permutation_count_occ Nat.eq_dec _ _) PL b) as Q. rewrite count_occ_app in Q. lia.
        -- intros b [<-|I]; [apply set_same|]. rewrite set_other by (intros ->; contradiction). auto.
        -- intros b B N. rewrite set_other by (intros ->; apply N; now left). apply GL; auto. intros X. apply N. now right.
      * apply Permutation_length in PL. rewrite !app_length in *. cbn [length] in L. lia.
    + apply IH.
      * constructor.
        -- intros b. destruct (Nat.eq_dec b a) as [->|Ne].
           ++ rewrite set_same. lia.
           ++ rewrite set_other by auto. rewrite GC, !count_occ_app. cbn [count_occ]. destruct (Nat.eq_dec a b); [congruence|]. lia.
        -- intros b I. destruct (Nat.eq_dec b a) as [->|Ne]; [apply GD in I; congruence|]. rewrite set_other by auto. auto.
        -- intros b B N. destruct (Nat.eq_dec b a) as [->|Ne]; [rewrite set_same; lia|]. rewrite set_other by auto. auto.
      * rewrite !app_length in *. cbn [length] in L. lia.
Qed.
Lemma gone_in D b : gone D b = true <-> In b D.
Proof. unfold gone. destruct (in_dec Nat.eq_dec b D); split; auto; discriminate. Qed.
Lemma living_in D a : In a (living D) <-> exists b, (b < n)%nat /\ ~ In b D /\ In a (held b).
Proof.
  unfold living. rewrite in_flat_map. split.
  - intros (b & I & H). apply filter_In in I as [I1 I2]. apply in_seq in I1. exists b. split; [lia|]. split; auto. intros X. apply gone_in in X. rewrite X in I2. discriminate.
  - intros (b & L & N & H). exists b. split; auto. apply filter_In. split; [apply in_seq; lia|]. destruct (gone D b) eqn:G; auto. apply gone_in in G. contradiction.
Qed.
Lemma good_end cnt D : good [] cnt D -> forall a, (a < n)%nat -> (In a D <-> ~ reaches a).
Proof.
  intros [GC GD GL].
  assert (NR : forall a, reaches a -> ~ In a D).
  { intros a R. induction R as [a I|a b R IH I]; intros X; apply GD in X; rewrite GC in X.
    - assert (In a (roots ++ living D ++ [])) by (apply in_or_app; now left). apply (count_occ_In Nat.eq_dec) in H. lia.
    - destruct (Nat.lt_ge_cases b n) as [L|L]; [|rewrite (outside b L) in I; destruct I].
      assert (In a (roots ++ living D ++ [])). { apply in_or_app. right. rewrite app_nil_r. apply living_in. eauto. }
      apply (count_occ_In Nat.eq_dec) in H. lia. }
  assert (RD : forall k a, (n - a <= k)%nat -> (a < n)%nat -> ~ reaches a -> In a D).
  { induction k as [|k IH]; intros a Hk L N; [lia|]. destruct (in_dec Nat.eq_dec a D) as [I|I]; auto. exfalso.
    pose proof (GL a L I) as P. rewrite GC in P. apply (count_occ_In Nat.eq_dec) in P. rewrite app_nil_r in P. apply in_app_or in P as [P|P].
    - apply N. now constructor.
    - apply living_in in P as (b & Lb & Nb & Ib). apply Nb. apply IH; auto.
      + apply down in Ib. lia.
      + intros R. apply N. eapply re_next; eauto. }
  intros a L. split; [intros I R; exact (NR a R I)|]. intros N. eapply RD; eauto.
Qed.
End Count.


Definition field_refs (w : world) : list ct -> list cv -> list nat :=
  fix fields fs vs {struct vs} := match fs, vs with f :: fs', x :: vs' => strong w f x ++ fields fs' vs' | _, _ => [] end.
Lemma field_refs_in w a : forall fs vs, In a (field_refs w fs vs) <-> exists i f x, nth_error fs i = Some f /\ nth_error vs i = Some x /\ In a (strong w f x).
Proof.
  induction fs as [|f fs IH]; intros [|x vs].
  - split; [intros []|intros ([|i] & f & x & E & _); discriminate E].
  - split; [intros []|intros ([|i] & f & y & E & _); discriminate E].
  - split; [intros []|intros ([|i] & g & y & _ & E & _); discriminate E].
  - cbn [field_refs]. rewrite in_app_iff, IH. split.
    + intros [I|(i & g & y & A & B & C)]; [now exists 0%nat, f, x|now exists (S i), g, y].
    + intros ([|i] & g & y & A & B & C); cbn [nth_error] in A, B; [injection A as <-; injection B as <-; now left|right; now exists i, g, y].
Qed.
Lemma in_flat_nth {A} (g : A -> list nat) a l : In a (flat_map g l) <-> exists i x, nth_error l i = Some x /\ In a (g x).
Proof.
  rewrite in_flat_map. split.
  - intros (x & I & H). apply In_nth_error in I as [i E]. eauto.
  - intros (i & x & E & H). apply nth_error_In in E. eauto.
Qed.
(** the shared pointers of an object are its own and those of its parts *)
Ltac own_case := match goal with W : forall P Q, _ -> _ -> _ -> _ |- _ <-> (exists e, ?t = _ /\ ?v = _) \/ _ => 
  match goal with |- context [own_into ?w ?hp] => apply (W (fun s t' x => own_into w hp (t, v) s = Some (t', x))); [intros b X; discriminate X| |intros s t' x; reflexivity] end end.
Lemma strong_step w hp a t v : In a (strong w t v) <-> (exists e, t = CShared e /\ v = VRef a) \/
  (exists s t' x, (forall b, v <> VRef b) /\ own_into w hp (t, v) s = Some (t', x) /\ In a (strong w t' x)).
Proof.
  assert (FL : forall fs vs, In a (field_refs w fs vs) <-> exists s t' x, match s with Item i => match nth_error fs i, nth_error vs i with Some f, Some x => Some (f, x) | _, _ => None end | _ => None end = Some (t', x) /\ In a (strong w t' x)).
  { intros fs vs. rewrite field_refs_in. split.
    - intros (i & f & x & A & B & C). exists (Item i), f, x. rewrite A, B. auto.
    - intros ([i|i|i|] & f & x & A & C); try discriminate A. exists i. destruct (nth_error fs i) as [g|]; [|discriminate A]. destruct (nth_error vs i) as [y|]; [|discriminate A]. injection A as -> ->. now eauto 6. }
  assert (SQ : forall e vs, In a (flat_map (strong w e) vs) <-> exists s t' x, match s with Item i => option_map (fun x => (e, x)) (nth_error vs i) | _ => None end = Some (t', x) /\ In a (strong w t' x)).
  { intros e vs. rewrite in_flat_nth. split.
    - intros (i & x & A & C). exists (Item i), e, x. rewrite A. auto.
    - intros ([i|i|i|] & f & x & A & C); try discriminate A. exists i. destruct (nth_error vs i) as [y|]; [|discriminate A]. injection A as -> ->. now eauto 6. }
  assert (W : forall (P : way -> ct -> cv -> Prop) (Q : Prop), (forall b, v <> VRef b) -> (Q <-> exists s t' x, P s t' x /\ In a (strong w t' x)) ->
     (forall s t' x, P s t' x <-> own_into w hp (t, v) s = Some (t', x)) -> 
     (Q <-> (exists e, t = CShared e /\ v = VRef a) \/ (exists s t' x, (forall b, v <> VRef b) /\ own_into w hp (t, v) s = Some (t', x) /\ In a (strong w t' x)))).
  { intros P Q N H X. rewrite H. split.
    - intros (s & t' & x & A & B). right. exists s, t', x. apply X in A. auto.
    - intros [(e & _ & E)|(s & t' & x & _ & A & B)]; [destruct (N _ E)|]. exists s, t', x. apply X in A. auto. }
  assert (NO : (forall b, v <> VRef b) -> (forall s, own_into w hp (t, v) s = None) -> (In a [] <-> (exists e, t = CShared e /\ v = VRef a) \/ (exists s t' x, (forall b, v <> VRef b) /\ own_into w hp (t, v) s = Some (t', x) /\ In a (strong w t' x)))).
  { intros N H. split; [intros []|]. intros [(e & _ & E)|(s & t' & x & _ & A & B)]; [destruct (N _ E)|]. rewrite H in A. discriminate. }
  assert (RF : forall b, v = VRef b -> (forall e, t <> CShared e) -> (In a [] <-> (exists e, t = CShared e /\ v = VRef a) \/ (exists s t' x, (forall b, v <> VRef b) /\ own_into w hp (t, v) s = Some (t', x) /\ In a (strong w t' x)))).
  { intros b E N. split; [intros []|]. intros [(e & X & _)|(s & t' & x & X & _)]; [destruct (N _ X)|destruct (X _ E)]. }
  destruct v as [k|bs|vs|l|l| |v|b|c vs]; destruct t as [ty|en|en|en z| |cc|e|e|k2 e|e|z e|ta tb|cc|e|e|e|e|u]; cbn [strong];
    try (apply NO; [intros b X; discriminate X|intros [i|i|i|]; reflexivity]);
    try (apply (RF b); [reflexivity|intros e0 X; discriminate X]).
  - own_case; exact (FL (map f_type (w_cls w cc)) vs).
  - own_case; exact (SQ _ _).
  - own_case; exact (SQ _ _).
  - own_case; exact (SQ _ _).
  - own_case; exact (FL [ta; tb] vs).
  - own_case; exact (FL (map f_type (w_cls w cc)) vs).
  - eapply (W (fun s t' x => own_into w hp (CMap k2 e, VMap l) s = Some (t', x))); [intros b X; discriminate X| |reflexivity]. rewrite in_flat_nth. split.
    + intros (i & [x y] & A & C). apply in_app_or in C as [C|C]; [exists (Key i), k2, x|exists (Val i), e, y]; cbn [own_into]; rewrite A; auto.
    + intros ([i|i|i|] & t' & x & A & C); cbn [own_into] in A; try discriminate A; exists i; (destruct (nth_error l i) as [[y z]|]; [|discriminate A]); injection A as <- <-; exists (y, z); (split; [auto|]); apply in_or_app; auto.
  - eapply (W (fun s t' x => own_into w hp (CTab e, VTab l) s = Some (t', x))); [intros b X; discriminate X| |reflexivity]. rewrite in_flat_nth. split.
    + intros (i & [x y] & A & C). exists (Val i), e, y; cbn [own_into]; rewrite A; auto.
    + intros ([i|i|i|] & t' & x & A & C); cbn [own_into] in A; try discriminate A; exists i; (destruct (nth_error l i) as [[y z]|]; [|discriminate A]); injection A as <- <-; exists (y, z); auto.
  - eapply (W (fun s t' x => own_into w hp (CPtr e, VSome v) s = Some (t', x))); [intros b X; discriminate X| |reflexivity]. split.
    + intros C. exists Target, e, v. auto.
    + intros ([i|i|i|] & t' & x & A & C); cbn [own_into] in A; try discriminate A; injection A as <- <-; auto.
  - eapply (W (fun s t' x => own_into w hp (CUniq e, VSome v) s = Some (t', x))); [intros b X; discriminate X| |reflexivity]. split.
    + intros C. exists Target, e, v. auto.
    + intros ([i|i|i|] & t' & x & A & C); cbn [own_into] in A; try discriminate A; injection A as <- <-; auto.
  - split.
    + intros [<-|[]]. left. eauto.
    + intros [(e0 & _ & E)|(s & t' & x & X & _)]; [injection E as ->; now left|destruct (X _ eq_refl)].
  - own_case; exact (FL (map f_type (w_cls w c)) vs).
Qed.
Lemma own_into_into w hp t v s t' x : own_into w hp (t, v) s = Some (t', x) -> into hp v s = Some x.
Proof.
  assert (FL : forall fs vs i, match nth_error fs i, nth_error vs i with Some f, Some x => Some (f, x) | _, _ => None end = Some (t', x) -> nth_error vs i = Some x).
  { intros fs vs i E. destruct (nth_error fs i); [|discriminate E]. destruct (nth_error vs i); [|discriminate E]. now injection E as _ ->. }
  intros E. destruct v as [k|bs|vs|l|l| |v|b|c vs]; destruct t as [ty|en|en|en z| |cc|e|e|k2 e|e|z e|ta tb|cc|e|e|e|e|u]; destruct s as [i|i|i|]; cbn [own_into into] in *;
    try discriminate E; try (exact (FL _ _ _ E)); try (destruct (nth_error _ _) as [y|]; [|discriminate E]; injection E as <- <-; reflexivity); try (now injection E as <- <-).
  rewrite E. reflexivity.
Qed.
Lemma own_part_app w hp : forall p q a b c, own_part w hp a p = Some b -> own_part w hp b q = Some c -> own_part w hp a (p ++ q) = Some c.
Proof.
  induction p as [|s p IH]; intros q a b c E1 E2; cbn [own_part app] in *; [now injection E1 as ->|]. destruct (own_into w hp a s); [|discriminate E1]. now apply (IH q _ b).
Qed.
(** a part reached without a shared pointer is smaller *)
Lemma part_ind (P : cv -> Prop) : (forall v, (forall s x, (forall b, v <> VRef b) -> into [] v s = Some x -> P x) -> P v) -> forall v, P v.
Proof.
  intros H. apply cv_ind2; intros; apply H; intros ss xx N E; destruct ss; cbn [into] in E; try discriminate E.
  - rewrite Forall_forall in H0. apply H0. eapply nth_error_In; eauto.
  - destruct (nth_error l i) as [q|] eqn:Q; [|discriminate E]. injection E as <-. rewrite Forall_forall in H0. apply H0. apply in_map. eapply nth_error_In; eauto.
  - destruct (nth_error l i) as [q|] eqn:Q; [|discriminate E]. injection E as <-. rewrite Forall_forall in H1. apply H1. apply in_map. eapply nth_error_In; eauto.
  - destruct (nth_error l i) as [q|] eqn:Q; [|discriminate E]. injection E as <-. rewrite Forall_forall in H0. apply H0. apply in_map. eapply nth_error_In; eauto.
  - now injection E as <-.
  - destruct a; discriminate E.
  - rewrite Forall_forall in H0. apply H0. eapply nth_error_In; eauto.
Qed.
Lemma into_local hp v s : (forall b, v <> VRef b) -> into hp v s = into [] v s.
Proof. intros N. destruct v, s; try reflexivity. destruct (N a eq_refl). Qed.
Lemma strong_owned w hp a : forall v t, In a (strong w t v) -> owned w hp t v a.
Proof.
  apply (part_ind (fun v => forall t, In a (strong w t v) -> owned w hp t v a)). intros v IH t I. apply (strong_step w hp) in I as [(e & -> & ->)|(s & t' & x & N & E & I)].
  - now exists [], e.
  - pose proof (own_into_into _ _ _ _ _ _ _ E) as X. rewrite into_local in X by auto. destruct (IH s x N X t' I) as (p & e & Q). exists (s :: p), e. cbn [own_part]. now rewrite E.
Qed.
Lemma strong_bounded w a n : forall v t, bounded n v -> In a (strong w t v) -> (a < n)%nat.
Proof.
  apply (part_ind (fun v => forall t, bounded n v -> In a (strong w t v) -> (a < n)%nat)). intros v IH t B I. apply (strong_step w []) in I as [(e & -> & ->)|(s & t' & x & N & E & I)].
  - exact B.
  - pose proof (own_into_into _ _ _ _ _ _ _ E) as X. apply (IH s x N X t'); auto. clear - B X N. destruct v, s; try discriminate X; cbn [into] in X.
    + apply bounded_list in B. rewrite Forall_forall in B. apply B. eapply nth_error_In; eauto.
    + apply bounded_map in B. destruct (nth_error l i) eqn:Q; [|discriminate]. injection X as <-. rewrite Forall_forall in B. apply (B p). eapply nth_error_In; eauto.
    + apply bounded_map in B. destruct (nth_error l i) eqn:Q; [|discriminate]. injection X as <-. rewrite Forall_forall in B. apply (B p). eapply nth_error_In; eauto.
    + apply bounded_tab in B. destruct (nth_error l i) eqn:Q; [|discriminate]. injection X as <-. rewrite Forall_forall in B. apply (B p). eapply nth_error_In; eauto.
    + now injection X as <-.
    + exfalso. eapply N. reflexivity.
    + apply bounded_poly in B. rewrite Forall_forall in B. apply B. eapply nth_error_In; eauto.
Qed.

(** * Ways and counts *)
Lemma reaches_mono h R R' : (forall b, In b R -> reaches h R' b) -> forall a, reaches h R a -> reaches h R' a.
Proof. intros S a H. induction H as [a I|a b H IH I]; [auto|]. eapply re_next; eauto. Qed.
Lemma way_reaches w hp a e : forall path t v, own_part w hp (t, v) path = Some (CShared e, VRef a) -> reaches (held w hp) (strong w t v) a.
Proof.
  induction path as [|s path IH]; intros t v E; cbn [own_part] in E.
  - injection E as -> ->. apply re_root. now left.
  - destruct (own_into w hp (t, v) s) as [[t' x]|] eqn:O; [|discriminate E]. pose proof (IH t' x E) as R.
    assert (D : (exists b, v = VRef b) \/ forall b, v <> VRef b) by (destruct v; try (right; intros b X; discriminate X); left; eauto).
    destruct D as [[b ->]|N].
    + destruct t, s; try discriminate O. cbn [own_into] in O. assert (H : held w hp b = strong w t' x) by (unfold held; now rewrite O).
      apply (reaches_mono _ (strong w t' x)); auto. intros y Iy. apply (re_next _ _ y b); [apply re_root; now left|]. now rewrite H.
    + apply (reaches_mono _ (strong w t' x)); auto. intros y Iy. apply re_root. apply (strong_step w hp). right. exists s, t', x. auto.
Qed.
Lemma reaches_way w hp t v a : reaches (held w hp) (strong w t v) a -> owned w hp t v a.
Proof.
  induction 1 as [a I|a b R (p & e & E) I]; [now apply strong_owned|].
  unfold held in I. destruct (nth_error hp b) as [[u x]|] eqn:N; [|destruct I]. apply (strong_owned w hp) in I as (q & e' & Q).
  exists (p ++ Target :: q), e'. eapply own_part_app; [exact E|]. cbn [own_part own_into]. now rewrite N.
Qed.
Lemma owned_reaches w hp t v a : owned w hp t v a <-> reaches (held w hp) (strong w t v) a.
Proof. split; [intros (p & e & E); eapply way_reaches; eauto|apply reaches_way]. Qed.

Theorem survivors w t v s : ordered (r_heap s) -> bounded (length (r_heap s)) v ->
  exists dead, expired w t v s = Ok dead /\ forall a, (a < length (r_heap s))%nat -> (In a dead <-> ~ owned w (r_heap s) t v a).
Proof.
  intros O B. set (hp := r_heap s) in *. set (n := length hp).
  assert (DN : forall a b, In a (held w hp b) -> (a < b)%nat).
  { intros a b I. unfold held in I. destruct (nth_error hp b) as [[u x]|] eqn:N; [|destruct I]. eapply strong_bounded; [eapply O; eauto|exact I]. }
  assert (OT : forall b, (n <= b)%nat -> held w hp b = []).
  { intros b L. unfold held. destruct (nth_error hp b) as [[u x]|] eqn:N; auto. apply nth_error_Some_lt in N || (assert (nth_error hp b <> None) as X by congruence; apply nth_error_Some in X; unfold n in L; lia). }
  assert (LV : living (held w hp) n [] = flat_map (held w hp) (seq 0 n)).
  { unfold living. f_equal. induction (seq 0 n) as [|x l IH]; cbn [filter]; auto. change (gone [] x) with false. cbn [negb]. now rewrite IH. }
  unfold expired. fold hp n. cbv zeta.
  destruct (release_good (held w hp) n (strong w t v) DN OT (S (length (owners s ++ flat_map (held w hp) (seq 0 n)))) (owners s)
     (fun a => count_occ Nat.eq_dec (strong w t v ++ flat_map (held w hp) (seq 0 n) ++ owners s) a) []) as (D & cnt & E & G).
  - constructor.
    + intros a. now rewrite LV.
    + intros a [].
    + intros a L _. apply (count_occ_In Nat.eq_dec). do 2 (apply in_or_app; right). unfold owners. apply in_or_app. left. apply in_seq. fold hp n. lia.
  - rewrite LV. lia.
  - exists D. split; [exact E|]. intros a L. rewrite owned_reaches. eapply good_end; eauto.
Qed.

(** * Restoring *)
Definition kept_right (r : cv * rstate) : Prop := ordered (r_heap (snd r)) /\ bounded (length (r_heap (snd r))) (fst r).
Lemma restore_right w F t old : (forall t, plain (w_new w t) = true) -> plain old = true -> gives (restore_prog F w t old) kept_right.
Proof.
  intros NEW PO. unfold restore_prog. intros [name v] _. destruct (negb _); [exact I|]. cbv zeta. eapply eok_weaken; [now apply root_made|]. auto.
Qed.
Definition survive (w : world) (t : ct) (r : cv * rstate) : Prop :=
  exists dead, expired w t (fst r) (snd r) = Ok dead /\ forall a, (a < length (r_heap (snd r)))%nat -> (In a dead <-> ~ owned w (r_heap (snd r)) t (fst r) a).
Theorem restored_survive w F q t old : (forall t, plain (w_new w t) = true) -> plain old = true ->
  (forall b q' r b', run_block (restore_object (w_fp w) F w q t old) b = Ok ((q', r), b') -> survive w t r) /\
  (forall b q' r b', run_stream (restore_object (w_fp w) F w q t old) b = Ok ((q', r), b') -> survive w t r) /\
  (forall n r, unwrap_prog F w t old n rs_new = ERet r -> survive w t r).
Proof.
  intros NEW PO. pose proof (pok_parser (w_fp w) F q _ _ (restore_right w F t old NEW PO)) as P.
  assert (X : forall r, kept_right r -> survive w t r) by (intros r [O B]; now apply survivors).
  split; [|split].
  - intros b q' r b' E. apply X. exact (pok_block _ _ P _ _ _ E).
  - intros b q' r b' E. apply X. exact (pok_stream _ _ P _ _ _ E).
  - intros n r E. apply X. exact (gives_run _ _ (root_made w F t old (mkL true n) NEW PO) r E).
Qed.

(** * The same object owns the same *)
Lemma same_own_into w r h g t v c s : same_object r v c -> same_heap r h g ->
  match own_into w h (t, v) s, own_into w g (t, c) s with Some (t1, x), Some (t2, y) => t1 = t2 /\ same_object r x y | None, None => True | _, _ => False end.
Proof.
  intros SO (H1 & H2 & H3).
  assert (FL : forall fs vs cs i, Forall2 (same_object r) vs cs ->
    match (match nth_error fs i, nth_error vs i with Some f, Some x => Some (f : ct, x) | _, _ => None end), (match nth_error fs i, nth_error cs i with Some f, Some x => Some (f, x) | _, _ => None end) with
    | Some (t1, x), Some (t2, y) => t1 = t2 /\ same_object r x y | None, None => True | _, _ => False end).
  { intros fs vs cs i F. pose proof (forall2_nth _ _ _ i F) as X. destruct (nth_error fs i); [|exact I]. destruct (nth_error vs i), (nth_error cs i); auto. }
  assert (SQ : forall (e : ct) vs cs i, Forall2 (same_object r) vs cs ->
    match option_map (fun x => (e, x)) (nth_error vs i), option_map (fun x => (e, x)) (nth_error cs i) with
    | Some (t1, x), Some (t2, y) => t1 = t2 /\ same_object r x y | None, None => True | _, _ => False end).
  { intros e vs cs i F. pose proof (forall2_nth _ _ _ i F) as X. destruct (nth_error vs i), (nth_error cs i); cbn [option_map]; auto. }
  inversion SO as [n|bs| |vs cs F|k vs cs F|l m F1 F2|l m E F|x y Q|a b Q]; subst;
    destruct t as [ty|en|en|en z| |cc|e|e|k2 e|e|z e|ta tb|cc|e|e|e|e|u]; destruct s as [i|i|i|]; cbn [own_into]; try exact I; try (exact (FL _ _ _ i F)); try (exact (SQ _ _ _ i F)); try (split; [reflexivity|assumption]).
  - pose proof (forall2_nth _ _ _ i F1) as X. rewrite !nth_error_map in X. destruct (nth_error l i), (nth_error m i); cbn [option_map] in *; auto.
  - pose proof (forall2_nth _ _ _ i F2) as X. rewrite !nth_error_map in X. destruct (nth_error l i), (nth_error m i); cbn [option_map] in *; auto.
  - pose proof (forall2_nth _ _ _ i F) as X. rewrite !nth_error_map in X. destruct (nth_error l i), (nth_error m i); cbn [option_map] in *; auto.
  - destruct (H3 _ _ Q) as (e' & x & y & -> & -> & S). auto.
Qed.
Lemma same_own_part w r h g : same_heap r h g -> forall path t v c, same_object r v c ->
  match own_part w h (t, v) path, own_part w g (t, c) path with Some (t1, x), Some (t2, y) => t1 = t2 /\ same_object r x y | None, None => True | _, _ => False end.
Proof.
  intros H. induction path as [|s path IH]; intros t v c S; cbn [own_part]; [auto|]. pose proof (same_own_into w r h g t v c s S H) as X.
  destruct (own_into w h (t, v) s) as [[t1 x]|], (own_into w g (t, c) s) as [[t2 y]|]; try contradiction; [|exact I]. destruct X as [-> X]. now apply IH.
Qed.
Theorem owned_kept w r h g t v c a b : same_object r v c -> same_heap r h g -> r a b -> (owned w h t v a <-> owned w g t c b).
Proof.
  intros SO SH R. pose proof SH as (U1 & U2 & _). split; intros (p & e & E); pose proof (same_own_part w r h g SH p t v c SO) as X; rewrite E in X.
  - destruct (own_part w g (t, c) p) as [[t2 y]|] eqn:Q; [|destruct X]. destruct X as [<- X]. inversion X as [| | | | | | | |? b' R']; subst. exists p, e. rewrite Q. now rewrite (U1 _ _ _ R R').
  - destruct (own_part w h (t, v) p) as [[t2 y]|] eqn:Q; [|destruct X]. destruct X as [-> X]. inversion X as [| | | | | | | |a' ? R']; subst. exists p, e. rewrite Q. now rewrite (U2 _ _ _ R R').
Qed.
Theorem owned_survive w p hp lev n t v name old : regular w -> constructs w -> (forall t, plain (w_new w t) = true) -> plain old = true ->
  heap_ok w hp lev (carried (w_fp w) p) -> storable w hp lev (carried (w_fp w) p) n t v -> S_ObjStore.shape w t old -> name_fits p name -> names_fit w p hp v ->
  exists d tab size, (forall F, (size <= F)%nat -> stored_doc F w hp t v name [] = Ok (d, tab)) /\
  (size_fits p d -> exists bs c s dead, stores_as w hp p name t v bs /\ restores_as w p bs t old c s /\ unwraps_as w p bs t old c s /\ expired w t c s = Ok dead /\
     forall way a, part hp v way = Some (VRef a) -> exists b, part (r_heap s) c way = Some (VRef b) /\ (b < length (r_heap s))%nat /\ (In b dead <-> ~ owned w hp t v a)).
Proof.
  intros RG NW NEW PO HP ST SH N NF. destruct (object_kept w p hp lev n t v name old RG NW HP ST SH N NF) as (d & tab & size & A & B). exists d, tab, size. split; [exact A|]. intros Z.
  destruct (B Z) as (bs & c & s & r & B1 & B2 & B3 & B4 & B5 & _). destruct B3 as (k & kk & nn & L & UW).
  destruct (restored_survive w k p t old NEW PO) as (_ & _ & S3). destruct (S3 nn (c, s) (UW k (le_n k))) as (dead & D1 & D2). cbn [fst snd] in *.
  exists bs, c, s, dead. do 2 (split; [assumption|]). split; [now exists k, kk, nn|]. split; [assumption|].
  intros way a W. pose proof (same_part r hp (r_heap s) B5 way v c B4) as X. rewrite W in X. destruct (part (r_heap s) c way) as [y|]; [|destruct X].
  inversion X as [| | | | | | | |? b R]; subst. exists b. split; auto. destruct B5 as (U1 & U2 & U3). destruct (U3 _ _ R) as (e & x & y & _ & Nb & _).
  assert (Lb : (b < length (r_heap s))%nat) by (apply nth_error_Some; congruence). split; auto. rewrite (D2 b Lb).
  rewrite (owned_kept w r hp (r_heap s) t v c a b B4 (conj U1 (conj U2 U3)) R). reflexivity.
Qed.
