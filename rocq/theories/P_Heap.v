(** Invariant of the allocator. *)
From Coq Require Import ZArith List Bool Lia ZifyBool ZifyNat Permutation.
From Verif Require Import Base Lemmas M_Heap S_Heap.
Import ListNotations.
Open Scope Z_scope.

Definition region : Type := (nat * Z * Z)%type.
Definition inside (b : nat) (o : Z) (r : region) : Z :=
  let '(rb, ro, n) := r in if Nat.eqb b rb && (ro <=? o) && (o <? ro + n) then 1 else 0.
Fixpoint cnt (b : nat) (o : Z) (l : list region) : Z :=
  match l with [] => 0 | r :: l' => inside b o r + cnt b o l' end.

Lemma inside_range : forall b o r, 0 <= inside b o r <= 1.
Proof. intros b o [[rb ro] n]; cbn. destruct (_ && _); lia. Qed.
Lemma cnt_nonneg : forall b o l, 0 <= cnt b o l.
Proof. induction l; cbn; [lia|]. pose proof (inside_range b o a). lia. Qed.
Lemma cnt_app : forall b o l1 l2, cnt b o (l1 ++ l2) = cnt b o l1 + cnt b o l2.
Proof. induction l1; intros; cbn; [lia|]. rewrite IHl1. lia. Qed.
Lemma inside_split : forall b o rb ro n m, 0 <= n -> 0 <= m ->
  inside b o (rb, ro, n + m) = inside b o (rb, ro, n) + inside b o (rb, ro + n, m).
Proof.
  intros. cbn. destruct (Nat.eqb b rb); cbn [andb]; [|lia].
  destruct (Z.leb_spec ro o), (Z.ltb_spec o (ro + (n + m))), (Z.ltb_spec o (ro + n)), (Z.leb_spec (ro + n) o),
    (Z.ltb_spec o (ro + n + m)); cbn [andb]; lia.
Qed.

Definition whole (s : seg) : region := (sg_blk s, sg_off s, sg_size s).
Definition frees (h : heap) : list region := map (fun i => whole (seg_of h i)) (h_free h).

Definition seg_ok (blocks : list Z) (s : seg) : Prop :=
  0 <= sg_off s /\ 0 <= sg_left s <= sg_size s /\ sg_size s < two32 /\
  exists B, nth_error blocks (sg_blk s) = Some B /\ sg_off s + sg_size s <= B /\
            (sg_sub s = false -> sg_off s = 0 /\ sg_size s = B).

Definition main_links (h : heap) : list nat := filter (fun i => negb (sg_sub (seg_of h i))) (h_ulinks h).

(** everything except what the client owns *)
Record J (h : heap) (own : list region) : Prop := mkJ {
  j_links : NoDup (h_ulinks h ++ h_flinks h);
  j_range : forall i, In i (h_ulinks h ++ h_flinks h) -> (i < length (h_links h))%nat;
  j_nodup : NoDup (h_used h ++ h_free h);
  j_incl : incl (h_used h ++ h_free h) (h_ulinks h);
  j_free : forall i, In i (h_free h) -> sg_left (seg_of h i) = sg_size (seg_of h i);
  j_segs : forall i, In i (h_ulinks h) -> seg_ok (h_blocks h) (seg_of h i);
  j_main : NoDup (map (fun i => sg_blk (seg_of h i)) (main_links h));
  j_cnt : forall b o, cnt b o own + cnt b o (frees h) <= 1;
  j_own : forall b o, (length (h_blocks h) <= b)%nat -> cnt b o own = 0 }.

Definition crr_rest (h : heap) : list region :=
  match h_crr h with
  | Some c => let s := seg_of h c in [(sg_blk s, sg_pointer s, sg_left s)]
  | None => []
  end.
Definition live_regions (live : list hblock) : list region := map (fun x => (hb_blk x, hb_off x, hb_size x)) live.

(** The last used segment is the current one *)
Definition crr_ok (h : heap) : Prop :=
  match h_crr h with Some c => exists u, h_used h = u ++ [c] | None => h_used h = [] end.

Lemma J_own : forall h o1 o2, (forall b o, cnt b o o2 <= cnt b o o1) -> J h o1 -> J h o2.
Proof.
  intros h o1 o2 H []. split; auto; intros b o.
  - specialize (H b o). specialize (j_cnt0 b o). lia.
  - intro L. specialize (H b o). specialize (j_own0 b o L). pose proof (cnt_nonneg b o o2). lia.
Qed.

Lemma nth_set_nth_eq : forall {A} (l : list A) i x d, (i < length l)%nat -> nth i (set_nth i x l) d = x.
Proof. induction l; intros [|i] x d H; cbn in *; try lia; auto. apply IHl. lia. Qed.
Lemma nth_set_nth_ne : forall {A} (l : list A) i j x d, i <> j -> nth j (set_nth i x l) d = nth j l d.
Proof. induction l; intros [|i] [|j] x d H; cbn in *; try congruence; auto. Qed.
Lemma length_set_nth : forall {A} (l : list A) i x, length (set_nth i x l) = length l.
Proof. induction l; intros [|i] x; cbn; auto. Qed.

Lemma seg_of_set : forall h i s j, (i < length (h_links h))%nat ->
  seg_of (set_link h i s) j = if Nat.eqb j i then s else seg_of h j.
Proof.
  intros. unfold seg_of, set_link; cbn. destruct (Nat.eqb_spec j i).
  - subst. apply nth_set_nth_eq; auto.
  - apply nth_set_nth_ne; auto.
Qed.

(** effect of get_link *)
Lemma get_link_spec : forall h own i h1, J h own -> get_link h = (i, h1) ->
  ~ In i (h_ulinks h) /\ (i < length (h_links h1))%nat /\
  h_ulinks h1 = h_ulinks h ++ [i] /\ NoDup (h_ulinks h1 ++ h_flinks h1) /\
  (forall j, In j (h_ulinks h1 ++ h_flinks h1) -> (j < length (h_links h1))%nat) /\
  h_used h1 = h_used h /\ h_free h1 = h_free h /\ h_blocks h1 = h_blocks h /\ h_mem h1 = h_mem h /\
  h_crr h1 = h_crr h /\ h_cap h1 = h_cap h /\
  (forall j, j <> i -> seg_of h1 j = seg_of h j).
Proof.
  intros h own i h1 Hj H. destruct Hj. unfold get_link in H.
  destruct (h_flinks h) as [|k fl] eqn:E.
  - injection H as <- <-. cbn. rewrite app_nil_r in *.
    assert (N : ~ In (length (h_links h)) (h_ulinks h)).
    { intro X. specialize (j_range0 _ X). lia. }
    repeat split; auto.
    + rewrite app_length; cbn; lia.
    + apply Permutation_NoDup with (l := length (h_links h) :: h_ulinks h);
        [apply Permutation_cons_append|constructor; auto].
    + intros j X. rewrite app_length; cbn. apply in_app_or in X as [X|[<-|[]]]; [|lia].
      specialize (j_range0 _ X). lia.
    + intros j X. unfold seg_of; cbn. destruct (Nat.lt_ge_cases j (length (h_links h))).
      * rewrite app_nth1; auto.
      * rewrite !nth_overflow; auto. rewrite app_length; cbn; lia.
  - injection H as <- <-. cbn.
    assert (N : ~ In k (h_ulinks h)).
    { intro X. apply NoDup_remove_2 in j_links0. apply j_links0. apply in_or_app; auto. }
    repeat split; auto.
    + apply j_range0. apply in_or_app; right; left; auto.
    + rewrite <- app_assoc; cbn. auto.
    + rewrite <- app_assoc; cbn. auto.
Qed.

Lemma u32_id : forall x, 0 <= x < two32 -> u32 x = x.
Proof. intros. unfold u32. apply Z.mod_small; auto. Qed.

Lemma filter_ext_In : forall {A} (f g : A -> bool) l, (forall x, In x l -> f x = g x) -> filter f l = filter g l.
Proof. induction l; intros H; cbn; auto. rewrite (H a) by (left; auto). rewrite IHl; [reflexivity|]. intros; apply H; right; auto. Qed.
Lemma map_ext_In : forall {A B} (f g : A -> B) l, (forall x, In x l -> f x = g x) -> map f l = map g l.
Proof. apply map_ext_in. Qed.

Lemma seg_ok_mono : forall bl x s, seg_ok bl s -> seg_ok (bl ++ [x]) s.
Proof.
  intros bl x s (A & B & C & D & E & F). repeat split; try apply B; auto. exists D. split; auto.
  rewrite nth_error_app1; auto. apply nth_error_Some. congruence.
Qed.

(** giving memory back *)
Lemma put_mem_eqs : forall h own b o sz, J h own -> 0 <= sz < two32 ->
  exists i, let h' := put_mem h b o sz in
  ~ In i (h_ulinks h) /\
  h_ulinks h' = h_ulinks h ++ [i] /\ NoDup (h_ulinks h' ++ h_flinks h') /\
  (forall j, In j (h_ulinks h' ++ h_flinks h') -> (j < length (h_links h'))%nat) /\
  h_used h' = h_used h /\ h_free h' = h_free h ++ [i] /\ h_blocks h' = h_blocks h /\
  h_mem h' = mzero (h_mem h) b o sz /\ h_crr h' = h_crr h /\ h_cap h' = h_cap h /\
  (forall j, seg_of h' j = if Nat.eqb j i then mkSeg b o sz sz true else seg_of h j).
Proof.
  intros h own b o sz Hj Hs. unfold put_mem. destruct (get_link h) as [i h1] eqn:E.
  destruct (get_link_spec _ _ _ _ Hj E) as (N & Hi & Eu & Nd & Rg & E1 & E2 & E3 & E4 & E5 & E6 & Es).
  rewrite u32_id by auto.
  assert (S' : forall j, seg_of (set_link h1 i (mkSeg b o sz sz true)) j =
               if Nat.eqb j i then mkSeg b o sz sz true else seg_of h j).
  { intro j. rewrite seg_of_set by auto. destruct (Nat.eqb_spec j i); auto. }
  exists i. cbn -[mzero Nat.eqb]. rewrite E2, E4. repeat split; auto.
  intros j X. rewrite length_set_nth. auto.
Qed.

Lemma put_mem_J : forall h own b o sz, J h ((b, o, sz) :: own) -> 0 <= sz < two32 -> 0 <= o ->
  (exists B, nth_error (h_blocks h) b = Some B /\ o + sz <= B) -> J (put_mem h b o sz) own.
Proof.
  intros h own b o sz Hj Hs Ho (B & HB & Hle).
  destruct (put_mem_eqs h _ b o sz Hj Hs) as (i & N & Eu & Nd & Rg & E1 & E2 & E3 & E4 & E5 & E6 & S').
  destruct Hj. set (hF := put_mem h b o sz) in *. clearbody hF.
  assert (Hu : forall j, In j (h_ulinks h) -> Nat.eqb j i = false).
  { intros j X. apply Nat.eqb_neq. intro; subst; auto. }
  assert (Hf : forall j, In j (h_free h) -> Nat.eqb j i = false).
  { intros j X. apply Hu. apply j_incl0. apply in_or_app; auto. }
  split; auto.
  - rewrite E1, E2, app_assoc. apply Permutation_NoDup with (l := i :: (h_used h ++ h_free h)); [apply Permutation_cons_append|].
    constructor; auto.
  - rewrite E1, E2, Eu. intros j X. rewrite app_assoc in X. apply in_app_or in X. apply in_or_app.
    destruct X as [X|X]; [left; apply j_incl0; auto|right; auto].
  - intros j X. rewrite S'. rewrite E2 in X. apply in_app_or in X as [X|[<-|[]]].
    + rewrite Hf by auto. auto.
    + rewrite Nat.eqb_refl. reflexivity.
  - intros j X. rewrite S', E3. rewrite Eu in X. apply in_app_or in X as [X|[<-|[]]].
    + rewrite Hu by auto. auto.
    + rewrite Nat.eqb_refl. unfold seg_ok; cbn. repeat split; try lia. exists B. split; auto. split; auto. discriminate.
  - unfold main_links. rewrite Eu, filter_app; cbn. rewrite S', Nat.eqb_refl; cbn. rewrite app_nil_r.
    rewrite (filter_ext_In _ (fun i0 => negb (sg_sub (seg_of h i0)))).
    + rewrite (map_ext_in _ (fun i0 => sg_blk (seg_of h i0))); auto.
      intros j X. apply filter_In in X as [X _]. rewrite S', Hu by auto. reflexivity.
    + intros j X. rewrite S', Hu by auto. reflexivity.
  - intros b' o'. specialize (j_cnt0 b' o'). unfold frees in *. rewrite E2. rewrite map_app, cnt_app; cbn [map cnt].
    rewrite S', Nat.eqb_refl.
    rewrite (map_ext_in _ (fun i0 => whole (seg_of h i0))).
    2:{ intros j X. rewrite S', Hf by auto. reflexivity. }
    cbn [cnt] in j_cnt0. unfold whole at 2; cbn [sg_blk sg_off sg_size]. lia.
  - intros b' o' L. rewrite E3 in L. specialize (j_own0 b' o' L). cbn [cnt] in j_own0.
    pose proof (inside_range b' o' (b, o, sz)). pose proof (cnt_nonneg b' o' own). lia.
Qed.

Lemma find_rm_spec : forall p l i r, find_rm p l = Some (i, r) -> p i = true /\ exists l1 l2, l = l1 ++ i :: l2 /\ r = l1 ++ l2.
Proof.
  induction l as [|j l IH]; cbn; intros i r H; [discriminate|].
  destruct (p j) eqn:E.
  - injection H as <- <-. split; auto. exists [], l. auto.
  - destruct (find_rm p l) as [[k r']|]; [|discriminate]. injection H as <- <-.
    destruct (IH _ _ eq_refl) as (A & l1 & l2 & B & C). split; auto. exists (j :: l1), l2. subst. auto.
Qed.

Definition kept (h h' : heap) (own : list region) : Prop :=
  forall b o, cnt b o own = 1 -> h_mem h' b o = h_mem h b o.
Definition grows (h h' : heap) : Prop := exists e, h_blocks h' = h_blocks h ++ e.
Lemma grows_refl : forall h, grows h h.
Proof. exists []. rewrite app_nil_r. auto. Qed.
Lemma grows_trans : forall a b c, grows a b -> grows b c -> grows a c.
Proof. intros a b c [x X] [y Y]. exists (x ++ y). rewrite Y, X, app_assoc. auto. Qed.
Lemma grows_nth : forall h h' b B, grows h h' -> nth_error (h_blocks h) b = Some B -> nth_error (h_blocks h') b = Some B.
Proof. intros h h' b B [e E] H. rewrite E, nth_error_app1; auto. apply nth_error_Some. congruence. Qed.

Definition hinv (h : heap) (own : list region) : Prop := J h (own ++ crr_rest h) /\ crr_ok h.

Definition fits (s : seg) (n align : Z) : Prop :=
  n + align - 1 <= sg_size s \/ (n <= sg_size s /\ sg_off s mod align = 0).

Lemma crr_in : forall h own c, J h own -> crr_ok h -> h_crr h = Some c -> In c (h_used h) /\ In c (h_ulinks h) /\ ~ In c (h_free h).
Proof.
  intros h own c [] C E. unfold crr_ok in C. rewrite E in C. destruct C as [u U].
  assert (In c (h_used h)) by (rewrite U; apply in_or_app; right; left; auto).
  repeat split; auto.
  - apply j_incl0. apply in_or_app; auto.
  - intro X. apply in_split in X as (l1 & l2 & X). rewrite X in j_nodup0.
    rewrite app_assoc in j_nodup0. apply NoDup_remove_2 in j_nodup0. apply j_nodup0.
    apply in_or_app; left. apply in_or_app; auto.
Qed.

(** step one of alloc: the rest of the current segment becomes free *)
Definition release_rest (h : heap) : heap :=
  match h_crr h with
  | Some c => let s := seg_of h c in
              if 0 <? sg_left s then put_mem h (sg_blk s) (sg_pointer s) (sg_left s) else h
  | None => h
  end.
Lemma release_spec : forall h own, hinv h own ->
  let h1 := release_rest h in
  J h1 own /\ h_used h1 = h_used h /\ h_blocks h1 = h_blocks h /\ h_crr h1 = h_crr h /\ kept h h1 own /\
  (forall j, In j (h_ulinks h) -> seg_of h1 j = seg_of h j).
Proof.
  intros h own [Hj C] h1. unfold h1, release_rest. destruct (h_crr h) as [c|] eqn:E.
  2:{ split; [|repeat split; auto; intros ? ? ?; auto].
      eapply J_own; [|exact Hj]. intros b o. rewrite cnt_app. pose proof (cnt_nonneg b o (crr_rest h)). lia. }
  destruct (crr_in _ _ _ Hj C E) as (U1 & U2 & U3).
  destruct (j_segs _ _ Hj c U2) as (S1 & S2 & S3 & B & S4 & S5 & _).
  assert (R : crr_rest h = [(sg_blk (seg_of h c), sg_pointer (seg_of h c), sg_left (seg_of h c))]).
  { unfold crr_rest. rewrite E. reflexivity. }
  destruct (Z.ltb_spec 0 (sg_left (seg_of h c))).
  - assert (Hj' : J h ((sg_blk (seg_of h c), sg_pointer (seg_of h c), sg_left (seg_of h c)) :: own)).
    { eapply J_own; [|exact Hj]. intros b o. rewrite R, cnt_app. cbn [cnt]. lia. }
    destruct (put_mem_eqs h _ (sg_blk (seg_of h c)) (sg_pointer (seg_of h c)) (sg_left (seg_of h c)) Hj'
      ltac:(unfold two32 in *; lia)) as (i & N & Eu & Nd & Rg & E1 & E2 & E3 & E4 & E5 & E6 & S').
    split; [|split; [|split; [|split; [|split]]]].
    + apply put_mem_J; auto; unfold sg_pointer; try lia. exists B. split; auto. lia.
    + auto.
    + auto.
    + rewrite E5. auto.
    + intros b o X. rewrite E4. unfold mzero. pose proof (j_cnt _ _ Hj' b o) as Y. cbn [cnt] in Y.
      pose proof (cnt_nonneg b o (frees h)) as Z. unfold inside in Y. destruct (_ && _); auto. lia.
    + intros j X. rewrite S'. destruct (Nat.eqb_spec j i); auto. subst. tauto.
  - split; [|repeat split; auto; intros ? ? ?; auto].
    eapply J_own; [|exact Hj]. intros b o. rewrite cnt_app. pose proof (cnt_nonneg b o (crr_rest h)). lia.
Qed.

Lemma grow_cap_max : forall f c n, c <= 2 * max_cap -> grow_cap f c n <= 2 * max_cap.
Proof.
  induction f; intros c n H; cbn [grow_cap]; [lia|]. destruct (Z.ltb_spec c n), (Z.ltb_spec c max_cap); cbn [andb]; auto.
  apply IHf. lia.
Qed.

Lemma frees_block : forall h own b o, J h own -> (length (h_blocks h) <= b)%nat -> cnt b o (frees h) = 0.
Proof.
  intros h own b o [] L. unfold frees.
  assert (F : forall i, In i (h_free h) -> sg_blk (seg_of h i) <> b).
  { intros i X. destruct (j_segs0 i) as (_ & _ & _ & B & Z & _).
    - apply j_incl0. apply in_or_app; auto.
    - intro. subst b. assert (Y : nth_error (h_blocks h) (sg_blk (seg_of h i)) <> None) by congruence.
      apply nth_error_Some in Y. lia. }
  clear - F. induction (h_free h) as [|i l IH]; cbn [map cnt]; auto.
  rewrite IH by (intros; apply F; right; auto).
  unfold whole, inside. destruct (Nat.eqb_spec b (sg_blk (seg_of h i))) as [X|X]; cbn [andb]; auto.
  exfalso. apply (F i); [left; auto|auto].
Qed.

Lemma alloc_spec : forall h own n align c h', hinv h own -> 0 <= n < two32 -> In align [1; 2; 4; 8; 16] ->
  alloc h n align = (c, h') ->
  J h' (own ++ [whole (seg_of h' c)]) /\ h_used h' = h_used h ++ [c] /\ grows h h' /\ kept h h' own /\
  sg_left (seg_of h' c) = sg_size (seg_of h' c) /\ fits (seg_of h' c) n align /\
  (forall j, In j (h_used h) -> seg_of h' j = seg_of h j).
Proof.
  intros h own n align c h' I Hn Ha H.
  destruct (release_spec h own I) as (J1 & U1 & B1 & C1 & K1 & S1).
  unfold alloc in H. fold (release_rest h) in H. set (h1 := release_rest h) in *. clearbody h1.
  assert (Su : forall j, In j (h_used h) -> In j (h_ulinks h)).
  { destruct I as [I _]. intros j X. apply (j_incl _ _ I). apply in_or_app; auto. }
  destruct (find_rm _ (h_free h1)) as [[i free]|] eqn:F.
  - injection H as <- <-. apply find_rm_spec in F as (P & l1 & l2 & F1 & F2). subst free.
    pose proof (j_free _ _ J1 i ltac:(rewrite F1; apply in_or_app; right; left; auto)) as L.
    change (seg_of (mkHeap _ _ _ _ _ _ _ _ _) i) with (seg_of h1 i).
    split; [|split; [|split; [|split; [|split; [|split]]]]].
    + pose proof J1 as Jc. destruct J1. rewrite F1 in j_nodup0, j_incl0, j_free0. split; cbn; auto.
      * apply Permutation_NoDup with (l := h_used h1 ++ l1 ++ i :: l2); auto.
        rewrite <- app_assoc. apply Permutation_app_head. cbn. symmetry. apply Permutation_middle.
      * intros j X. apply j_incl0. apply in_app_or in X. apply in_or_app.
        destruct X as [X|X]; [apply in_app_or in X as [X|[<-|[]]]; [left; auto|right; apply in_or_app; right; left; auto]|].
        right. apply in_app_or in X. apply in_or_app. destruct X; [left|right; right]; auto.
      * intros j X. apply (j_free0 j). apply in_app_or in X. apply in_or_app. destruct X; [left|right; right]; auto.
      * intros b o. specialize (j_cnt0 b o). unfold frees in *; cbn [h_free]. rewrite F1 in j_cnt0.
        rewrite !cnt_app, !map_app, !cnt_app in *. cbn [map cnt] in *.
        unfold seg_of in *. cbn [h_links] in *. lia.
      * intros b o X. rewrite cnt_app. rewrite j_own0 by auto. cbn [cnt].
        pose proof (frees_block h1 own b o Jc X) as Y. unfold frees in Y.
        rewrite F1, map_app, cnt_app in Y. cbn [map cnt] in Y.
        pose proof (inside_range b o (whole (seg_of h1 i))).
        pose proof (cnt_nonneg b o (map (fun i0 => whole (seg_of h1 i0)) l1)).
        pose proof (cnt_nonneg b o (map (fun i0 => whole (seg_of h1 i0)) l2)). lia.
    + cbn. rewrite U1. auto.
    + exists []. cbn. rewrite B1, app_nil_r. auto.
    + exact K1.
    + auto.
    + unfold size_pred in P. unfold fits. lia.
    + intros j X. change (seg_of h1 j = seg_of h j). auto.
  - set (cap1 := if h_cap h1 <? 1 then 1 else if h_cap h1 * 2 <? max_cap then h_cap h1 * 2 else max_cap) in *.
    set (cap2 := if (n <? max_cap) && (cap1 <? n) then grow_cap 32 cap1 n else cap1) in *.
    assert (Q1 : cap1 <= max_cap).
    { unfold cap1, max_cap. destruct (Z.ltb_spec (h_cap h1) 1), (Z.ltb_spec (h_cap h1 * 2) 262144); lia. }
    assert (Q2 : cap2 <= 2 * max_cap).
    { unfold cap2. pose proof (grow_cap_max 32 cap1 n). destruct (_ && _); unfold max_cap in *; lia. }
    clearbody cap2. clear cap1 Q1. set (sz := if n <? cap2 then cap2 else n) in *.
    assert (Q3 : n <= sz < two32).
    { unfold sz, max_cap, two32 in *. destruct (Z.ltb_spec n cap2); lia. }
    clearbody sz. rewrite u32_id in H by lia.
    destruct (get_link h1) as [i h2] eqn:E. injection H as <- <-.
    destruct (get_link_spec _ _ _ _ J1 E) as (N & Hi & Eu & Nd & Rg & E1 & E2 & E3 & E4 & E5 & E6 & Es).
    set (s := mkSeg (length (h_blocks h1)) 0 sz sz false) in *.
    assert (S' : forall j, seg_of (set_link h2 i s) j = if Nat.eqb j i then s else seg_of h1 j).
    { intro j. rewrite seg_of_set by auto. destruct (Nat.eqb_spec j i); auto. }
    set (hF := mkHeap _ _ _ _ _ _ _ _ _).
    assert (S2 : forall j, seg_of hF j = if Nat.eqb j i then s else seg_of h1 j) by exact S'.
    assert (F1 : h_ulinks hF = h_ulinks h1 ++ [i]) by exact Eu.
    assert (F2 : h_used hF = h_used h1 ++ [i]) by (unfold hF; cbn; rewrite E1; auto).
    assert (F3 : h_free hF = h_free h1) by exact E2.
    assert (F4 : h_blocks hF = h_blocks h1 ++ [sz]) by (unfold hF; cbn; rewrite E3; auto).
    assert (F5 : h_mem hF = h_mem h1) by exact E4.
    assert (F6 : NoDup (h_ulinks hF ++ h_flinks hF)) by exact Nd.
    assert (F7 : forall j, In j (h_ulinks hF ++ h_flinks hF) -> (j < length (h_links hF))%nat).
    { intros j X. unfold hF; cbn. rewrite length_set_nth. apply Rg. exact X. }
    clearbody hF. clear S'.
    assert (Hu : forall j, In j (h_ulinks h1) -> Nat.eqb j i = false).
    { intros j X. apply Nat.eqb_neq. intro; subst; auto. }
    rewrite S2, Nat.eqb_refl.
    split; [|split; [|split; [|split; [|split; [|split]]]]].
    + pose proof J1 as Jc. destruct J1.
      assert (Hf : forall j, In j (h_free h1) -> Nat.eqb j i = false).
      { intros j X. apply Hu. apply j_incl0. apply in_or_app; auto. }
      assert (M : main_links hF = main_links h1 ++ [i]).
      { unfold main_links. rewrite F1, filter_app; cbn. rewrite S2, Nat.eqb_refl; cbn. f_equal.
        apply filter_ext_In. intros j X. rewrite S2, Hu by auto. auto. }
      split; auto.
      * rewrite F2, F3. apply Permutation_NoDup with (l := i :: h_used h1 ++ h_free h1); [|constructor; auto].
        rewrite <- app_assoc. cbn. apply Permutation_middle.
      * rewrite F1, F2, F3. intros j X. apply in_or_app. apply in_app_or in X as [X|X].
        { apply in_app_or in X as [X|X]; [left|right; auto]. apply j_incl0. apply in_or_app; auto. }
        left. apply j_incl0. apply in_or_app; auto.
      * rewrite F3. intros j X. rewrite S2, Hf by auto. auto.
      * rewrite F1, F4. intros j X. rewrite S2. apply in_app_or in X as [X|[<-|[]]].
        { rewrite Hu by auto. apply seg_ok_mono. auto. }
        rewrite Nat.eqb_refl. unfold seg_ok, s; cbn. repeat split; try lia. exists sz.
        rewrite nth_error_app2, Nat.sub_diag by lia. cbn. repeat split; auto; lia.
      * rewrite M, map_app. cbn. rewrite S2, Nat.eqb_refl.
        rewrite (map_ext_in _ (fun j => sg_blk (seg_of h1 j))).
        2:{ intros j X. apply filter_In in X as [X _]. rewrite S2, Hu; auto. }
        apply Permutation_NoDup with (l := length (h_blocks h1) :: map (fun j => sg_blk (seg_of h1 j)) (main_links h1));
          [apply Permutation_cons_append|]. constructor; auto.
        intro X. apply in_map_iff in X as (j & X & Y). apply filter_In in Y as [Y _].
        destruct (j_segs0 j Y) as (_ & _ & _ & B & Z & _). rewrite X in Z.
        assert (nth_error (h_blocks h1) (length (h_blocks h1)) <> None) by congruence. apply nth_error_Some in H. lia.
      * intros b o. specialize (j_cnt0 b o). unfold frees in *. rewrite F3, cnt_app. cbn [cnt].
        rewrite (map_ext_in _ (fun j => whole (seg_of h1 j))).
        2:{ intros j X. rewrite S2, Hf; auto. }
        change (whole s) with (length (h_blocks h1), 0, sz). unfold inside.
        destruct (Nat.eqb_spec b (length (h_blocks h1))) as [X|X]; cbn [andb]; [|lia].
        rewrite j_own0 by lia. fold (frees h1).
        rewrite (frees_block h1 own b o Jc) by lia. destruct (_ && _); lia.
      * intros b o L. rewrite F4, app_length in L. cbn in L. rewrite cnt_app. rewrite j_own0 by lia. cbn [cnt].
        change (whole s) with (length (h_blocks h1), 0, sz). unfold inside.
        destruct (Nat.eqb_spec b (length (h_blocks h1))) as [X|X]; cbn [andb]; lia.
    + rewrite F2, U1. auto.
    + exists [sz]. rewrite F4, B1. auto.
    + intros b o X. rewrite F5. auto.
    + auto.
    + unfold fits. change (sg_size s) with sz. change (sg_off s) with 0. right. split; [lia|].
      apply Z.mod_0_l. cbn in Ha. lia.
    + intros j X. rewrite S2, Hu; auto. apply (j_incl _ _ J1). apply in_or_app. left. rewrite U1. auto.
Qed.

(** changing how much is left of a used segment *)
Lemma set_left_J : forall h own c left, J h own -> In c (h_used h) ->
  0 <= left <= sg_size (seg_of h c) ->
  J (set_link h c (mkSeg (sg_blk (seg_of h c)) (sg_off (seg_of h c)) (sg_size (seg_of h c)) left (sg_sub (seg_of h c)))) own.
Proof.
  intros h own c left Hj Hc Hl.
  assert (Hu : In c (h_ulinks h)) by (apply (j_incl _ _ Hj); apply in_or_app; auto).
  assert (Hr : (c < length (h_links h))%nat) by (apply (j_range _ _ Hj); apply in_or_app; auto).
  assert (Hf : forall j, In j (h_free h) -> Nat.eqb j c = false).
  { intros j X. apply Nat.eqb_neq. intros ->. pose proof (j_nodup _ _ Hj) as N.
    apply in_split in X as (l1 & l2 & X). rewrite X in N.
    rewrite app_assoc in N. apply NoDup_remove_2 in N. apply N.
    apply in_or_app; left. apply in_or_app; auto. }
  set (s := mkSeg _ _ _ _ _).
  pose proof (fun j => seg_of_set h c s j Hr) as S'. 
  destruct Hj. set (hF := set_link h c s) in *.
  assert (F1 : h_used hF = h_used h) by reflexivity.
  assert (F2 : h_free hF = h_free h) by reflexivity.
  assert (F3 : h_ulinks hF = h_ulinks h) by reflexivity.
  assert (F4 : h_flinks hF = h_flinks h) by reflexivity.
  assert (F5 : h_blocks hF = h_blocks h) by reflexivity.
  assert (F6 : length (h_links hF) = length (h_links h)) by apply length_set_nth.
  clearbody hF.
  assert (G : forall j, sg_sub (seg_of hF j) = sg_sub (seg_of h j) /\ sg_blk (seg_of hF j) = sg_blk (seg_of h j)).
  { intro j. rewrite S'. destruct (Nat.eqb_spec j c); subst; auto. }
  split; rewrite ?F1, ?F2, ?F3, ?F4, ?F5, ?F6; auto.
  - intros j X. rewrite S', Hf by auto. auto.
  - intros j X. rewrite S'. destruct (Nat.eqb_spec j c); auto. subst j.
    destruct (j_segs0 c Hu) as (A & B & C & D). unfold seg_ok, s; cbn. repeat split; auto; lia.
  - unfold main_links. rewrite F3.
    rewrite (filter_ext_In _ (fun i => negb (sg_sub (seg_of h i)))).
    2:{ intros j _. destruct (G j) as [-> _]. auto. }
    rewrite (map_ext_in _ (fun i => sg_blk (seg_of h i))); auto.
    intros j _. apply G.
  - intros b o. unfold frees. rewrite F2. rewrite (map_ext_in _ (fun i => whole (seg_of h i))).
    2:{ intros j X. rewrite S', Hf; auto. }
    apply j_cnt0.
Qed.

Lemma NoDup_app_l : forall {A} (l1 l2 : list A), NoDup (l1 ++ l2) -> NoDup l1.
Proof.
  induction l1; intros l2 H; [constructor|]. inversion H; subst. constructor; [|eapply IHl1; eauto].
  intro X. apply H2. apply in_or_app; auto.
Qed.

(** the addresses of a region; the filled parts of all used segments, in order *)
Definition addrs (r : region) : list (nat * Z) :=
  let '(b, o, n) := r in map (fun i => (b, o + Z.of_nat i)) (seq 0 (Z.to_nat n)).
Definition fill_of (s : seg) : region := (sg_blk s, sg_off s, sg_size s - sg_left s).
Definition fills (h : heap) : list (nat * Z) := concat (map (fun i => addrs (fill_of (seg_of h i))) (h_used h)).

Lemma addrs_app : forall b o n m, 0 <= n -> 0 <= m -> addrs (b, o, n + m) = addrs (b, o, n) ++ addrs (b, o + n, m).
Proof.
  intros b o n m Hn Hm. cbn [addrs]. replace (Z.to_nat (n + m)) with (Z.to_nat n + Z.to_nat m)%nat by lia.
  rewrite seq_app, map_app. f_equal. cbn [Nat.add].
  rewrite <- (Nat.add_0_r (Z.to_nat n)) at 1. generalize 0%nat as k. generalize (Z.to_nat m) as q.
  induction q as [|q IH]; intro k; cbn [seq map]; auto. f_equal.
  - f_equal. lia.
  - rewrite <- Nat.add_succ_r. apply IH.
Qed.

(** [get_mem] hands out memory nobody owns *)
Lemma get_mem_spec : forall h own sz align b o h', hinv h own -> 0 <= sz < two32 -> In align [1; 2; 4; 8; 16] ->
  get_mem h sz align = ((b, o), h') ->
  hinv h' (own ++ [(b, o, sz)]) /\ grows h h' /\ kept h h' own /\ o mod align = 0 /\
  (align = 1 -> fills h' = fills h ++ addrs (b, o, sz)) /\
  exists B, nth_error (h_blocks h') b = Some B /\ 0 <= o /\ o + sz <= B.
Proof.
  intros h own sz align b o h' I Hs Ha H. unfold get_mem in H.
  assert (A0 : 1 <= align) by (cbn in Ha; lia).
  (* the segment used *)
  assert (X : exists c h1, crr_ok h1 /\ J h1 (own ++ crr_rest h1) /\ h_crr h1 = Some c /\ grows h h1 /\ kept h h1 own /\ fills h1 = fills h /\
     (sz + align - 1 <= sg_left (seg_of h1 c) \/ (sz <= sg_left (seg_of h1 c) /\ sg_pointer (seg_of h1 c) mod align = 0)) /\
     (let s := seg_of h1 c in
      ((sg_blk s, sg_pointer s + (if sg_pointer s mod align =? 0 then 0 else align - sg_pointer s mod align)),
       set_link h1 c (mkSeg (sg_blk s) (sg_off s) (sg_size s)
         (u32 (sg_left s - (sz + (if sg_pointer s mod align =? 0 then 0 else align - sg_pointer s mod align)))) (sg_sub s)))
      = ((b, o), h'))).
  { destruct (match h_crr h with Some c => negb (sg_left (seg_of h c) <? sz + align - 1) | None => false end) eqn:E.
    - destruct I as [Ij Ic]. destruct (h_crr h) as [c|] eqn:Ec; [|discriminate]. exists c, h.
      split; [exact Ic|]. split; [exact Ij|]. split; [exact Ec|]. split; [apply grows_refl|].
      split; [intros ? ? ?; auto|]. split; [reflexivity|]. split; [left; lia|]. exact H.
    - clear E. destruct (alloc h sz align) as [c h1] eqn:E.
      destruct (alloc_spec _ _ _ _ _ _ I Hs Ha E) as (J1 & U1 & G1 & K1 & L1 & Fi & S1).
      exists c, (set_crr h1 c).
      assert (Pt : sg_pointer (seg_of h1 c) = sg_off (seg_of h1 c)) by (unfold sg_pointer; lia).
      split; [|split; [|split; [|split; [|split; [|split; [|split]]]]]].
      + unfold crr_ok; cbn. eauto.
      + assert (R : crr_rest (set_crr h1 c) = [whole (seg_of h1 c)]).
        { transitivity [(sg_blk (seg_of h1 c), sg_pointer (seg_of h1 c), sg_left (seg_of h1 c))]; [reflexivity|].
          rewrite Pt, L1. reflexivity. }
        rewrite R. destruct J1. split; auto.
      + reflexivity.
      + exact G1.
      + exact K1.
      + unfold fills. cbn [set_crr h_used]. rewrite U1, map_app, concat_app. cbn [map concat].
        rewrite (map_ext_in _ (fun i => addrs (fill_of (seg_of h i)))).
        2:{ intros j X. change (seg_of (set_crr h1 c) j) with (seg_of h1 j). rewrite S1; auto. }
        change (seg_of (set_crr h1 c) c) with (seg_of h1 c). unfold fill_of at 2. cbn [addrs].
        replace (Z.to_nat _) with 0%nat by lia. cbn. rewrite app_nil_r. auto.
      + assert (Fi' : sz + align - 1 <= sg_left (seg_of h1 c) \/
          (sz <= sg_left (seg_of h1 c) /\ sg_pointer (seg_of h1 c) mod align = 0)).
        { rewrite Pt, L1. destruct Fi; [left; lia|right; lia]. }
        exact Fi'.
      + exact H. }
  clear H. destruct X as (c & h1 & C1 & J1 & Ec & G1 & K1 & Fl & Fit & H).
  destruct (crr_in _ _ _ J1 C1 Ec) as (U1 & U2 & U3).
  destruct (j_segs _ _ J1 c U2) as (S1 & S2 & S3 & B & S4 & S5 & _).
  assert (Rest : crr_rest h1 = [(sg_blk (seg_of h1 c), sg_pointer (seg_of h1 c), sg_left (seg_of h1 c))]).
  { unfold crr_rest. rewrite Ec. auto. }
  set (s := seg_of h1 c) in *. cbv zeta in H.
  set (off := if sg_pointer s mod align =? 0 then 0 else align - sg_pointer s mod align) in *. injection H as H1 H2 H3.
  assert (Po : 0 <= sg_pointer s) by (unfold sg_pointer; lia).
  pose proof (Z.mod_pos_bound (sg_pointer s) align ltac:(lia)) as Mb.
  assert (O1 : 0 <= off /\ sz + off <= sg_left s /\ (sg_pointer s + off) mod align = 0 /\ off < align).
  { unfold off. destruct (Z.eqb_spec (sg_pointer s mod align) 0) as [Z|Z].
    - replace (sg_pointer s + 0) with (sg_pointer s) by lia. lia.
    - destruct Fit as [Fit|[_ Fit]]; [|lia]. split; [lia|]. split; [lia|]. split; [|lia].
      rewrite (Z.div_mod (sg_pointer s) align) at 1 by lia.
      replace (align * (sg_pointer s / align) + sg_pointer s mod align + (align - sg_pointer s mod align))
        with ((sg_pointer s / align + 1) * align) by ring.
      apply Z_mod_mult. }
  clearbody off. destruct O1 as (O1 & O2 & O3 & O4).
  assert (Ul : u32 (sg_left s - (sz + off)) = sg_left s - (sz + off)) by (apply u32_id; lia).
  rewrite Ul in H3.
  assert (Hr : (c < length (h_links h1))%nat) by (apply (j_range _ _ J1); apply in_or_app; auto).
  assert (Sc : seg_of h' c = mkSeg (sg_blk s) (sg_off s) (sg_size s) (sg_left s - (sz + off)) (sg_sub s)).
  { rewrite <- H3, seg_of_set, Nat.eqb_refl by auto. auto. }
  assert (Em : h_mem h' = h_mem h1) by (rewrite <- H3; auto).
  assert (Eb : h_blocks h' = h_blocks h1) by (rewrite <- H3; auto).
  assert (Ec' : h_crr h' = Some c) by (rewrite <- H3; auto).
  assert (Eu : h_used h' = h_used h1) by (rewrite <- H3; auto).
  assert (J2 : J h' (own ++ crr_rest h1)).
  { rewrite <- H3. apply set_left_J; auto. fold s. lia. }
  assert (So : forall j, j <> c -> seg_of h' j = seg_of h1 j).
  { intros j X. rewrite <- H3, seg_of_set by auto. destruct (Nat.eqb_spec j c); congruence. }
  clear H3.
  split; [split|split; [|split; [|split; [|split]]]].
  - eapply J_own; [|exact J2]. intros b' o'. rewrite Rest, <- app_assoc, !cnt_app. unfold crr_rest. rewrite Ec', Sc.
    cbn [cnt app sg_blk sg_left sg_pointer]. unfold sg_pointer; cbn [sg_off sg_size sg_left].
    rewrite <- H1, <- H2. unfold sg_pointer.
    unfold inside. destruct (Nat.eqb b' (sg_blk s)); cbn [andb]; [|lia].
    set (p := sg_off s + sg_size s - sg_left s) in *.
    destruct (Z.leb_spec (p + off) o'), (Z.ltb_spec o' (p + off + sz)),
      (Z.leb_spec (sg_off s + sg_size s - (sg_left s - (sz + off))) o'),
      (Z.ltb_spec o' (sg_off s + sg_size s - (sg_left s - (sz + off)) + (sg_left s - (sz + off)))),
      (Z.leb_spec p o'), (Z.ltb_spec o' (p + sg_left s)); cbn [andb]; lia.
  - unfold crr_ok in *. rewrite Ec'. rewrite Ec in C1. rewrite Eu. exact C1.
  - eapply grows_trans; [exact G1|]. exists []. rewrite Eb, app_nil_r. auto.
  - intros b' o' X. rewrite Em. auto.
  - rewrite <- H2. auto.
  - intros ->. assert (off = 0) by lia. rewrite <- Fl. unfold fills. rewrite Eu.
    unfold crr_ok in C1. rewrite Ec in C1. destruct C1 as [u C1].
    pose proof (j_nodup _ _ J1) as N. rewrite C1 in N |- *.
    rewrite !map_app, !concat_app, <- app_assoc. f_equal.
    + f_equal. apply map_ext_in. intros j X. rewrite So; auto. intros ->.
      apply NoDup_app_l in N. apply NoDup_remove_2 in N. apply N. rewrite app_nil_r. auto.
    + cbn [map concat]. rewrite !app_nil_r, Sc. fold s. unfold fill_of. cbn [sg_blk sg_off sg_size sg_left].
      rewrite <- H1, <- H2. replace (sg_size s - (sg_left s - (sz + off))) with (sg_size s - sg_left s + sz) by lia.
      rewrite addrs_app by lia. f_equal. unfold sg_pointer. f_equal. f_equal. f_equal. lia.
  - exists B. rewrite Eb, <- H1, <- H2. unfold sg_pointer in *. split; auto. lia.
Qed.

(** ** clear *)
Record K (todo : list nat) (h : heap) : Prop := mkK {
  k_links : NoDup (todo ++ h_ulinks h ++ h_flinks h);
  k_range : forall i, In i (todo ++ h_ulinks h ++ h_flinks h) -> (i < length (h_links h))%nat;
  k_used : h_used h = [];
  k_crr : h_crr h = None;
  k_free : Permutation (h_free h) (h_ulinks h);
  k_main : forall i, In i (h_ulinks h) -> sg_sub (seg_of h i) = false /\ sg_left (seg_of h i) = sg_size (seg_of h i);
  k_segs : forall i, In i (todo ++ h_ulinks h) -> seg_ok (h_blocks h) (seg_of h i);
  k_blk : NoDup (map (fun i => sg_blk (seg_of h i)) (filter (fun i => negb (sg_sub (seg_of h i))) (todo ++ h_ulinks h))) }.

Lemma cnt_distinct : forall b o (l : list seg), NoDup (map sg_blk l) -> cnt b o (map whole l) <= 1.
Proof.
  induction l as [|s l IH]; cbn [map cnt]; intro N; [lia|].
  inversion N as [|? ? N1 N2]; subst. specialize (IH N2).
  unfold inside, whole at 1. destruct (Nat.eqb_spec b (sg_blk s)) as [E|E]; cbn [andb]; [|lia].
  assert (Z : cnt b o (map whole l) = 0).
  { clear - N1 E. subst b. induction l as [|t l IH]; cbn [map cnt]; auto.
    rewrite IH by (intro X; apply N1; right; auto). unfold inside, whole.
    destruct (Nat.eqb_spec (sg_blk s) (sg_blk t)) as [E|E]; cbn [andb]; auto.
    exfalso. apply N1. left. auto. }
  destruct (_ && _); lia.
Qed.

Lemma insert_free_perm : forall links size i l, Permutation (insert_free links size i l) (i :: l).
Proof.
  induction l as [|j l IH]; cbn; auto. destruct (size_pred _ _ _); auto.
  eapply perm_trans; [apply perm_skip; exact IH|]. apply perm_swap.
Qed.

Lemma filter_all : forall {A} (f : A -> bool) l, (forall x, In x l -> f x = true) -> filter f l = l.
Proof. induction l; intros H; cbn; auto. rewrite (H a) by (left; auto). f_equal. apply IHl. intros; apply H; right; auto. Qed.

Lemma clear_loop_J : forall todo h, K todo h -> J (clear_loop todo h) [] /\ h_used (clear_loop todo h) = [] /\
  h_crr (clear_loop todo h) = None /\ h_blocks (clear_loop todo h) = h_blocks h.
Proof.
  induction todo as [|i todo IH]; intros h Hk.
  - cbn [clear_loop]. destruct Hk. cbn [app] in *. split; [|auto]. split; auto.
    + rewrite k_used0. cbn. eapply Permutation_NoDup; [symmetry; eauto|].
      apply NoDup_app_l in k_links0. auto.
    + rewrite k_used0. cbn. intros j X. eapply Permutation_in; eauto.
    + intros j X. apply k_main0. eapply Permutation_in; eauto.
    + cbn [cnt]. intros b o. unfold frees.
      replace (map (fun i => whole (seg_of h i)) (h_free h)) with (map whole (map (seg_of h) (h_free h))) by apply map_map.
      pose proof (cnt_distinct b o (map (seg_of h) (h_free h))) as C.
      rewrite map_map in C. cbn [Z.add]. apply C.
      rewrite filter_all in k_blk0 by (intros j X; destruct (k_main0 j X) as [-> _]; auto).
      eapply Permutation_NoDup; [|exact k_blk0]. apply Permutation_map. symmetry. auto.
  - cbn [clear_loop]. destruct (sg_sub (seg_of h i)) eqn:Es.
    + match goal with |- context [clear_loop todo ?x] => set (h1 := x) end.
      assert (S1 : forall j, seg_of h1 j = seg_of h j) by reflexivity.
      destruct (IH h1) as (A1 & A2 & A3 & A4); [|split; [auto|split; [auto|split; [auto|rewrite A4; reflexivity]]]].
      destruct Hk. cbn [app] in *. 
      assert (P : Permutation (todo ++ h_ulinks h1 ++ h_flinks h1) (i :: todo ++ h_ulinks h ++ h_flinks h)).
      { unfold h1; cbn. rewrite !app_assoc. symmetry. apply Permutation_cons_append. }
      split; auto.
      * eapply Permutation_NoDup; [symmetry; exact P|auto].
      * intros j X. apply (k_range0 j). eapply Permutation_in; [exact P|auto].
      * intros j X. rewrite S1. apply (k_segs0 j). right; auto.
      * cbn [filter] in k_blk0. rewrite Es in k_blk0. exact k_blk0.
    + set (s := mkSeg _ _ _ _ _).
      match goal with |- context [clear_loop todo ?x] => set (h2 := x) end.
      assert (Hi : (i < length (h_links h))%nat) by (apply (k_range _ _ Hk); left; auto).
      assert (S2 : forall j, seg_of h2 j = if Nat.eqb j i then s else seg_of h j).
      { intro j. exact (seg_of_set h i s j Hi). }
      assert (F1 : h_ulinks h2 = h_ulinks h ++ [i]) by reflexivity.
      assert (F2 : h_flinks h2 = h_flinks h) by reflexivity.
      assert (F3 : h_used h2 = []) by reflexivity.
      assert (F4 : h_crr h2 = None) by reflexivity.
      assert (F5 : Permutation (h_free h2) (i :: h_free h)) by apply insert_free_perm.
      assert (F6 : h_blocks h2 = h_blocks h) by reflexivity.
      assert (F7 : length (h_links h2) = length (h_links h)) by apply length_set_nth.
      clearbody h2.
      destruct (IH h2) as (A1 & A2 & A3 & A4); [|split; [auto|split; [auto|split; [auto|rewrite A4; auto]]]].
      destruct Hk. cbn [app] in *.
      assert (N : forall j, In j (todo ++ h_ulinks h) -> Nat.eqb j i = false).
      { intros j X. apply Nat.eqb_neq. intros ->. inversion k_links0 as [|? ? Y Z]. apply Y.
        rewrite app_assoc. apply in_or_app. auto. }
      assert (P : Permutation (todo ++ h_ulinks h2 ++ h_flinks h2) (i :: todo ++ h_ulinks h ++ h_flinks h)).
      { rewrite F1, F2. rewrite <- app_assoc. cbn. rewrite app_assoc. symmetry. rewrite (app_assoc todo).
        apply Permutation_middle. }
      assert (P' : Permutation (todo ++ h_ulinks h2) (i :: todo ++ h_ulinks h)).
      { rewrite F1. rewrite app_assoc. symmetry. apply Permutation_cons_append. }
      split; auto.
      * eapply Permutation_NoDup; [symmetry; exact P|auto].
      * rewrite F7. intros j X. apply (k_range0 j). eapply Permutation_in; [exact P|auto].
      * rewrite F5, F1, k_free0. apply Permutation_cons_append.
      * rewrite F1. intros j X. rewrite S2. apply in_app_or in X as [X|[<-|[]]].
        { rewrite N by (apply in_or_app; auto). auto. }
        rewrite Nat.eqb_refl. split; auto.
      * intros j X. rewrite F6, S2. apply (Permutation_in _ P') in X. destruct X as [<-|X].
        { rewrite Nat.eqb_refl. destruct (k_segs0 i (or_introl eq_refl)) as (A & B & C & D). 
          unfold seg_ok, s; cbn. rewrite Es in D. repeat split; auto; lia. }
        rewrite N by auto. apply k_segs0. right; auto.
      * eapply Permutation_NoDup; [|exact k_blk0]. cbn [filter]. rewrite Es. cbn [negb map].
        rewrite (map_ext_in _ (fun j => sg_blk (seg_of h2 j))).
        2:{ intros j X. apply filter_In in X as [X _]. rewrite S2, N; auto. }
        rewrite (filter_ext_In _ (fun j => negb (sg_sub (seg_of h2 j)))).
        2:{ intros j X. rewrite S2, N; auto. }
        replace (sg_blk (seg_of h i)) with (sg_blk (seg_of h2 i)) by (rewrite S2, Nat.eqb_refl; reflexivity).
        assert (E : filter (fun j => negb (sg_sub (seg_of h2 j))) (todo ++ h_ulinks h2) =
                    filter (fun j => negb (sg_sub (seg_of h2 j))) (todo ++ h_ulinks h) ++ [i]).
        { rewrite F1, app_assoc, filter_app. f_equal. cbn [filter]. rewrite S2, Nat.eqb_refl. reflexivity. }
        rewrite E, map_app. cbn [map]. exact (Permutation_cons_append _ _).
Qed.

Lemma clear_spec : forall h own, J h own -> hinv (clear h) [] /\ h_used (clear h) = [] /\ h_blocks (clear h) = h_blocks h.
Proof.
  intros h own []. unfold clear.
  match goal with |- context [clear_loop _ ?x] => set (h1 := x) end.
  destruct (clear_loop_J (h_ulinks h) h1) as (A & B & C & D).
  - split; cbn; auto.
    + contradiction.
    + intros j X. rewrite app_nil_r in X. apply j_segs0. auto.
    + rewrite app_nil_r. exact j_main0.
  - split; [|split; auto]. split; [|unfold crr_ok; rewrite C; auto].
    unfold crr_rest. rewrite C. exact A.
Qed.

(** ** a client *)
Definition cinv (h : heap) (live : list hblock) : Prop :=
  hinv h (live_regions live) /\ Forall (placed_block (h_blocks h)) live /\
  Forall (fun x => 0 <= hb_size x < two32) live.

Lemma live_split : forall live k x b o, nth_error live k = Some x ->
  cnt b o (live_regions live) = inside b o (hb_blk x, hb_off x, hb_size x) + cnt b o (live_regions (remove_nth k live)).
Proof.
  induction live as [|y live IH]; intros [|k] x b o H; cbn in H; try discriminate.
  - injection H as <-. reflexivity.
  - change (remove_nth (S k) (y :: live)) with (y :: remove_nth k live).
    change (cnt b o (live_regions (y :: live))) with (inside b o (hb_blk y, hb_off y, hb_size y) + cnt b o (live_regions live)).
    change (cnt b o (live_regions (y :: remove_nth k live)))
      with (inside b o (hb_blk y, hb_off y, hb_size y) + cnt b o (live_regions (remove_nth k live))).
    rewrite (IH _ _ b o H). lia.
Qed.

Lemma Forall_remove_nth : forall {A} (P : A -> Prop) k l, Forall P l -> Forall P (remove_nth k l).
Proof.
  intros A P k l H. unfold remove_nth. rewrite Forall_forall in *. intros x X.
  apply H. rewrite <- (firstn_skipn k l). apply in_or_app. apply in_app_or in X as [X|X]; auto.
  right. clear - X. revert l X. induction k; intros [|y l] X; cbn in *; auto.
Qed.

Lemma hinv_mem : forall h own m, hinv h own ->
  hinv (mkHeap (h_cap h) (h_crr h) (h_links h) (h_used h) (h_free h) (h_ulinks h) (h_flinks h) (h_blocks h) m) own.
Proof. intros h own m [[] C]. split; [split; auto|exact C]. Qed.

Lemma placed_grows : forall h h' x, grows h h' -> placed_block (h_blocks h) x -> placed_block (h_blocks h') x.
Proof. intros h h' x G (A & S & B & C). split; auto. exists S. split; auto. eapply grows_nth; eauto. Qed.

(** giving back the k-th block *)
Lemma put_mem_spec : forall h own b o sz, hinv h ((b, o, sz) :: own) -> 0 <= sz < two32 -> 0 <= o ->
  (exists B, nth_error (h_blocks h) b = Some B /\ o + sz <= B) ->
  hinv (put_mem h b o sz) own /\ kept h (put_mem h b o sz) own /\ h_blocks (put_mem h b o sz) = h_blocks h.
Proof.
  intros h own b o sz [Hj C] Hs Ho Hb.
  destruct (put_mem_eqs h _ b o sz Hj Hs) as (i & N & Eu & Nd & Rg & E1 & E2 & E3 & E4 & E5 & E6 & S').
  assert (R : crr_rest (put_mem h b o sz) = crr_rest h).
  { unfold crr_rest. rewrite E5. destruct (h_crr h) as [c|] eqn:Ec; auto.
    destruct (crr_in _ _ _ Hj C Ec) as (U1 & U2 & U3). cbv zeta. rewrite S'.
    destruct (Nat.eqb_spec c i); [subst; tauto|auto]. }
  split; [split|split; auto].
  - rewrite R. apply put_mem_J; auto.
  - unfold crr_ok in *. rewrite E5, E1. auto.
  - intros b' o' X. rewrite E4. unfold mzero.
    pose proof (j_cnt _ _ Hj b' o') as Y. cbn [app cnt] in Y. rewrite cnt_app in Y.
    pose proof (cnt_nonneg b' o' (frees h)). pose proof (cnt_nonneg b' o' (crr_rest h)).
    unfold inside in Y. destruct (_ && _); auto. lia.
Qed.

Lemma hinv_own : forall h o1 o2, (forall b o, cnt b o o2 <= cnt b o o1) -> hinv h o1 -> hinv h o2.
Proof.
  intros h o1 o2 H [A B]. split; auto. eapply J_own; [|exact A]. intros b o. rewrite !cnt_app. specialize (H b o). lia.
Qed.

Lemma client_step_inv : forall h live op, cinv h live -> op_ok op ->
  let (h', live') := client_step (h, live) op in cinv h' live' /\ grows h h'.
Proof.
  intros h live op (I & Fp & Fs) Hop. destruct op as [sz align|k|k bs|]; cbn [client_step].
  - destruct Hop as [Hs Ha]. destruct (get_mem h sz align) as [[b o] h'] eqn:E.
    destruct (get_mem_spec _ _ _ _ _ _ _ I Hs Ha E) as (I' & G & Kp & Al & _ & B & N1 & N2 & N3).
    split; auto. split; [|split].
    + unfold live_regions. rewrite map_app. exact I'.
    + apply Forall_app. split.
      * eapply Forall_impl; [|exact Fp]. intros x. apply placed_grows. auto.
      * constructor; auto. split; auto. exists B. cbn. auto.
    + apply Forall_app. split; auto.
  - destruct (nth_error live k) as [x|] eqn:E; [|split; [split; auto|apply grows_refl]].
    pose proof (nth_error_In _ _ E) as Ix.
    rewrite Forall_forall in Fp, Fs. destruct (Fp x Ix) as (A & B & N1 & N2 & N3). pose proof (Fs x Ix) as S1.
    destruct (put_mem_spec h (live_regions (remove_nth k live)) (hb_blk x) (hb_off x) (hb_size x)) as (I' & Kp & Eb); auto.
    + eapply hinv_own; [|exact I]. intros b o. rewrite (live_split _ _ _ _ _ E). cbn [cnt]. lia.
    + exists B. split; auto.
    + rewrite <- Forall_forall in Fp, Fs.
      split; [|exists []; rewrite Eb, app_nil_r; auto]. split; [auto|split].
      * rewrite Eb. apply Forall_remove_nth. auto.
      * apply Forall_remove_nth. auto.
  - destruct (nth_error live k) as [x|] eqn:E; [|split; [split; auto|apply grows_refl]].
    destruct (zlen bs <=? hb_size x); (split; [split; [|split]; auto|exists []; rewrite app_nil_r; reflexivity]).
    apply hinv_mem. auto.
  - destruct I as [I _]. destruct (clear_spec _ _ I) as (I' & U & Eb). split; [|exists []; rewrite Eb, app_nil_r; auto].
    split; auto.
Qed.

Lemma heap_init_inv : forall m, cinv (heap_init m) [].
Proof.
  intro m. split; [|split; constructor]. split; [|reflexivity]. split; cbn; try constructor; try contradiction; auto.
  - intros x [].
  - intros; lia.
Qed.

Lemma client_run_inv : forall ops st, cinv (fst st) (snd st) -> Forall op_ok ops ->
  cinv (fst (client_run ops st)) (snd (client_run ops st)).
Proof.
  induction ops as [|op ops IH]; intros [h live] I F; cbn [client_run fold_left]; auto.
  inversion F; subst. pose proof (client_step_inv h live op I H1) as X.
  fold (client_run ops (client_step (h, live) op)). destruct (client_step (h, live) op) as [h' live'].
  apply IH; auto. apply X.
Qed.

Lemma cinv_disjoint : forall h live, cinv h live -> disjoint_blocks live.
Proof.
  intros h live ((Hj & _) & _ & _) i j x y b o Hx Hy Ax Ay.
  destruct (Nat.eq_dec i j); auto. exfalso.
  pose proof (j_cnt _ _ Hj b o) as C. rewrite cnt_app in C.
  pose proof (cnt_nonneg b o (crr_rest h)). pose proof (cnt_nonneg b o (frees h)).
  assert (2 <= cnt b o (live_regions live)); [|lia]. clear - Hx Hy Ax Ay n.
  assert (In1 : forall z, holds z b o -> inside b o (hb_blk z, hb_off z, hb_size z) = 1).
  { intros z [E L]. unfold inside. rewrite E, Nat.eqb_refl. cbn [andb]. destruct (Z.leb_spec (hb_off z) o), (Z.ltb_spec o (hb_off z + hb_size z)); cbn; lia. }
  assert (One : forall l k z, nth_error l k = Some z -> holds z b o -> 1 <= cnt b o (live_regions l)).
  { intros l k z Hz Az. rewrite (live_split _ _ _ _ _ Hz), In1 by auto. pose proof (cnt_nonneg b o (live_regions (remove_nth k l))). lia. }
  revert i j Hx Hy n. induction live as [|w live IH]; intros [|i] [|j] Hx Hy n; cbn in Hx, Hy; try discriminate.
  - congruence.
  - injection Hx as ->. cbn [live_regions map cnt]. rewrite In1 by auto. pose proof (One _ _ _ Hy Ay). unfold live_regions in *. lia.
  - injection Hy as ->. cbn [live_regions map cnt]. rewrite In1 by auto. pose proof (One _ _ _ Hx Ax). unfold live_regions in *. lia.
  - cbn [live_regions map cnt]. pose proof (inside_range b o (hb_blk w, hb_off w, hb_size w)).
    specialize (IH i j Hx Hy ltac:(congruence)). unfold live_regions in *. lia.
Qed.

(** the contents of blocks that stay with the client only change by its own stores *)
Lemma client_step_contents : forall h live op x b o, cinv h live -> op_ok op ->
  In x live -> In x (snd (client_step (h, live) op)) -> holds x b o ->
  (forall k bs y, op = HStore k bs -> nth_error live k = Some y -> ~ holds y b o) ->
  (forall k, op = HPut k -> nth_error live k <> Some x) -> op <> HClear ->
  h_mem (fst (client_step (h, live) op)) b o = h_mem h b o.
Proof.
  intros h live op x b o I Hop Hx Hx' Ho Hst Hpt Hcl.
  assert (C1 : cnt b o (live_regions live) = 1).
  { destruct I as ((Hj & _) & _). pose proof (j_cnt _ _ Hj b o) as C. rewrite cnt_app in C.
    pose proof (cnt_nonneg b o (crr_rest h)). pose proof (cnt_nonneg b o (frees h)).
    apply In_nth_error in Hx as [k Hk]. pose proof (live_split _ _ _ b o Hk) as LS.
    pose proof (cnt_nonneg b o (live_regions (remove_nth k live))).
    destruct Ho as [E L]. unfold inside in LS. rewrite E, Nat.eqb_refl in LS. cbn [andb] in LS.
    destruct (Z.leb_spec (hb_off x) o), (Z.ltb_spec o (hb_off x + hb_size x)); cbn [andb] in LS; lia. }
  destruct I as (I & Fp & Fs).
  destruct op as [sz align|k|k bs|]; cbn [client_step] in *.
  - destruct Hop as [Hs Ha]. destruct (get_mem h sz align) as [[b' o'] h'] eqn:E.
    destruct (get_mem_spec _ _ _ _ _ _ _ I Hs Ha E) as (I' & G & Kp & _). cbn [fst]. apply Kp. auto.
  - destruct (nth_error live k) as [y|] eqn:E; auto. cbn [fst].
    pose proof (nth_error_In _ _ E) as Ix.
    rewrite Forall_forall in Fp, Fs. destruct (Fp y Ix) as (A & B & N1 & N2 & N3). pose proof (Fs y Ix) as S1.
    destruct (put_mem_spec h (live_regions (remove_nth k live)) (hb_blk y) (hb_off y) (hb_size y)) as (I' & Kp & Eb); auto.
    + eapply hinv_own; [|exact I]. intros b' o'. rewrite (live_split _ _ _ _ _ E). cbn [cnt]. lia.
    + exists B. split; auto.
    + apply Kp. rewrite (live_split _ _ _ b o E) in C1.
      assert (D : disjoint_blocks live) by (apply (cinv_disjoint h); split; auto; split; apply Forall_forall; auto).
      apply In_nth_error in Hx as [j Hj].
      assert (inside b o (hb_blk y, hb_off y, hb_size y) = 0); [|lia].
      unfold inside. destruct (Nat.eqb_spec b (hb_blk y)), (Z.leb_spec (hb_off y) o), (Z.ltb_spec o (hb_off y + hb_size y)); cbn; auto.
      exfalso. assert (j = k); [apply (D _ _ _ _ b o Hj E Ho); split; auto; lia|]. subst. apply (Hpt k eq_refl). congruence.
  - destruct (nth_error live k) as [y|] eqn:E; auto. destruct (Z.leb_spec (zlen bs) (hb_size y)); cbn [fst]; auto.
    cbn [h_mem]. unfold mset. specialize (Hst k bs y eq_refl E).
    destruct (Nat.eqb_spec b (hb_blk y)), (Z.leb_spec (hb_off y) o), (Z.ltb_spec o (hb_off y + zlen bs)); cbn [andb]; auto.
    exfalso. apply Hst. split; auto. lia.
  - congruence.
Qed.
