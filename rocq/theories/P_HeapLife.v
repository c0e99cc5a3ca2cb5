(** Invariants of the life of heaps. *)
From Coq Require Import ZArith List Bool Lia ZifyBool ZifyNat Permutation.
From Verif Require Import Base Lemmas M_Heap S_Heap M_HeapLife S_HeapLife P_Heap.
Import ListNotations.
Open Scope Z_scope.

(** every link is in one of the two lists, every block belongs to a link in use, free links have no block *)
Record full (h : heap) : Prop := mkFull {
  f_links : Permutation (h_ulinks h ++ h_flinks h) (seq 0 (length (h_links h)));
  f_blk : forall b, (b < length (h_blocks h))%nat -> exists i, In i (h_ulinks h) /\ sg_sub (seg_of h i) = false /\ sg_blk (seg_of h i) = b;
  f_sub : forall i, In i (h_flinks h) -> sg_sub (seg_of h i) = true }.

Lemma full_range : forall h i, full h -> In i (h_ulinks h ++ h_flinks h) -> (i < length (h_links h))%nat.
Proof. intros h i F X. eapply Permutation_in in X; [|apply (f_links _ F)]. apply in_seq in X. lia. Qed.
Lemma full_nodup : forall h, full h -> NoDup (h_ulinks h ++ h_flinks h).
Proof. intros h F. eapply Permutation_NoDup; [symmetry; apply (f_links _ F)|apply seq_NoDup]. Qed.

(** a link is taken and given a segment *)
Lemma get_link_full : forall h i h1 s, full h -> get_link h = (i, h1) ->
  let h2 := set_link h1 i s in
  Permutation (h_ulinks h2 ++ h_flinks h2) (seq 0 (length (h_links h2))) /\
  h_ulinks h2 = h_ulinks h ++ [i] /\ h_blocks h2 = h_blocks h /\ (length (h_links h) <= length (h_links h2))%nat /\
  (forall j, In j (h_ulinks h) -> seg_of h2 j = seg_of h j) /\
  (forall j, In j (h_flinks h2) -> sg_sub (seg_of h2 j) = true) /\ seg_of h2 i = s.
Proof.
  intros h i h1 s F E. cbv zeta. unfold get_link in E.
  pose proof (full_nodup h F) as N.
  destruct (h_flinks h) as [|k fl] eqn:Ef; injection E as <- <-.
  - rewrite app_nil_r in N.
    assert (L : forall j, In j (h_ulinks h) -> (j < length (h_links h))%nat).
    { intros j X. apply (full_range h j F). apply in_or_app; auto. }
    split; [|split; [|split; [|split; [|split; [|split]]]]].
    + cbn. rewrite app_nil_r, length_set_nth, app_length; cbn.
      rewrite Nat.add_1_r, seq_S. cbn. apply Permutation_app_tail.
      pose proof (f_links _ F) as P. rewrite Ef, app_nil_r in P. exact P.
    + reflexivity.
    + reflexivity.
    + cbn. rewrite length_set_nth, app_length. lia.
    + intros j X. specialize (L j X). unfold seg_of; cbn. rewrite nth_set_nth_ne by lia. apply app_nth1. auto.
    + cbn. contradiction.
    + unfold seg_of; cbn. apply nth_set_nth_eq. rewrite app_length; cbn; lia.
  - assert (L : (k < length (h_links h))%nat).
    { apply (full_range h k F). rewrite Ef. apply in_or_app; right; left; auto. }
    split; [|split; [|split; [|split; [|split; [|split]]]]].
    + cbn. rewrite length_set_nth, <- app_assoc. cbn. rewrite <- Ef. apply F.
    + reflexivity.
    + reflexivity.
    + cbn. rewrite length_set_nth. lia.
    + intros j X. unfold seg_of; cbn. apply nth_set_nth_ne. intros ->.
      apply NoDup_remove_2 in N. apply N. apply in_or_app; auto.
    + cbn. intros j X. unfold seg_of; cbn. rewrite nth_set_nth_ne.
      * apply (f_sub _ F). rewrite Ef. right; auto.
      * intros ->. apply NoDup_remove_2 in N. apply N. apply in_or_app; auto.
    + unfold seg_of; cbn. apply nth_set_nth_eq. auto.
Qed.

Definition wider (h h' : heap) : Prop :=
  (length (h_links h) <= length (h_links h'))%nat /\ (length (h_blocks h) <= length (h_blocks h'))%nat.
Lemma wider_refl : forall h, wider h h. Proof. split; lia. Qed.
Lemma wider_trans : forall a b c, wider a b -> wider b c -> wider a c. Proof. unfold wider. intros. lia. Qed.

Lemma put_mem_full : forall h b o sz, full h -> full (put_mem h b o sz) /\ wider h (put_mem h b o sz).
Proof.
  intros h b o sz F. unfold put_mem. destruct (get_link h) as [i h1] eqn:E.
  destruct (get_link_full h i h1 (mkSeg b o (u32 sz) (u32 sz) true) F E) as (P & U & B & L & S1 & S2 & S3).
  split; [|split; cbn [h_links h_blocks]; [exact L|rewrite B; lia]].
  split; [exact P| |exact S2].
  cbn [h_blocks]. rewrite B. intros b' X. destruct (f_blk _ F b' X) as (j & J1 & J2 & J3). exists j.
  change (In j (h_ulinks (set_link h1 i (mkSeg b o (u32 sz) (u32 sz) true))) /\
          sg_sub (seg_of (set_link h1 i (mkSeg b o (u32 sz) (u32 sz) true)) j) = false /\
          sg_blk (seg_of (set_link h1 i (mkSeg b o (u32 sz) (u32 sz) true)) j) = b').
  rewrite U, (S1 j J1). split; auto. apply in_or_app; auto.
Qed.

Lemma alloc_full : forall h n align, full h -> full (snd (alloc h n align)) /\ wider h (snd (alloc h n align)).
Proof.
  intros h n align F. unfold alloc.
  match goal with |- context [find_rm _ (h_free ?x)] => set (h0 := x) end.
  assert (X : full h0 /\ wider h h0).
  { unfold h0. destruct (h_crr h) as [c|]; [|split; [auto|apply wider_refl]].
    cbv zeta. destruct (0 <? _); [apply put_mem_full; auto|split; [auto|apply wider_refl]]. }
  destruct X as [F0 W0]. clearbody h0. clear F.
  destruct (find_rm _ (h_free h0)) as [[i free]|]; cbn [snd].
  - split; [|exact W0]. destruct F0. split; auto.
  - set (cap := if _ && _ then _ else _). clearbody cap. set (sz := if n <? cap then cap else n). clearbody sz.
    destruct (get_link h0) as [i h1] eqn:E. cbn [snd].
    destruct (get_link_full h0 i h1 (mkSeg (length (h_blocks h0)) 0 (u32 sz) (u32 sz) false) F0 E)
      as (P & U & B & L & S1 & S2 & S3).
    split; [|eapply wider_trans; [exact W0|split; cbn [h_links h_blocks]; [exact L|rewrite B, app_length; lia]]].
    split; [exact P| |exact S2].
    set (s := mkSeg (length (h_blocks h0)) 0 (u32 sz) (u32 sz) false) in *.
    cbn [h_blocks]. rewrite B, app_length. cbn [length]. intros b X.
    destruct (Nat.eq_dec b (length (h_blocks h0))) as [Eb|Nb].
    + exists i. change (In i (h_ulinks (set_link h1 i s)) /\ sg_sub (seg_of (set_link h1 i s) i) = false /\
                        sg_blk (seg_of (set_link h1 i s) i) = b).
      rewrite U, S3. split; [apply in_or_app; right; left; auto|auto].
    + destruct (f_blk _ F0 b ltac:(lia)) as (j & J1 & J2 & J3). exists j.
      change (In j (h_ulinks (set_link h1 i s)) /\ sg_sub (seg_of (set_link h1 i s) j) = false /\
              sg_blk (seg_of (set_link h1 i s) j) = b).
      rewrite U, (S1 j J1). split; auto. apply in_or_app; auto.
Qed.

(** a change of how much is left *)
Lemma seg_of_left : forall h c left j,
  let h' := set_link h c (mkSeg (sg_blk (seg_of h c)) (sg_off (seg_of h c)) (sg_size (seg_of h c)) left (sg_sub (seg_of h c))) in
  sg_sub (seg_of h' j) = sg_sub (seg_of h j) /\ sg_blk (seg_of h' j) = sg_blk (seg_of h j).
Proof.
  intros h c left j. cbv zeta. unfold seg_of, set_link; cbn [h_links].
  destruct (Nat.lt_ge_cases c (length (h_links h))) as [L|L].
  - destruct (Nat.eq_dec j c) as [->|N].
    + rewrite !nth_set_nth_eq by auto. split; reflexivity.
    + rewrite !nth_set_nth_ne by auto. split; reflexivity.
  - assert (E : forall (x : seg), set_nth c x (h_links h) = h_links h).
    { intro x. revert c L. generalize (h_links h). induction l as [|y l IH]; intros [|c] L; cbn in *; auto; try lia.
      f_equal. apply IH. lia. }
    rewrite !E. split; reflexivity.
Qed.
Lemma set_left_full : forall h c left, full h ->
  full (set_link h c (mkSeg (sg_blk (seg_of h c)) (sg_off (seg_of h c)) (sg_size (seg_of h c)) left (sg_sub (seg_of h c)))).
Proof.
  intros h c left F. pose proof (seg_of_left h c left) as S. cbv zeta in S.
  split.
  - cbn. rewrite length_set_nth. apply F.
  - intros b X. destruct (f_blk _ F b X) as (j & J1 & J2 & J3). exists j. destruct (S j) as [-> ->]. auto.
  - intros j X. destruct (S j) as [-> _]. apply (f_sub _ F). exact X.
Qed.

Lemma get_mem_full : forall h sz align, full h -> full (snd (get_mem h sz align)) /\ wider h (snd (get_mem h sz align)).
Proof.
  intros h sz align F. unfold get_mem.
  assert (X : exists c h1, (if match h_crr h with
                | Some c => negb (sg_left (seg_of h c) <? sz + align - 1)
                | None => false
                end then (match h_crr h with Some c => c | None => O end, h)
    else let (c, h1) := alloc h sz align in (c, set_crr h1 c)) = (c, h1) /\ full h1 /\ wider h h1).
  { destruct (match h_crr h with Some _ => _ | None => _ end).
    - eexists _, _. split; [reflexivity|]. split; [auto|apply wider_refl].
    - pose proof (alloc_full h sz align F) as [A B]. destruct (alloc h sz align) as [c h1]. cbn [snd] in *.
      exists c, (set_crr h1 c). split; [reflexivity|]. split; [destruct A; split; auto|exact B]. }
  destruct X as (c & h1 & E & F1 & W). rewrite E. cbv zeta. cbn [snd].
  split; [apply set_left_full; auto|]. destruct W. split; cbn [h_links h_blocks set_link]; [rewrite length_set_nth|]; auto.
Qed.

Lemma clear_loop_full : forall todo h,
  Permutation (todo ++ h_ulinks h ++ h_flinks h) (seq 0 (length (h_links h))) ->
  (forall b, (b < length (h_blocks h))%nat -> exists i, In i (todo ++ h_ulinks h) /\ sg_sub (seg_of h i) = false /\ sg_blk (seg_of h i) = b) ->
  (forall i, In i (h_flinks h) -> sg_sub (seg_of h i) = true) ->
  full (clear_loop todo h) /\ length (h_links (clear_loop todo h)) = length (h_links h) /\
  h_blocks (clear_loop todo h) = h_blocks h.
Proof.
  induction todo as [|i todo IH]; intros h P B S; cbn [clear_loop].
  - split; [split; auto|auto].
  - cbv zeta. destruct (sg_sub (seg_of h i)) eqn:E.
    + match goal with |- context [clear_loop todo ?x] => set (h1 := x) end.
      assert (Q : forall j, seg_of h1 j = seg_of h j) by reflexivity.
      destruct (IH h1) as (I1 & I2 & I3).
      * cbn. eapply perm_trans; [|exact P]. cbn. rewrite (app_assoc (h_ulinks h)), app_assoc.
        symmetry. apply Permutation_cons_append.
      * intros b X. destruct (B b X) as (j & J1 & J2 & J3). exists j. rewrite Q. split; [|auto].
        destruct J1 as [<-|J1]; [congruence|exact J1].
      * intros j X. rewrite Q. cbn in X. apply in_app_or in X as [X|[<-|[]]]; auto.
      * auto.
    + match goal with |- context [clear_loop todo ?x] => set (h2 := x) end.
      assert (Q : forall j, sg_sub (seg_of h2 j) = sg_sub (seg_of h j) /\ sg_blk (seg_of h2 j) = sg_blk (seg_of h j)).
      { intro j. pose proof (seg_of_left h i (sg_size (seg_of h i)) j) as X. rewrite E in X. exact X. }
      assert (L : length (h_links h2) = length (h_links h)) by apply length_set_nth.
      assert (U : h_ulinks h2 = h_ulinks h ++ [i]) by reflexivity.
      assert (Ef : h_flinks h2 = h_flinks h) by reflexivity.
      assert (Eb : h_blocks h2 = h_blocks h) by reflexivity.
      clearbody h2.
      destruct (IH h2) as (I1 & I2 & I3).
      * rewrite L, U, Ef, <- app_assoc. eapply perm_trans; [|exact P]. cbn.
        rewrite app_assoc. rewrite (app_assoc todo (h_ulinks h)). symmetry. apply Permutation_middle.
      * intros b X. rewrite Eb in X. destruct (B b X) as (j & J1 & J2 & J3). exists j.
        destruct (Q j) as [-> ->]. split; [|auto]. rewrite U, app_assoc.
        destruct J1 as [<-|J1]; apply in_or_app; [right; left|left]; auto.
      * intros j X. destruct (Q j) as [-> _]. apply S. rewrite <- Ef. auto.
      * rewrite I2, I3, L, Eb. auto.
Qed.
Lemma clear_full : forall h, full h -> full (clear h) /\ wider h (clear h).
Proof.
  intros h F. unfold clear.
  match goal with |- context [clear_loop _ ?x] => set (h1 := x) end.
  destruct (clear_loop_full (h_ulinks h) h1) as (A & B & C).
  - cbn. apply F.
  - intros b X. destruct (f_blk _ F b X) as (i & I1 & I2). exists i. split; [apply in_or_app; auto|exact I2].
  - apply F.
  - split; auto. split; [rewrite B|rewrite C]; cbn; lia.
Qed.

Lemma step_full : forall h held op, full h ->
  full (fst (client_step (h, held) op)) /\ wider h (fst (client_step (h, held) op)).
Proof.
  intros h held op F. destruct op as [sz align|k|k bs|]; cbn [client_step].
  - pose proof (get_mem_full h sz align F) as X. destruct (get_mem h sz align) as [[b o] h']. exact X.
  - destruct (nth_error held k); cbn [fst]; [apply put_mem_full; auto|split; [auto|apply wider_refl]].
  - destruct (nth_error held k) as [x|]; [destruct (_ <=? _)|]; cbn [fst]; (split; [|split; cbn; lia]); auto.
    destruct F. split; auto.
  - apply clear_full. auto.
Qed.

Lemma full_init : forall m, full (heap_init m).
Proof. intro m. split; cbn; auto; try contradiction. intros; lia. Qed.
Lemma full_emptied : forall h, full (emptied h).
Proof. intro m. split; cbn; auto; try contradiction. intros; lia. Qed.
Lemma cinv_emptied : forall h, cinv (emptied h) [].
Proof.
  intro h. split; [|split; constructor]. split; [|reflexivity]. split; cbn; try constructor; try contradiction; auto.
  - intros x [].
  - intros; lia.
Qed.

(** what destroy deletes *)
Lemma destroyed_blocks_all : forall h held, cinv h held -> full h ->
  Permutation (destroyed_blocks h) (seq 0 (length (h_blocks h))).
Proof.
  intros h held ((Hj & _) & _ & _) F. unfold destroyed_blocks, destroyed_links.
  rewrite filter_app.
  assert (E : filter (fun i => negb (sg_sub (seg_of h i))) (h_flinks h) = []).
  { pose proof (f_sub _ F) as S. induction (h_flinks h) as [|i l IH]; cbn; auto.
    rewrite (S i) by (left; auto). cbn. apply IH. intros; apply S; right; auto. }
  rewrite E, app_nil_r. fold (main_links h).
  apply NoDup_Permutation; [apply (j_main _ _ Hj)|apply seq_NoDup|].
  intro b. rewrite in_seq. split.
  - intro X. apply in_map_iff in X as (i & <- & X). apply filter_In in X as [X _].
    destruct (j_segs _ _ Hj i X) as (_ & _ & _ & B & Y & _).
    assert (Z : nth_error (h_blocks h) (sg_blk (seg_of h i)) <> None) by congruence. apply nth_error_Some in Z. lia.
  - intro X. destruct (f_blk _ F b ltac:(lia)) as (i & I1 & I2 & I3). apply in_map_iff. exists i. split; auto.
    apply filter_In. rewrite I2. auto.
Qed.
Lemma destroyed_links_all : forall h, full h -> Permutation (destroyed_links h) (seq 0 (length (h_links h))).
Proof. intros h F. apply F. Qed.

(** ** all objects *)
Definition sound (x : option hobj) : Prop :=
  match x with Some o => cinv (ho_heap o) (ho_held o) /\ full (ho_heap o) | None => True end.
Definition space_of (x : option hobj) : list nat := match x with Some o => [ho_space o] | None => [] end.
Definition spaces (l : list (option hobj)) : list nat := concat (map space_of l).

Record linv (st : life) : Prop := mkLi {
  li_sound : Forall sound (l_objs st);
  li_spaces : NoDup (spaces (l_objs st));
  li_next : forall s, In s (spaces (l_objs st)) -> (s < l_next st)%nat;
  li_fb : forall s b, In (s, b) (l_fblocks st) -> (s < l_next st)%nat /\ ~ In s (spaces (l_objs st));
  li_fl : forall s b, In (s, b) (l_flinks st) -> (s < l_next st)%nat /\ ~ In s (spaces (l_objs st));
  li_acc : accounted st }.

Lemma linv_init : linv life_init.
Proof. split; cbn; auto; try constructor; try contradiction; cbn; auto; repeat split; try constructor. Qed.

Lemma obj_split : forall st i x, obj st i = Some x ->
  exists a c, l_objs st = a ++ Some x :: c /\ length a = i /\
    forall y, l_objs (set_obj st i y) = a ++ y :: c.
Proof.
  intros st i x. unfold obj, set_obj; cbn. generalize (l_objs st). intro l. revert i.
  induction l as [|z l IH]; intros [|i] H; cbn in H; try discriminate.
  - subst. exists [], l. auto.
  - destruct (IH i H) as (a & c & E & L & S). exists (z :: a), c. subst l. cbn. split; auto. split; auto.
    intro y. rewrite S. auto.
Qed.

Lemma tag_in : forall s l x, In x (tag s l) -> fst x = s.
Proof. intros s l x H. unfold tag in H. apply in_map_iff in H as (i & <- & _). auto. Qed.
Lemma tag_app : forall s a b, tag s (a ++ b) = tag s a ++ tag s b. Proof. intros. apply map_app. Qed.
Lemma tag_nodup : forall s l, NoDup l -> NoDup (tag s l).
Proof.
  intros s l H. induction H; cbn; constructor; auto. intro X. apply in_map_iff in X as (j & E & X). injection E as ->. auto.
Qed.
Lemma tag_perm : forall s a b, Permutation a b -> Permutation (tag s a) (tag s b).
Proof. intros. apply Permutation_map. auto. Qed.

Lemma owned_in : forall (f : option hobj -> list (nat * nat)),
  (forall x y, In y (f x) -> In (fst y) (space_of x)) ->
  forall l y, In y (concat (map f l)) -> In (fst y) (spaces l).
Proof.
  intros f H l y X. apply in_concat in X as (z & Z & X). apply in_map_iff in Z as (x & <- & Z).
  unfold spaces. apply in_concat. exists (space_of x). split; [apply in_map; auto|apply H; auto].
Qed.
Lemma owned_blocks_space : forall x y, In y (owned_blocks x) -> In (fst y) (space_of x).
Proof. intros [o|] y H; [|destruct H]. cbn. apply tag_in in H. auto. Qed.
Lemma owned_links_space : forall x y, In y (owned_links x) -> In (fst y) (space_of x).
Proof. intros [o|] y H; [|destruct H]. cbn. apply tag_in in H. auto. Qed.

Lemma NoDup_app_intro : forall {A} (a b : list A), NoDup a -> NoDup b -> (forall x, In x a -> In x b -> False) -> NoDup (a ++ b).
Proof.
  induction a as [|y a IH]; cbn; intros b Ha Hb D; auto. inversion Ha; subst. constructor.
  - intro X. apply in_app_or in X as [X|X]; auto. apply (D y); auto.
  - apply IH; auto. intros x X Y. apply (D x); auto.
Qed.

(** the account of one kind of thing (blocks or links) *)
Definition acc (f : option hobj -> list (nat * nat)) (all freed : list (nat * nat)) (l : list (option hobj)) : Prop :=
  NoDup all /\ Permutation all (freed ++ concat (map f l)).

(** an object is replaced by one with more of it *)
Lemma acc_use : forall f all freed a c x y s more,
  (forall x y, In y (f x) -> In (fst y) (space_of x)) ->
  acc f all freed (a ++ x :: c) -> f y = f x ++ tag s more -> NoDup more -> space_of x = [s] ->
  (forall b, In b more -> ~ In (s, b) (f x)) ->
  NoDup (spaces (a ++ x :: c)) -> (forall b, ~ In (s, b) freed) ->
  acc f (all ++ tag s more) freed (a ++ y :: c).
Proof.
  intros f all freed a c x y s more Hf [N P] E Nm Es D Ns Nf.
  assert (P2 : Permutation (all ++ tag s more) (freed ++ concat (map f (a ++ y :: c)))).
  { rewrite P. rewrite !map_app, !concat_app. cbn [map concat]. rewrite E.
    rewrite <- !app_assoc. do 2 apply Permutation_app_head. rewrite !app_assoc.
    rewrite <- (app_assoc (f x) (tag s more)). rewrite <- app_assoc. apply Permutation_app_head. apply Permutation_app_comm. }
  split; auto. apply NoDup_app_intro; auto using tag_nodup.
  intros z Z1 Z2. pose proof (tag_in _ _ _ Z2) as Z3. eapply Permutation_in in Z1; [|exact P].
  destruct z as [zs zb]. cbn in Z3. subst zs.
  apply in_app_or in Z1 as [Z1|Z1]; [apply (Nf zb Z1)|].
  unfold tag in Z2. apply in_map_iff in Z2 as (b & Eb & Z2). injection Eb as ->.
  rewrite map_app, concat_app in Z1. cbn [map concat] in Z1.
  unfold spaces in Ns. rewrite map_app, concat_app in Ns. cbn [map concat] in Ns. rewrite Es in Ns.
  apply NoDup_remove_2 in Ns.
  apply in_app_or in Z1 as [Z1|Z1].
  { apply Ns. apply in_or_app; left. exact (owned_in f Hf a _ Z1). }
  apply in_app_or in Z1 as [Z1|Z1]; [exact (D zb Z2 Z1)|].
  apply Ns. apply in_or_app; right. exact (owned_in f Hf c _ Z1).
Qed.

(** what an object has is deleted *)
Lemma acc_free : forall f all freed a c x y dead, acc f all freed (a ++ x :: c) -> Permutation dead (f x) -> f y = [] ->
  acc f all (freed ++ dead) (a ++ y :: c).
Proof.
  intros f all freed a c x y dead [N P] D E. split; auto. rewrite P, !map_app, !concat_app. cbn [map concat]. rewrite E. cbn.
  rewrite <- app_assoc. apply Permutation_app_head. rewrite D. rewrite !app_assoc. apply Permutation_app_tail.
  apply Permutation_app_comm.
Qed.

Lemma acc_perm : forall f all freed l l', acc f all freed l -> Permutation (concat (map f l)) (concat (map f l')) -> acc f all freed l'.
Proof. intros f all freed l l' [N P] Q. split; auto. rewrite P. apply Permutation_app_head. auto. Qed.

Lemma accounted_eq : forall st, accounted st <->
  acc owned_blocks (l_blocks st) (l_fblocks st) (l_objs st) /\ acc owned_links (l_links st) (l_flinks st) (l_objs st).
Proof. intro st. unfold accounted, acc. tauto. Qed.

Lemma spaces_app : forall a b, spaces (a ++ b) = spaces a ++ spaces b.
Proof. intros. unfold spaces. rewrite map_app, concat_app. auto. Qed.
Lemma spaces_cons : forall x b, spaces (x :: b) = space_of x ++ spaces b.
Proof. intros. reflexivity. Qed.

Lemma construct_inv : forall st m, linv st -> linv (construct st m).
Proof.
  intros st m [A B C D E F]. unfold construct; cbn.
  assert (Sp : spaces (l_objs st ++ [Some (mkHo (l_next st) (heap_init m) [])]) = spaces (l_objs st) ++ [l_next st])
    by (rewrite spaces_app; reflexivity).
  split; cbn [l_objs l_next l_fblocks l_flinks add_obj].
  - apply Forall_app. split; auto. constructor; auto. split; [apply heap_init_inv|apply full_init].
  - rewrite Sp. apply NoDup_app_intro; auto.
    + constructor; [intros []|constructor].
    + intros x X [<-|[]]. specialize (C _ X). lia.
  - rewrite Sp. intros s X. apply in_app_or in X as [X|[<-|[]]]; [specialize (C _ X)|]; lia.
  - rewrite Sp. intros s b X. destruct (D s b X) as [D1 D2]. split; [lia|]. intro Y.
    apply in_app_or in Y as [Y|[Y|[]]]; auto. lia.
  - rewrite Sp. intros s b X. destruct (E s b X) as [D1 D2]. split; [lia|]. intro Y.
    apply in_app_or in Y as [Y|[Y|[]]]; auto. lia.
  - apply accounted_eq. apply accounted_eq in F. destruct F as [F1 F2]. cbn.
    split; (eapply acc_perm; [eassumption|]); rewrite map_app, concat_app; cbn; rewrite !app_nil_r; auto.
Qed.

Lemma use_inv : forall st i o op, linv st -> obj st i = Some o -> op_ok op -> linv (use st i o op).
Proof.
  intros st i o op [A B C D E F] H Hop. destruct (obj_split st i o H) as (a & c & E1 & E2 & E3).
  unfold use. pose proof A as A0. rewrite E1 in A0. apply Forall_app in A0 as [A1 A2]. inversion A2 as [|? ? A3 A4]; subst.
  destruct A3 as [Ac Af].
  pose proof (client_step_inv _ _ op Ac Hop) as X. pose proof (step_full _ (ho_held o) op Af) as Y.
  destruct (client_step (ho_heap o, ho_held o) op) as [h held]. cbn [fst] in Y. destruct X as [X _]. destruct Y as [Y [W1 W2]].
  set (y := Some (mkHo (ho_space o) h held)).
  assert (Sp : spaces (a ++ y :: c) = spaces (l_objs st)).
  { rewrite E1, !spaces_app, !spaces_cons. reflexivity. }
  assert (Fb : forall b, ~ In (ho_space o, b) (l_fblocks st)).
  { intros b Z. destruct (D _ _ Z) as [_ Z2]. apply Z2. rewrite E1, spaces_app, spaces_cons. apply in_or_app; right. left. auto. }
  assert (Fl : forall b, ~ In (ho_space o, b) (l_flinks st)).
  { intros b Z. destruct (E _ _ Z) as [_ Z2]. apply Z2. rewrite E1, spaces_app, spaces_cons. apply in_or_app; right. left. auto. }
  split; cbn [l_objs l_next l_fblocks l_flinks]; rewrite ?E3; fold y; rewrite ?Sp; auto.
  - apply Forall_app. split; auto. constructor; auto. split; auto.
  - apply accounted_eq. apply accounted_eq in F. destruct F as [F1 F2]. 
    cbn [l_objs l_blocks l_links l_fblocks l_flinks set_obj] in *. rewrite E1 in F1, F2, B.
    assert (Seq : forall n m, (n <= m)%nat -> seq 0 m = seq 0 n ++ seq n (m - n)).
    { intros n m L. replace m with (n + (m - n))%nat at 1 by lia. apply seq_app. }
    split; eapply acc_use; try eassumption; try reflexivity; try apply seq_NoDup.
    + apply owned_blocks_space.
    + cbn [owned_blocks y ho_space ho_heap]. rewrite <- tag_app. f_equal. apply Seq. auto.
    + intros b Z1 Z2. apply in_seq in Z1. cbn in Z2. apply in_map_iff in Z2 as (j & Ej & Z2). injection Ej as ->.
      apply in_seq in Z2. lia.
    + apply owned_links_space.
    + cbn [owned_links y ho_space ho_heap]. rewrite <- tag_app. f_equal. apply Seq. auto.
    + intros b Z1 Z2. apply in_seq in Z1. cbn in Z2. apply in_map_iff in Z2 as (j & Ej & Z2). injection Ej as ->.
      apply in_seq in Z2. lia.
Qed.

(** everything an object has is deleted; it is left without or starts a new space *)
Lemma release_inv : forall st i o (again : bool), linv st -> obj st i = Some o ->
  linv (set_obj (mkLife (l_objs st) (S (l_next st)) (l_blocks st) (l_links st)
                        (l_fblocks st ++ tag (ho_space o) (destroyed_blocks (ho_heap o)))
                        (l_flinks st ++ tag (ho_space o) (destroyed_links (ho_heap o)))) i
                (if again then Some (mkHo (l_next st) (emptied (ho_heap o)) []) else None)).
Proof.
  intros st i o again [A B C D E F] H. destruct (obj_split st i o H) as (a & c & E1 & E2 & E3).
  assert (E4 : forall y n b l fb fl, l_objs (set_obj (mkLife (l_objs st) n b l fb fl) i y) = a ++ y :: c).
  { intros. apply E3. }
  pose proof A as A0. rewrite E1 in A0. apply Forall_app in A0 as [A1 A2]. inversion A2 as [|? ? A3 A4]; subst.
  destruct A3 as [Ac Af].
  set (y := if again then Some (mkHo (l_next st) (emptied (ho_heap o)) []) else None).
  assert (Sy : space_of y = if again then [l_next st] else []) by (unfold y; destruct again; reflexivity).
  pose proof B as B0. rewrite E1, spaces_app, spaces_cons in B0. cbn [space_of app] in B0.
  pose proof (NoDup_remove_1 _ _ _ B0) as B1. pose proof (NoDup_remove_2 _ _ _ B0) as B2.
  assert (Old : forall s, In s (spaces a ++ spaces c) -> (s < l_next st)%nat /\ s <> ho_space o).
  { intros s Y. split.
    - apply C. rewrite E1, spaces_app, spaces_cons. apply in_app_or in Y. apply in_or_app.
      destruct Y; [left; auto|right; apply in_or_app; right; auto].
    - intros ->. auto. }
  assert (So : (ho_space o < l_next st)%nat).
  { apply C. rewrite E1, spaces_app, spaces_cons. apply in_or_app; right; left; auto. }
  assert (New : forall s, In s (spaces (a ++ y :: c)) -> s <> ho_space o /\ (s < S (l_next st))%nat /\
                 (s = l_next st \/ In s (spaces (l_objs st)))).
  { intros s Y. rewrite spaces_app, spaces_cons, Sy in Y.
    assert (Z : s = l_next st \/ In s (spaces a ++ spaces c)).
    { apply in_app_or in Y as [Y|Y]; [right; apply in_or_app; auto|].
      apply in_app_or in Y as [Y|Y]; [|right; apply in_or_app; auto].
      destruct again; [destruct Y as [<-|[]]; auto|destruct Y]. }
    destruct Z as [->|Z].
    - split; [|split; [lia|auto]]. intro X. subst. rewrite <- X in So. lia.
    - destruct (Old s Z) as [O1 O2]. split; auto. split; [lia|]. right. rewrite E1, spaces_app, spaces_cons.
      apply in_app_or in Z as [Z|Z]; apply in_or_app; [left|right; apply in_or_app; right]; auto. }
  split; rewrite ?E4; cbn [l_next l_fblocks l_flinks set_obj]; fold y.
  - apply Forall_app. split; auto. constructor; auto. unfold y. destruct again; cbn; auto.
    split; [apply cinv_emptied|apply full_emptied].
  - rewrite spaces_app, spaces_cons, Sy. destruct again; cbn [app]; auto.
    apply Permutation_NoDup with (l := l_next st :: spaces a ++ spaces c); [apply Permutation_middle|].
    constructor; auto. intro X. destruct (Old _ X). lia.
  - intros s Y. apply New. auto.
  - intros s b Y. apply in_app_or in Y as [Y|Y].
    + destruct (D s b Y) as [Y1 Y2]. split; [lia|]. intro Z. destruct (New s Z) as (_ & _ & [->|Z2]); [lia|auto].
    + apply tag_in in Y. cbn in Y. subst s. split; [lia|]. intro Z. destruct (New _ Z) as [Z1 _]. auto.
  - intros s b Y. apply in_app_or in Y as [Y|Y].
    + destruct (E s b Y) as [Y1 Y2]. split; [lia|]. intro Z. destruct (New s Z) as (_ & _ & [->|Z2]); [lia|auto].
    + apply tag_in in Y. cbn in Y. subst s. split; [lia|]. intro Z. destruct (New _ Z) as [Z1 _]. auto.
  - apply accounted_eq. apply accounted_eq in F. destruct F as [F1 F2]. rewrite E4.
    cbn [l_blocks l_links l_fblocks l_flinks set_obj]. fold y. rewrite E1 in F1, F2.
    split; (eapply acc_free; [eassumption| |]).
    + apply tag_perm. eapply destroyed_blocks_all; eauto.
    + unfold y. destruct again; reflexivity.
    + apply tag_perm. apply destroyed_links_all; auto.
    + unfold y. destruct again; reflexivity.
Qed.

(** the space counter may be ahead *)
Lemma linv_next : forall st n, linv st -> (l_next st <= n)%nat ->
  linv (mkLife (l_objs st) n (l_blocks st) (l_links st) (l_fblocks st) (l_flinks st)).
Proof.
  intros st n [A B C D E F] L. split; cbn; auto.
  - intros s X. specialize (C s X). lia.
  - intros s b X. destruct (D s b X). split; [lia|auto].
  - intros s b X. destruct (E s b X). split; [lia|auto].
Qed.
Lemma end_inv : forall st i o, linv st -> obj st i = Some o -> linv (set_obj (release st o) i None).
Proof.
  intros st i o [A B C D E F] H.
  (* as for release_inv without a new space *)
  pose proof (release_inv st i o false (mkLi _ A B C D E F) H) as [A' B' C' D' E' F'].
  cbn [l_objs l_next l_blocks l_links l_fblocks l_flinks set_obj release] in *.
  destruct (obj_split st i o H) as (a & c & E1 & E2 & E3). pose proof (E3 None) as E4.
  cbn [l_objs set_obj] in E4.
  assert (So : (ho_space o < l_next st)%nat).
  { apply C. rewrite E1, spaces_app, spaces_cons. apply in_or_app; right; left; auto. }
  split; cbn [l_objs l_next l_blocks l_links l_fblocks l_flinks set_obj release]; auto.
  - intros s X. apply C. rewrite E1, spaces_app, spaces_cons. rewrite E4, spaces_app, spaces_cons in X.
    apply in_app_or in X as [X|X]; apply in_or_app; [left|right; apply in_or_app; right]; auto.
  - intros s b X. destruct (D' s b X) as [_ Y]. split; auto.
    apply in_app_or in X as [X|X]; [apply (D s b X)|]. apply tag_in in X. cbn in X. subst. auto.
  - intros s b X. destruct (E' s b X) as [_ Y]. split; auto.
    apply in_app_or in X as [X|X]; [apply (E s b X)|]. apply tag_in in X. cbn in X. subst. auto.
Qed.

(** the invariant does not depend on the order of the objects *)
Lemma linv_perm : forall l l' n b lk fb fl, Permutation l l' -> linv (mkLife l n b lk fb fl) -> linv (mkLife l' n b lk fb fl).
Proof.
  intros l l' n b lk fb fl P [A B C D E F]. cbn [l_objs l_next l_fblocks l_flinks] in *.
  assert (Ps : Permutation (spaces l) (spaces l')).
  { unfold spaces. rewrite <- !flat_map_concat_map. apply Permutation_flat_map. auto. }
  split; cbn [l_objs l_next l_fblocks l_flinks].
  - eapply Permutation_Forall; eauto.
  - eapply Permutation_NoDup; eauto.
  - intros s X. apply C. eapply Permutation_in; [symmetry; exact Ps|auto].
  - intros s k X. destruct (D s k X) as [D1 D2]. split; auto. intro Y. apply D2.
    eapply Permutation_in; [symmetry; exact Ps|auto].
  - intros s k X. destruct (E s k X) as [D1 D2]. split; auto. intro Y. apply D2.
    eapply Permutation_in; [symmetry; exact Ps|auto].
  - apply accounted_eq. apply accounted_eq in F. destruct F as [F1 F2]. cbn [l_objs l_blocks l_links l_fblocks l_flinks] in *.
    split; (eapply acc_perm; [eassumption|]); rewrite <- !flat_map_concat_map; apply Permutation_flat_map; auto.
Qed.

Lemma set_nth_split : forall {A} (l : list A) i x d, nth i l d = x -> (i < length l)%nat ->
  exists rest, Permutation l (x :: rest) /\ forall x', Permutation (set_nth i x' l) (x' :: rest).
Proof.
  induction l as [|y l IH]; intros [|i] x d E L; cbn in E, L; try lia.
  - subst. exists l. split; auto.
  - destruct (IH i x d E ltac:(lia)) as (rest & P & Q). exists (y :: rest). split.
    + rewrite P. apply perm_swap.
    + intro x'. cbn. rewrite Q. apply perm_swap.
Qed.
Lemma set_nth_split2 : forall {A} (l : list A) i j x y d, i <> j -> nth i l d = x -> nth j l d = y ->
  (i < length l)%nat -> (j < length l)%nat ->
  exists rest, Permutation l (x :: y :: rest) /\ forall x' y', Permutation (set_nth j y' (set_nth i x' l)) (x' :: y' :: rest).
Proof.
  induction l as [|z l IH]; intros [|i] [|j] x y d N E1 E2 L1 L2; cbn in *; try lia.
  - subst z. destruct (set_nth_split l j y d E2 ltac:(lia)) as (rest & P & Q). exists rest. split; [rewrite P; auto|].
    intros x' y'. rewrite Q. auto.
  - subst z. destruct (set_nth_split l i x d E1 ltac:(lia)) as (rest & P & Q). exists rest. split.
    + rewrite P. apply perm_swap.
    + intros x' y'. rewrite Q. apply perm_swap.
  - destruct (IH i j x y d ltac:(congruence) E1 E2 ltac:(lia) ltac:(lia)) as (rest & P & Q). exists (z :: rest). split.
    + rewrite P. rewrite (perm_swap x z). apply perm_skip. apply perm_swap.
    + intros x' y'. rewrite Q. rewrite (perm_swap x' z). apply perm_skip. apply perm_swap.
Qed.

Lemma obj_lt : forall st i x, obj st i = Some x -> (i < length (l_objs st))%nat.
Proof.
  intros st i x H. unfold obj in H. destruct (Nat.lt_ge_cases i (length (l_objs st))); auto.
  rewrite nth_overflow in H by auto. discriminate.
Qed.

(** an object without memory takes over what another one has *)
Lemma take_inv : forall st i j e m, linv st -> i <> j -> obj st i = Some e -> obj st j = Some m ->
  h_blocks (ho_heap e) = [] -> h_links (ho_heap e) = [] ->
  linv (mkLife (set_nth j (Some (mkHo (l_next st) (emptied (ho_heap m)) [])) (set_nth i (Some m) (l_objs st))) (S (l_next st))
               (l_blocks st) (l_links st) (l_fblocks st) (l_flinks st)).
Proof.
  intros [l n b lk fb fl] i j e m I N Hi Hj Eb El. cbn [l_objs l_next l_blocks l_links l_fblocks l_flinks].
  destruct (set_nth_split2 l i j (Some e) (Some m) None N Hi Hj (obj_lt _ _ _ Hi) (obj_lt _ _ _ Hj)) as (rest & P & Q).
  apply (linv_perm _ _ _ _ _ _ _ P) in I. eapply linv_perm; [symmetry; apply Q|].
  destruct I as [A B C D E F]. cbn [l_objs l_next l_fblocks l_flinks] in *.
  rewrite !spaces_cons in *. cbn [space_of app] in *.
  inversion A as [|? ? A1 A2]; subst. inversion A2 as [|? ? A3 A4]; subst.
  inversion B as [|? ? B1 B2]; subst. inversion B2 as [|? ? B3 B4]; subst.
  split; cbn [l_objs l_next l_fblocks l_flinks]; rewrite ?spaces_cons; cbn [space_of app ho_space].
  - constructor; auto. constructor; auto. split; [apply cinv_emptied|apply full_emptied].
  - constructor.
    + intros [X|X]; auto. specialize (C (ho_space m) ltac:(right; left; auto)). lia.
    + constructor; auto. intro X. specialize (C n ltac:(right; right; auto)). lia.
  - intros s [<-|[<-|X]]; [specialize (C (ho_space m) ltac:(right; left; auto)); lia|lia|].
    specialize (C s ltac:(right; right; auto)); lia.
  - intros s k X. destruct (D s k X) as [D1 D2]. split; [lia|]. intros [Y|[Y|Y]]; [| lia |]; apply D2.
    + right; left; auto.
    + right; right; auto.
  - intros s k X. destruct (E s k X) as [D1 D2]. split; [lia|]. intros [Y|[Y|Y]]; [| lia |]; apply D2.
    + right; left; auto.
    + right; right; auto.
  - apply accounted_eq. apply accounted_eq in F. destruct F as [F1 F2]. cbn [l_objs l_blocks l_links l_fblocks l_flinks] in *.
    split; (eapply acc_perm; [eassumption|]); cbn [map concat owned_blocks owned_links]; rewrite ?Eb, ?El; cbn; auto.
Qed.

Lemma set_nth_twice : forall {A} (l : list A) i x y, set_nth i y (set_nth i x l) = set_nth i y l.
Proof. induction l; intros [|i] x y; cbn; auto. f_equal. auto. Qed.

Lemma move_inv : forall st i j x m, linv st -> obj st i = Some x -> obj st j = Some m -> linv (move_assign st i j).
Proof.
  intros st i j x m I Hi Hj. unfold move_assign. rewrite Hi. cbn [release new_space fst snd].
  pose proof (release_inv st i x true I Hi) as R. cbv iota in R.
  match type of R with linv ?s => set (st1 := s) in * end.
  pose proof (obj_lt _ _ _ Hi) as Li.
  destruct (Nat.eq_dec i j) as [->|N].
  - assert (H1 : obj st1 j = Some (mkHo (l_next st) (emptied (ho_heap x)) [])).
    { unfold st1, obj, set_obj; cbn. apply nth_set_nth_eq. auto. }
    assert (Goal1 : obj st1 j = Some (mkHo (l_next st) (emptied (ho_heap x)) [])) by exact H1.
    change (obj _ j) with (obj st1 j). rewrite Goal1.
    pose proof (release_inv st1 j _ true R H1) as R2. cbv iota in R2.
    unfold st1, set_obj in *; cbn [l_objs l_next l_blocks l_links l_fblocks l_flinks ho_heap ho_space] in *.
    change (destroyed_blocks (emptied (ho_heap x))) with (@nil nat) in R2.
    change (destroyed_links (emptied (ho_heap x))) with (@nil nat) in R2.
    cbn [tag map] in R2. rewrite !app_nil_r in R2. rewrite !set_nth_twice in *. exact R2.
  - assert (H1 : obj st1 i = Some (mkHo (l_next st) (emptied (ho_heap x)) [])).
    { unfold st1, obj, set_obj; cbn. apply nth_set_nth_eq. auto. }
    assert (H2 : obj st1 j = Some m).
    { unfold st1, obj, set_obj; cbn. rewrite nth_set_nth_ne by auto. exact Hj. }
    change (obj _ j) with (obj st1 j). rewrite H2.
    exact (take_inv st1 i j _ m R N H1 H2 eq_refl eq_refl).
Qed.

Lemma life_step_inv : forall st op, linv st -> uncopied op -> linv (life_step st op).
Proof.
  intros st op I U. destruct op as [m|i u|i j|m j|j|i]; cbn [life_step].
  - apply construct_inv. auto.
  - destruct (obj st i) as [o|] eqn:E; auto. apply use_inv; auto.
  - destruct (obj st j) as [o|] eqn:E; auto. destruct (obj st i) as [x|] eqn:Ei.
    + eapply move_inv; eauto.
    + unfold move_assign. rewrite Ei. auto.
  - destruct (obj st j) as [o|] eqn:E; auto.
    pose proof (obj_lt _ _ _ E) as L.
    eapply move_inv; [apply construct_inv; exact I| |].
    + unfold construct, obj; cbn. rewrite app_nth2, Nat.sub_diag by lia. cbn. reflexivity.
    + unfold construct, obj; cbn. rewrite app_nth1 by lia. exact E.
  - destruct U.
  - destruct (obj st i) as [o|] eqn:E; auto. apply end_inv; auto.
Qed.
Lemma life_run_inv : forall ops st, linv st -> Forall uncopied ops -> linv (life_run ops st).
Proof.
  induction ops as [|op ops IH]; intros st I F; cbn; auto. inversion F; subst.
  apply IH; auto. apply life_step_inv; auto.
Qed.

(** ** what the invariant says *)
Theorem life_accounted : forall ops, Forall uncopied ops -> accounted (life_run ops life_init).
Proof. intros ops F. apply li_acc. apply life_run_inv; auto. apply linv_init. Qed.

Theorem life_once : forall ops, Forall uncopied ops ->
  let st := life_run ops life_init in
  NoDup (l_fblocks st) /\ incl (l_fblocks st) (l_blocks st) /\ NoDup (l_flinks st) /\ incl (l_flinks st) (l_links st).
Proof.
  intros ops F st. destruct (life_accounted ops F) as (A & B & C & D). fold st in A, B, C, D.
  split; [|split; [|split]].
  - eapply NoDup_app_l. eapply Permutation_NoDup; [exact B|auto].
  - intros x X. eapply Permutation_in; [symmetry; exact B|]. apply in_or_app; auto.
  - eapply NoDup_app_l. eapply Permutation_NoDup; [exact D|auto].
  - intros x X. eapply Permutation_in; [symmetry; exact D|]. apply in_or_app; auto.
Qed.

Theorem life_no_leak : forall ops, Forall uncopied ops ->
  let st := life_run ops life_init in
  (forall i, obj st i = None) ->
  Permutation (l_blocks st) (l_fblocks st) /\ Permutation (l_links st) (l_flinks st).
Proof.
  intros ops F st H. destruct (life_accounted ops F) as (A & B & C & D). fold st in A, B, C, D.
  assert (X : forall x, In x (l_objs st) -> x = None).
  { intros x X. apply In_nth with (d := None) in X as (i & _ & X). specialize (H i). unfold obj in H. congruence. }
  assert (Y : forall f : option hobj -> list (nat * nat), f None = [] -> concat (map f (l_objs st)) = []).
  { intros f E. clear - X E. induction (l_objs st) as [|x l IH]; cbn; auto.
    rewrite (X x) by (left; auto). rewrite E. cbn. apply IH. intros; apply X; right; auto. }
  rewrite (Y owned_blocks eq_refl), app_nil_r in B. rewrite (Y owned_links eq_refl), app_nil_r in D. auto.
Qed.

Lemma sound_obj : forall st i x, linv st -> obj st i = Some x -> cinv (ho_heap x) (ho_held x) /\ full (ho_heap x).
Proof.
  intros st i x I H. pose proof (li_sound _ I) as A. rewrite Forall_forall in A. apply (A (Some x)).
  unfold obj in H. rewrite <- H. apply nth_In. eapply obj_lt. exact H.
Qed.

Theorem life_valid : forall ops, Forall uncopied ops ->
  let st := life_run ops life_init in
  forall i x y, obj st i = Some x -> In y (ho_held x) ->
  exists_at st (ho_space x) (hb_blk y) /\ placed_block (h_blocks (ho_heap x)) y.
Proof.
  intros ops F st i x y H Y. assert (I : linv st) by (apply life_run_inv; [apply linv_init|auto]).
  destruct (sound_obj _ _ _ I H) as [(_ & Pl & _) _]. rewrite Forall_forall in Pl. pose proof (Pl y Y) as P.
  split; auto. destruct P as (_ & size & S & _).
  destruct (obj_split st i x H) as (a & c & E1 & E2 & E3).
  assert (Sx : In (ho_space x) (spaces (l_objs st))).
  { rewrite E1, spaces_app, spaces_cons. apply in_or_app; right; left; auto. }
  split.
  - destruct (li_acc _ I) as (_ & B & _). eapply Permutation_in; [symmetry; exact B|]. apply in_or_app; right.
    rewrite E1, map_app, concat_app. apply in_or_app; right. cbn [map concat]. apply in_or_app; left.
    cbn [owned_blocks]. unfold tag. apply in_map_iff. exists (hb_blk y). split; auto. apply in_seq.
    assert (Z : nth_error (h_blocks (ho_heap x)) (hb_blk y) <> None) by congruence. apply nth_error_Some in Z. lia.
  - intro X. destruct (li_fb _ I _ _ X) as [_ Z]. auto.
Qed.

Theorem life_disjoint : forall ops, Forall uncopied ops ->
  let st := life_run ops life_init in
  forall i k i' k' s b o, held_at st i k s b o -> held_at st i' k' s b o -> i = i' /\ k = k'.
Proof.
  intros ops F st i k i' k' s b o (x & y & X1 & X2 & X3 & X4) (x' & y' & Y1 & Y2 & Y3 & Y4).
  assert (I : linv st) by (apply life_run_inv; [apply linv_init|auto]).
  assert (E : i = i').
  { destruct (Nat.eq_dec i i') as [|N]; auto. exfalso.
    destruct (set_nth_split2 (l_objs st) i i' (Some x) (Some x') None N X1 Y1 (obj_lt _ _ _ X1) (obj_lt _ _ _ Y1)) as (rest & P & _).
    destruct st as [l n bb lk fb fl]. apply (linv_perm _ _ _ _ _ _ _ P) in I.
    pose proof (li_spaces _ I) as N1. cbn [l_objs] in N1. rewrite !spaces_cons in N1. cbn in N1.
    inversion N1 as [|? ? N2 N3]. apply N2. left. congruence. }
  subst i'. split; auto. rewrite X1 in Y1. injection Y1 as <-.
  destruct (sound_obj _ _ _ I X1) as [C _]. eapply cinv_disjoint; eauto.
Qed.

(** moving hands everything over *)
Theorem life_moved : forall st i j x m, obj st i = Some x -> obj st j = Some m -> i <> j ->
  let st' := life_step st (LMove i j) in
  obj st' i = Some m /\ (forall k, k <> i -> k <> j -> obj st' k = obj st k) /\
  exists e, obj st' j = Some e /\ ho_held e = [] /\ h_blocks (ho_heap e) = [] /\ h_cap (ho_heap e) = h_cap (ho_heap m).
Proof.
  intros st i j x m Hi Hj N. cbv zeta. cbn [life_step]. rewrite Hj. unfold move_assign. rewrite Hi.
  cbn [release new_space]. 
  pose proof (obj_lt _ _ _ Hi) as Li. pose proof (obj_lt _ _ _ Hj) as Lj.
  match goal with |- context [obj (set_obj ?a i ?b) j] => assert (E : obj (set_obj a i b) j = Some m) end.
  { unfold obj, set_obj; cbn. rewrite nth_set_nth_ne by auto. exact Hj. }
  rewrite E. unfold obj, set_obj in *; cbn [l_objs l_next new_space] in *.
  split; [|split].
  - rewrite nth_set_nth_ne by auto. rewrite nth_set_nth_eq; auto. rewrite length_set_nth. auto.
  - intros k K1 K2. rewrite !nth_set_nth_ne by auto. auto.
  - eexists. split; [apply nth_set_nth_eq; rewrite !length_set_nth; auto|]. cbn. auto.
Qed.

(** assigning an object to itself deletes everything it has *)
Theorem life_self : forall ops i x, Forall uncopied ops ->
  let st := life_run ops life_init in
  obj st i = Some x ->
  let st' := life_step st (LMove i i) in
  forall y, In y (ho_held x) -> In (ho_space x, hb_blk y) (l_fblocks st').
Proof.
  intros ops i x F st H st' y Y. assert (I : linv st) by (apply life_run_inv; [apply linv_init|auto]).
  destruct (sound_obj _ _ _ I H) as [C Fu]. pose proof (destroyed_blocks_all _ _ C Fu) as P.
  destruct C as (_ & Pl & _). rewrite Forall_forall in Pl. destruct (Pl y Y) as (_ & size & S & _).
  unfold st'. cbn [life_step]. rewrite H. unfold move_assign. rewrite H. cbn [release new_space].
  pose proof (obj_lt _ _ _ H) as Li.
  match goal with |- context [obj (set_obj ?a i ?b) i] => assert (E : obj (set_obj a i b) i = b) end.
  { unfold obj, set_obj; cbn. apply nth_set_nth_eq. auto. }
  rewrite E. cbn [l_fblocks set_obj new_space]. apply in_or_app; right. unfold tag. apply in_map_iff.
  exists (hb_blk y). split; auto. eapply Permutation_in; [symmetry; exact P|]. apply in_seq.
  assert (Z : nth_error (h_blocks (ho_heap x)) (hb_blk y) <> None) by congruence. apply nth_error_Some in Z. lia.
Qed.

(** ** the memory of a cleared heap *)
Lemma clear_loop_free : forall todo h, Permutation (h_free h) (h_ulinks h) ->
  Permutation (h_free (clear_loop todo h)) (h_ulinks (clear_loop todo h)).
Proof.
  induction todo as [|i todo IH]; intros h P; cbn [clear_loop]; auto. cbv zeta.
  destruct (sg_sub (seg_of h i)); apply IH; cbn; auto.
  rewrite insert_free_perm, P. apply Permutation_cons_append.
Qed.
Lemma find_rm_some : forall p l i, In i l -> p i = true -> find_rm p l <> None.
Proof.
  induction l as [|j l IH]; intros i H P; [destruct H|destruct H as [->|H]]; cbn.
  - rewrite P. discriminate.
  - destruct (p j); [discriminate|]. specialize (IH i H P). destruct (find_rm p l) as [[k r]|]; congruence.
Qed.
Theorem cleared_reuse : forall h held sz align B, cinv h held -> full h ->
  In B (h_blocks h) -> sz + align - 1 <= B -> h_blocks (snd (get_mem (clear h) sz align)) = h_blocks h.
Proof.
  intros h held sz align B C F HB L. destruct C as ((Hj & _) & _).
  destruct (clear_spec _ _ Hj) as ([Ij Ic] & U & Eb). destruct (clear_full h F) as [Fc _].
  assert (Fr : Permutation (h_free (clear h)) (h_ulinks (clear h))) by (apply clear_loop_free; constructor).
  assert (Cr : h_crr (clear h) = None).
  { unfold crr_ok in Ic. destruct (h_crr (clear h)) as [c|]; auto. destruct Ic as [u Ic]. rewrite U in Ic. destruct u; discriminate. }
  rewrite <- Eb in HB. apply In_nth_error in HB as [b Hb].
  assert (Lb : (b < length (h_blocks (clear h)))%nat) by (apply nth_error_Some; congruence).
  destruct (f_blk _ Fc b Lb) as (i & I1 & I2 & I3).
  destruct (j_segs _ _ Ij i I1) as (_ & _ & _ & B' & E1 & _ & E2). rewrite I3, Hb in E1. injection E1 as <-.
  destruct (E2 I2) as [E3 E4].
  rewrite <- Eb. unfold get_mem. rewrite Cr. unfold alloc. rewrite Cr.
  pose proof (find_rm_some (fun i => size_pred sz align (seg_of (clear h) i)) (h_free (clear h)) i) as Q.
  destruct (find_rm _ (h_free (clear h))) as [[k free]|].
  - reflexivity.
  - exfalso. apply Q; auto.
    + eapply Permutation_in; [symmetry; exact Fr|exact I1].
    + unfold size_pred. rewrite E4. apply orb_true_iff. left. lia.
Qed.
Lemma client_full : forall m ops, Forall op_ok ops ->
  let st := client_run ops (heap_init m, []) in cinv (fst st) (snd st) /\ full (fst st).
Proof.
  intros m ops F. cbv zeta. split; [apply client_run_inv; [apply heap_init_inv|auto]|]. clear F.
  assert (G : forall ops st, full (fst st) -> full (fst (client_run ops st))).
  { induction ops0 as [|op ops0 IH]; intros [h held] X; auto. cbn. apply IH. apply step_full. auto. }
  apply G. apply full_init.
Qed.
Theorem cleared_reuse_client : forall m ops sz align B, Forall op_ok ops ->
  let h := fst (client_run ops (heap_init m, [])) in
  In B (h_blocks h) -> sz + align - 1 <= B ->
  h_blocks (fst (client_run (ops ++ [HClear; HGet sz align]) (heap_init m, []))) = h_blocks h.
Proof.
  intros m ops sz align B F h HB L. destruct (client_full m ops F) as [C Fu]. fold h in C, Fu.
  unfold client_run. rewrite fold_left_app. fold (client_run ops (heap_init m, [])).
  destruct (client_run ops (heap_init m, [])) as [h0 held]. cbn [fst snd] in *. subst h. cbn [fold_left client_step].
  pose proof (cleared_reuse h0 held sz align B C Fu HB L) as R.
  destruct (get_mem (clear h0) sz align) as [[b o] h']. exact R.
Qed.
