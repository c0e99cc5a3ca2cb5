(** Output: saving to memory. *)
From Coq Require Import ZArith List Bool Lia ZifyBool ZifyNat Permutation.
From Verif Require Import Base Lemmas M_OutOps S_Out M_Heap S_Heap P_Heap M_Out S_OutJobs.
Import ListNotations.
Open Scope Z_scope.

Definition mem_map (m : memory) (l : list (nat * Z)) : bytes := map (fun a => m (fst a) (snd a)) l.

Lemma mem_map_app : forall m l1 l2, mem_map m (l1 ++ l2) = mem_map m l1 ++ mem_map m l2.
Proof. intros. apply map_app. Qed.
Lemma mem_map_length : forall m l, length (mem_map m l) = length l.
Proof. intros. apply map_length. Qed.
Lemma mget_map : forall m b o n, mget m b o n = mem_map m (addrs (b, o, n)).
Proof. intros. unfold mget, mem_map. cbn [addrs]. rewrite map_map. reflexivity. Qed.
Lemma addrs_length : forall b o n, length (addrs (b, o, n)) = Z.to_nat n.
Proof. intros. cbn [addrs]. rewrite map_length, seq_length. auto. Qed.
Lemma addrs_in : forall b o n a, In a (addrs (b, o, n)) <-> fst a = b /\ o <= snd a < o + n.
Proof.
  intros b o n [a1 a2]. cbn [addrs fst snd]. rewrite in_map_iff. split.
  - intros (i & E & I). apply in_seq in I. injection E as <- <-. lia.
  - intros [-> L]. exists (Z.to_nat (a2 - o)). split; [f_equal; lia|]. apply in_seq. lia.
Qed.
Lemma inside_in : forall b o r, In (b, o) (addrs r) <-> inside b o r = 1.
Proof.
  intros b o [[rb ro] n]. rewrite addrs_in. cbn [fst snd inside].
  destruct (Nat.eqb_spec b rb), (Z.leb_spec ro o), (Z.ltb_spec o (ro + n)); cbn [andb]; split; try lia; intros; subst; lia.
Qed.
Lemma cnt_in : forall b o l, In (b, o) (concat (map addrs l)) -> 1 <= cnt b o l.
Proof.
  induction l as [|r l IH]; cbn [map concat cnt]; intro H; [destruct H|].
  pose proof (inside_range b o r). pose proof (cnt_nonneg b o l).
  apply in_app_or in H as [H|H].
  - apply inside_in in H. lia.
  - specialize (IH H). lia.
Qed.
Lemma mem_map_eq : forall m m' l, (forall a, In a l -> m (fst a) (snd a) = m' (fst a) (snd a)) -> mem_map m l = mem_map m' l.
Proof. intros. apply map_ext_in. auto. Qed.
Lemma mem_map_other : forall m b o bs l, (forall a, In a l -> ~ In a (addrs (b, o, zlen bs))) ->
  mem_map (mset m b o bs) l = mem_map m l.
Proof.
  intros m b o bs l H. apply mem_map_eq. intros a Ha. specialize (H a Ha). rewrite addrs_in in H. unfold mset.
  destruct (Nat.eqb_spec (fst a) b), (Z.leb_spec o (snd a)), (Z.ltb_spec (snd a) (o + zlen bs)); cbn [andb]; auto.
  exfalso. apply H. auto.
Qed.
Lemma mem_map_set : forall m b o bs, mem_map (mset m b o bs) (addrs (b, o, zlen bs)) = bs.
Proof.
  intros. apply nth_ext with (d := 0) (d' := 0).
  - rewrite mem_map_length, addrs_length. unfold zlen. lia.
  - intros n Hn. rewrite mem_map_length, addrs_length in Hn. unfold mem_map. cbn [addrs]. rewrite map_map.
    set (f := fun x : nat => _). rewrite (nth_indep _ 0 (f 0%nat)) by (rewrite map_length, seq_length; auto).
    rewrite (map_nth f). rewrite seq_nth by auto. unfold f. cbn [fst snd Nat.add]. unfold mset. rewrite Nat.eqb_refl. cbn [andb].
    destruct (Z.leb_spec o (o + Z.of_nat n)), (Z.ltb_spec (o + Z.of_nat n) (o + zlen bs)); cbn [andb]; unfold zlen in *; try lia.
    f_equal. lia.
Qed.

(** ** what is done to a buffer *)
Lemma overwrite_end : forall l b, overwrite l (length l) b = l ++ b.
Proof. intros. unfold overwrite. rewrite firstn_all, skipn_all2 by lia. rewrite app_nil_r. auto. Qed.
Lemma overwrite_mid : forall l1 l2 l3 b, length b = length l2 -> overwrite (l1 ++ l2 ++ l3) (length l1) b = l1 ++ b ++ l3.
Proof.
  intros. unfold overwrite. rewrite firstn_app, firstn_all, Nat.sub_diag, firstn_O, app_nil_r. f_equal. f_equal.
  rewrite H, !skipn_app, skipn_all2 by lia. cbn. rewrite skipn_all2 by lia. cbn.
  replace (length l1 + length l2 - length l1 - length l2)%nat with 0%nat by lia. auto.
Qed.
Lemma overwrite_length : forall l p b, (p + length b <= length l)%nat -> length (overwrite l p b) = length l.
Proof. intros. unfold overwrite. rewrite !app_length, firstn_length, skipn_length. lia. Qed.

(** state of the spec: reserved places lie inside the document *)
Definition spec_ok (st : bytes * list (nat * nat)) : Prop :=
  Forall (fun t => (fst t + snd t <= length (fst st))%nat) (snd st).
Lemma spec_run_length : forall ops st, spec_ok st -> valid_ops (map snd (snd st)) ops ->
  (length (fst st) <= length (fst (spec_run ops st)))%nat.
Proof.
  induction ops as [|op ops IH]; intros [doc tks] Ok V; cbn [spec_run fold_left]; auto.
  fold (spec_run ops (spec_op (doc, tks) op)). destruct op as [bs|n|k off bs]; cbn [spec_op fst snd valid_ops map] in *.
  - etransitivity; [|apply IH]; cbn; auto.
    + rewrite app_length. lia.
    + eapply Forall_impl; [|exact Ok]. cbn. intros t H. rewrite app_length. lia.
  - etransitivity; [|apply IH]; cbn; auto.
    + rewrite app_length. lia.
    + apply Forall_app. split; [eapply Forall_impl; [|exact Ok]|constructor; auto]; cbn.
      * intros t H. rewrite app_length. lia.
      * rewrite app_length, repeat_length. lia.
    + rewrite map_app. exact V.
  - destruct V as [(n & Hn & Hl) V]. rewrite nth_error_map in Hn.
    destruct (nth_error tks k) as [[p q]|] eqn:E; [|discriminate]. injection Hn as ->.
    assert (Hp : (p + n <= length doc)%nat) by exact (proj1 (Forall_forall _ _) Ok (p, n) (nth_error_In _ _ E)).
    etransitivity; [|apply IH]; cbn [fst snd]; auto.
    + rewrite overwrite_length by lia. auto.
    + unfold spec_ok in *. cbn [fst snd] in *. rewrite overwrite_length by lia. auto.
Qed.

(** ** invariant while saving to memory *)
Definition ticket_at (live : list region) (t : ticket) (s : nat * nat) : Prop :=
  tk_size t = snd s /\ exists l1 l2, live = l1 ++ (tk_blk t, tk_off t, Z.of_nat (snd s)) :: l2 /\
  fst s = length (concat (map addrs l1)).

Record RB (o : outst) (live : list region) (doc : bytes) (tks : list (nat * nat)) : Prop := mkRB {
  rb_mode : o_streaming o = false;
  rb_heap : hinv (o_heap o) live;
  rb_total : o_total o = zlen doc;
  rb_fill : fills (o_heap o) = concat (map addrs live);
  rb_doc : mem_map (h_mem (o_heap o)) (concat (map addrs live)) = doc;
  rb_tks : Forall2 (ticket_at live) (o_tickets o) tks }.

Lemma ticket_at_app : forall live r t s, ticket_at live t s -> ticket_at (live ++ [r]) t s.
Proof.
  intros live r t s (A & l1 & l2 & B & C). split; auto. exists l1, (l2 ++ [r]). split; auto. rewrite B, <- app_assoc. auto.
Qed.

Lemma hinv_cnt : forall h own b o, hinv h own -> cnt b o own <= 1.
Proof.
  intros h own b o [Hj _]. pose proof (j_cnt _ _ Hj b o) as C. rewrite cnt_app in C.
  pose proof (cnt_nonneg b o (crr_rest h)). pose proof (cnt_nonneg b o (frees h)).
  lia.
Qed.

Lemma Forall2_weaken : forall {A B} (R S : A -> B -> Prop) l1 l2, (forall a b, R a b -> S a b) -> Forall2 R l1 l2 -> Forall2 S l1 l2.
Proof. induction 2; constructor; auto. Qed.

(** a new region with contents [bs] *)
Lemma out_new : forall o live doc tks bs, RB o live doc tks -> zlen bs < two32 ->
  let '((b, p), o1) := out_alloc o (zlen bs) in
  let o2 := with_mem o1 (mset (h_mem (o_heap o1)) b p bs) in
  RB o2 (live ++ [(b, p, zlen bs)]) (doc ++ bs) tks /\ o_flushed o1 = o_flushed o /\ o_tickets o1 = o_tickets o.
Proof.
  intros o live doc tks bs [] Hb. unfold out_alloc. rewrite rb_mode0. cbn [o_streaming negb o_heap].
  destruct (get_mem (o_heap o) (zlen bs) 1) as [[b p] h'] eqn:E.
  assert (Hb0 : 0 <= zlen bs < two32) by (unfold zlen in *; lia).
  destruct (get_mem_spec _ _ _ _ _ _ _ rb_heap0 Hb0 (or_introl eq_refl) E)
    as (I & G & Kp & _ & F & _).
  cbn [o_heap o_flushed o_tickets]. split; [|auto]. split; cbn [with_mem o_streaming o_heap o_total o_tickets h_mem].
  - auto.
  - apply hinv_mem. auto.
  - rewrite rb_total0. unfold zlen. rewrite app_length. lia.
  - rewrite map_app, concat_app. cbn [map concat]. rewrite app_nil_r, <- rb_fill0, <- F by auto. reflexivity.
  - rewrite map_app, concat_app, mem_map_app. f_equal.
    + rewrite mem_map_other.
      * rewrite <- rb_doc0. apply mem_map_eq. intros [a1 a2] A. apply Kp. pose proof (cnt_in _ _ _ A).
        pose proof (hinv_cnt _ _ a1 a2 rb_heap0). cbn [fst snd] in *. lia.
      * intros [a1 a2] A B. pose proof (cnt_in _ _ _ A). apply inside_in in B.
        pose proof (hinv_cnt _ _ a1 a2 I) as C. rewrite cnt_app in C. cbn [cnt] in C. lia.
    + cbn [map concat]. rewrite app_nil_r. apply mem_map_set.
  - eapply Forall2_weaken; [|exact rb_tks0]. intros t s. apply ticket_at_app.
Qed.

Lemma Forall2_nth : forall {A B} (R : A -> B -> Prop) l1 l2 k b, Forall2 R l1 l2 -> nth_error l2 k = Some b ->
  exists a, nth_error l1 k = Some a /\ R a b.
Proof.
  intros A B R l1 l2 k b H. revert k. induction H; intros [|k] E; cbn in *; try discriminate; eauto.
  injection E as <-. eauto.
Qed.

Lemma out_op_buffer : forall o live doc tks op, RB o live doc tks -> valid_ops (map snd tks) [op] ->
  zlen (fst (spec_op (doc, tks) op)) < two32 ->
  exists o' live', out_op o op = Ok o' /\ RB o' live' (fst (spec_op (doc, tks) op)) (snd (spec_op (doc, tks) op)).
Proof.
  intros o live doc tks op R V L. destruct op as [bs|n|k off bs]; cbn [spec_op fst snd out_op] in *.
  - pose proof (out_new o live doc tks bs R) as N.
    destruct (out_alloc o (zlen bs)) as [[b p] o1]. destruct N as (N & _).
    { unfold zlen in *. rewrite app_length in L. lia. }
    eauto.
  - pose proof (out_new o live doc tks (repeat 0 n) R) as N.
    assert (Z : zlen (repeat 0 n) = Z.of_nat n) by (unfold zlen; rewrite repeat_length; auto). rewrite Z in N.
    destruct (out_alloc o (Z.of_nat n)) as [[b p] o1]. destruct N as (N & Ef & Et).
    { unfold zlen in *. rewrite app_length, repeat_length in L. lia. }
    eexists. exists (live ++ [(b, p, Z.of_nat n)]). split; [reflexivity|].
    destruct N. split; cbn [o_streaming o_heap o_total o_tickets] in *; auto.
    apply Forall2_app; auto. constructor; auto. split; auto. cbn [fst snd tk_blk tk_off tk_size].
    exists live, []. split; auto. destruct R. rewrite <- rb_doc1, mem_map_length. auto.
  - destruct V as [(n & Hn & Hl) _]. rewrite nth_error_map in Hn.
    destruct (nth_error tks k) as [[q n']|] eqn:E; [|discriminate]. injection Hn as ->. cbn [fst snd] in *.
    pose proof R as R0. destruct R. destruct (Forall2_nth _ _ _ _ _ rb_tks0 E) as (t & Et & T1 & l1 & l2 & T2 & T3).
    cbn [fst snd] in *. rewrite Et. destruct (Nat.ltb_spec (tk_size t) (off + length bs)); [lia|].
    rewrite rb_mode0. cbn [negb orb]. eexists. exists live. split; [reflexivity|].
    split; cbn [with_mem o_streaming o_heap o_total o_tickets h_mem]; auto.
    + apply hinv_mem. auto.
    + rewrite rb_total0. unfold zlen. f_equal. symmetry. apply overwrite_length.
      rewrite <- rb_doc0, mem_map_length, T2, map_app, concat_app, app_length. cbn [map concat]. rewrite app_length, addrs_length.
      rewrite T3. rewrite <- !Nat.add_assoc. apply Nat.add_le_mono_l. lia.
    + (* contents *)
      set (b := tk_blk t) in *. set (p := tk_off t) in *.
      assert (S : addrs (b, p, Z.of_nat n) = addrs (b, p, Z.of_nat off) ++ addrs (b, p + Z.of_nat off, zlen bs) ++
                  addrs (b, p + Z.of_nat off + zlen bs, Z.of_nat n - Z.of_nat off - zlen bs)).
      { rewrite <- !addrs_app by (unfold zlen; lia). f_equal. f_equal. lia. }
      assert (D : mem_map (h_mem (o_heap o)) (concat (map addrs live)) = 
        (mem_map (h_mem (o_heap o)) (concat (map addrs l1)) ++ mem_map (h_mem (o_heap o)) (addrs (b, p, Z.of_nat off))) ++
        mem_map (h_mem (o_heap o)) (addrs (b, p + Z.of_nat off, zlen bs)) ++
        (mem_map (h_mem (o_heap o)) (addrs (b, p + Z.of_nat off + zlen bs, Z.of_nat n - Z.of_nat off - zlen bs)) ++
         mem_map (h_mem (o_heap o)) (concat (map addrs l2)))).
      { rewrite T2, map_app, concat_app. cbn [map concat]. rewrite S, !mem_map_app, <- !app_assoc. auto. }
      rewrite <- rb_doc0. rewrite D.
      replace (q + off)%nat with (length (mem_map (h_mem (o_heap o)) (concat (map addrs l1)) ++
         mem_map (h_mem (o_heap o)) (addrs (b, p, Z.of_nat off)))).
      2:{ rewrite app_length, !mem_map_length, addrs_length. lia. }
      rewrite overwrite_mid.
      2:{ rewrite mem_map_length, addrs_length. unfold zlen. lia. }
      rewrite T2, map_app, concat_app. cbn [map concat]. rewrite S, !mem_map_app, <- !app_assoc.
      assert (Out1 : forall a, In a (concat (map addrs l1)) \/ In a (concat (map addrs l2)) -> ~ In a (addrs (b, p + Z.of_nat off, zlen bs))).
      { intros [a1 a2] A B. assert (B' : In (a1, a2) (addrs (b, p, Z.of_nat n))).
        { rewrite S. apply in_or_app. right. apply in_or_app. auto. }
        apply inside_in in B'. pose proof (hinv_cnt _ _ a1 a2 rb_heap0) as C.
        rewrite T2, cnt_app in C. cbn [cnt] in C.
        pose proof (cnt_nonneg a1 a2 l1). pose proof (cnt_nonneg a1 a2 l2).
        destruct A as [A|A]; apply cnt_in in A; lia. }
      rewrite (mem_map_other _ _ _ _ (concat (map addrs l1))) by auto.
      rewrite (mem_map_other _ _ _ _ (concat (map addrs l2))) by auto.
      rewrite (mem_map_other _ _ _ _ (addrs (b, p, Z.of_nat off))).
      2:{ intros a A B. rewrite addrs_in in A, B. lia. }
      rewrite (mem_map_other _ _ _ _ (addrs (b, p + Z.of_nat off + zlen bs, Z.of_nat n - Z.of_nat off - zlen bs))).
      2:{ intros a A B. rewrite addrs_in in A, B. lia. }
      rewrite mem_map_set. auto.
Qed.

Lemma spec_op_ok : forall doc tks op, spec_ok (doc, tks) -> valid_ops (map snd tks) [op] -> spec_ok (spec_op (doc, tks) op).
Proof.
  intros doc tks op Ok V. unfold spec_ok in *. destruct op as [bs|n|k off bs]; cbn [spec_op fst snd] in *.
  - eapply Forall_impl; [|exact Ok]. cbn. intros t H. rewrite app_length. lia.
  - apply Forall_app. split; [eapply Forall_impl; [|exact Ok]|constructor; auto]; cbn.
    + intros t H. rewrite app_length. lia.
    + rewrite app_length, repeat_length. lia.
  - destruct V as [(n & Hn & Hl) _]. rewrite nth_error_map in Hn.
    destruct (nth_error tks k) as [[p q]|] eqn:E; [|discriminate]. injection Hn as ->.
    assert (Hp : (p + n <= length doc)%nat) by exact (proj1 (Forall_forall _ _) Ok (p, n) (nth_error_In _ _ E)).
    cbn [fst snd]. rewrite overwrite_length by lia. auto.
Qed.

Lemma valid_ops_cons : forall doc tks op ops, valid_ops (map snd tks) (op :: ops) ->
  valid_ops (map snd tks) [op] /\ valid_ops (map snd (snd (spec_op (doc, tks) op))) ops.
Proof.
  intros doc tks op ops V. destruct op as [bs|n|k off bs]; cbn [valid_ops spec_op snd] in *.
  - split; auto.
  - split; auto. rewrite map_app. auto.
  - destruct V as [V1 V2]. split; [split; auto|]. destruct (nth_error tks k) as [[p q]|]; auto.
Qed.

Lemma out_ops_buffer : forall ops o live doc tks, RB o live doc tks -> spec_ok (doc, tks) -> valid_ops (map snd tks) ops ->
  zlen (fst (spec_run ops (doc, tks))) < two32 ->
  exists o' live', out_ops o ops = Ok o' /\ RB o' live' (fst (spec_run ops (doc, tks))) (snd (spec_run ops (doc, tks))).
Proof.
  induction ops as [|op ops IH]; intros o live doc tks R Ok V L.
  - exists o, live. auto.
  - destruct (valid_ops_cons doc tks op ops V) as [V1 V2].
    pose proof (spec_op_ok doc tks op Ok V1) as Ok'.
    cbn [spec_run fold_left] in *. fold (spec_run ops (spec_op (doc, tks) op)) in *.
    destruct (out_op_buffer o live doc tks op R V1) as (o' & live' & E & R').
    { pose proof (spec_run_length ops (spec_op (doc, tks) op) Ok' V2). unfold zlen in *. lia. }
    destruct (spec_op (doc, tks) op) as [doc' tks']. cbn [fst snd] in *.
    destruct (IH o' live' doc' tks' R' Ok' V2 L) as (o2 & live2 & E2 & R2).
    exists o2, live2. split; auto. cbn [out_ops]. rewrite E. exact E2.
Qed.

Lemma copy_segs_spec : forall h segs done,
  (forall i, In i segs -> 0 <= sg_left (seg_of h i) <= sg_size (seg_of h i)) ->
  zlen done + zlen (concat (map (fun i => addrs (fill_of (seg_of h i))) segs)) < two32 ->
  copy_segs h segs (zlen done) (done ++ repeat 0 (length (concat (map (fun i => addrs (fill_of (seg_of h i))) segs)))) =
  done ++ mem_map (h_mem h) (concat (map (fun i => addrs (fill_of (seg_of h i))) segs)).
Proof.
  induction segs as [|i segs IH]; intros done Hs L; cbn [copy_segs map concat] in *.
  - cbn [length repeat mem_map map]. auto.
  - unfold fill_of at 1 in L. unfold fill_of at 1 3. set (s := seg_of h i) in *. set (fill := sg_size s - sg_left s) in *.
    assert (Hf : 0 <= fill) by (specialize (Hs i (or_introl eq_refl)); fold s in Hs; lia).
    rewrite mget_map. set (A := addrs (sg_blk s, sg_off s, fill)) in *.
    assert (LA : zlen A = fill) by (unfold A, zlen; rewrite addrs_length; lia).
    unfold zlen in L. rewrite app_length in L.
    set (D := mem_map (h_mem h) A).
    assert (LD : length D = length A) by apply mem_map_length.
    rewrite u32_id by (unfold zlen in *; lia).
    replace (stream_write _ _ _) with ((done ++ D) ++ repeat 0 (length (concat (map (fun i => addrs (fill_of (seg_of h i))) segs)))).
    + replace (zlen done + fill) with (zlen (done ++ D)) by (unfold zlen in *; rewrite app_length; lia).
      rewrite IH.
      * rewrite mem_map_app, <- app_assoc. auto.
      * intros j X. apply Hs. right; auto.
      * unfold zlen in *. rewrite app_length. lia.
    + symmetry. unfold stream_write. fold (overwrite (done ++ repeat 0 (length (A ++ concat (map (fun i => addrs (fill_of (seg_of h i))) segs)))) (Z.to_nat (zlen done)) D).
      rewrite app_length, repeat_app. replace (Z.to_nat (zlen done)) with (length done) by (unfold zlen; lia).
      rewrite overwrite_mid by (rewrite repeat_length; auto). rewrite <- app_assoc. auto.
Qed.

Lemma RB_result : forall o live doc tks, RB o live doc tks -> zlen doc < two32 -> write_to_buffer o = doc.
Proof.
  intros o live doc tks [] L. unfold write_to_buffer.
  pose proof (copy_segs_spec (o_heap o) (h_used (o_heap o)) []) as C.
  fold (fills (o_heap o)) in C. rewrite rb_fill0 in C. cbn [app] in C.
  assert (Ld : length (concat (map addrs live)) = length doc) by (rewrite <- rb_doc0, mem_map_length; auto).
  replace (Z.to_nat (o_total o)) with (length (concat (map addrs live))) by (rewrite rb_total0; unfold zlen; lia).
  change (zlen []) with 0 in C. rewrite C; auto.
  - intros i X. destruct rb_heap0 as [Hj _]. apply (j_segs _ _ Hj). apply (j_incl _ _ Hj). apply in_or_app; auto.
  - unfold zlen in *. lia.
Qed.

(** the allocator state between documents *)
Definition heap_ok (h : heap) : Prop := exists own, hinv h own.

Lemma clear_RB : forall h, heap_ok h -> RB (out_set_buffer h) [] [] [].
Proof.
  intros h [own [Hj _]]. destruct (clear_spec _ _ Hj) as (I & U & _).
  split; cbn [out_set_buffer o_streaming o_heap o_total o_tickets map concat]; auto.
  unfold fills. rewrite U. auto.
Qed.

Lemma save_buffer_spec : forall h ops, heap_ok h -> valid_ops [] ops -> zlen (spec_out ops) < two32 ->
  exists h', save_buffer h ops = Ok (spec_out ops, h') /\ heap_ok h'.
Proof.
  intros h ops Hh V L. pose proof (clear_RB h Hh) as R.
  destruct (out_ops_buffer ops _ _ _ _ R) as (o & live & E & R').
  - constructor.
  - exact V.
  - exact L.
  - exists (o_heap o). unfold save_buffer. rewrite E. cbn [rbind]. split.
    + rewrite (RB_result _ _ _ _ R' L). reflexivity.
    + exists live. apply (rb_heap _ _ _ _ R').
Qed.

(** ** saving to a stream *)
Definition op_len (op : oop) : Z :=
  match op with OWrite bs => zlen bs | OReserve n => Z.of_nat n | OPatch _ _ bs => zlen bs end.

Record RS (o : outst) (base : bytes) (own : list region) (fl doc : bytes) (total : Z) : Prop := mkRS {
  rs_mode : o_streaming o = true;
  rs_heap : hinv (o_heap o) own;
  rs_file : o_file o = base ++ fl;
  rs_put : o_put o = length (o_file o);
  rs_left : 0 <= o_left o <= o_cap o;
  rs_start : match o_start o with
             | None => o_cap o = 0 /\ doc = fl
             | Some (b, p) => stream_buffer_size <= o_cap o /\ doc = fl ++ mget (h_mem (o_heap o)) b p (o_cap o - o_left o)
             end;
  rs_total : o_total o = total;
  rs_fl : 0 <= o_flushed o /\ (o_flushed o = 0 -> fl = []) }.

Definition tick (o : outst) (fl doc : bytes) (t : ticket) (s : nat * nat) : Prop :=
  tk_size t = snd s /\ tk_pos t = Z.of_nat (fst s) /\
  ((tk_seg t = o_flushed o /\ (length fl <= fst s)%nat /\ (fst s + snd s <= length doc)%nat /\
    ((0 < snd s)%nat -> o_start o = Some (tk_blk t, tk_off t - (Z.of_nat (fst s) - zlen fl)))) \/
   (0 <= tk_seg t < o_flushed o /\ (fst s + snd s <= length fl)%nat)).

Lemma mget_length : forall m b p n, 0 <= n -> zlen (mget m b p n) = n.
Proof. intros. rewrite mget_map. unfold zlen. rewrite mem_map_length, addrs_length. lia. Qed.
Lemma mget_app : forall m b p n k, 0 <= n -> 0 <= k -> mget m b p (n + k) = mget m b p n ++ mget m b (p + n) k.
Proof. intros. rewrite !mget_map, addrs_app, mem_map_app by auto. auto. Qed.
Lemma mget_set : forall m b p n bs, 0 <= n -> mget (mset m b (p + n) bs) b p (n + zlen bs) = mget m b p n ++ bs.
Proof.
  intros. rewrite mget_app by (unfold zlen; lia). rewrite !mget_map, mem_map_set. f_equal. apply mem_map_other.
  intros a A B. rewrite addrs_in in A, B. lia.
Qed.
Lemma stream_write_end : forall f bs, stream_write f (length f) bs = f ++ bs.
Proof. exact overwrite_end. Qed.

Definition prepare (o : outst) (n : Z) : outst :=
  let o := if o_left o <? n then write_to_stream o else o in
  if o_cap o <? n then inc_cap o n else o.

Lemma prepare_spec : forall o base own fl doc T n, RS o base own fl doc T -> 0 <= n < two32 ->
  exists own' fl', RS (prepare o n) base own' fl' doc T /\ n <= o_left (prepare o n) /\ o_tickets (prepare o n) = o_tickets o /\
  (0 < n -> o_start (prepare o n) <> None) /\
  (forall t s, tick o fl doc t s -> tick (prepare o n) fl' doc t s) /\
  (zlen doc + n <= stream_buffer_size -> o_flushed o = 0 -> o_flushed (prepare o n) = 0).
Proof.
  intros o base own fl doc T n R Hn. unfold prepare.
  assert (Inc : forall o1 fl1, RS o1 base own fl1 doc T -> o_left o1 = o_cap o1 -> o_cap o1 < n -> doc = fl1 ->
    exists own', RS (inc_cap o1 n) base own' fl1 doc T /\ n <= o_left (inc_cap o1 n) /\ o_tickets (inc_cap o1 n) = o_tickets o1 /\
    o_start (inc_cap o1 n) <> None /\ o_flushed (inc_cap o1 n) = o_flushed o1).
  { intros o1 fl1 [] El Ec Ed. unfold inc_cap.
    set (cap := if stream_buffer_size <? n then n else stream_buffer_size).
    assert (Hcap : 0 <= cap < two32 /\ n <= cap /\ stream_buffer_size <= cap).
    { unfold cap. destruct (Z.ltb_spec stream_buffer_size n); unfold stream_buffer_size, two32 in *; lia. }
    destruct Hcap as (Hc1 & Hc2 & Hc3).
    destruct (get_mem (o_heap o1) cap 1) as [[b p] h'] eqn:E.
    destruct (get_mem_spec _ _ _ _ _ _ _ rs_heap0 Hc1 (or_introl eq_refl) E) as (I & _).
    exists (own ++ [(b, p, cap)]).
    split; [split|]; cbn [o_streaming o_heap o_file o_put o_left o_cap o_start o_total o_flushed o_tickets]; auto.
    - lia.
    - split; auto. rewrite Z.sub_diag. unfold mget. cbn [Z.to_nat seq map]. rewrite app_nil_r. auto.
    - repeat split; auto. discriminate. }
  destruct (Z.ltb_spec (o_left o) n) as [Hl|Hl].
  2:{ destruct R. assert ((o_cap o <? n) = false) as -> by lia. exists own, fl. split; [split; auto|].
      split; auto. split; auto. split; [|auto]. intros N X. rewrite X in rs_start0. lia. }
  destruct (o_start o) as [[b p]|] eqn:Es.
  - pose proof R as Rc. destruct R. rewrite Es in rs_start0. destruct rs_start0 as [Hc Hd].
    set (o1 := write_to_stream o).
    assert (R1 : RS o1 base own doc doc T /\ o_left o1 = o_cap o1 /\ o_cap o1 = o_cap o /\ o_tickets o1 = o_tickets o /\
                 o_flushed o1 = o_flushed o + 1 /\ o_start o1 = Some (b, p)).
    { unfold o1, write_to_stream. rewrite Es. cbn [o_streaming o_heap o_file o_put o_left o_cap o_start o_total o_flushed o_tickets].
      split; [|auto]. 
      split; cbn [o_streaming o_heap o_file o_put o_left o_cap o_start o_total o_flushed o_tickets]; auto.
      - rewrite rs_put0, stream_write_end, rs_file0, <- app_assoc, <- Hd. auto.
      - rewrite rs_put0, stream_write_end, app_length. auto.
      - lia.
      - split; auto. rewrite Z.sub_diag. unfold mget at 1. cbn [Z.to_nat seq map]. rewrite app_nil_r. auto.
      - split; [lia|]. lia. }
    destruct R1 as (R1 & El & Ec & Et & Ef & Es1).
    assert (Tk : forall t s, tick o fl doc t s -> tk_size t = snd s /\ tk_pos t = Z.of_nat (fst s) /\ 0 <= tk_seg t < o_flushed o + 1 /\ (fst s + snd s <= length doc)%nat).
    { intros t s (A & B & [(C1 & C2 & C3 & C4)|(C1 & C2)]); (split; [auto|split; [auto|]]); [lia|].
      split; [lia|]. rewrite Hd, app_length. lia. }
    assert (Fl : zlen doc + n <= stream_buffer_size -> o_flushed o = 0 -> False).
    { intros X Y. destruct rs_fl0 as [_ F]. specialize (F Y). subst fl. cbn [app] in Hd.
      assert (zlen doc = o_cap o - o_left o) by (rewrite Hd; apply mget_length; lia). lia. }
    destruct (Z.ltb_spec (o_cap o1) n) as [Hc1|Hc1].
    + destruct (Inc o1 doc R1 El Hc1 eq_refl) as (own' & R2 & L2 & T2 & S2 & F2).
      exists own', doc. split; auto. split; auto. split; [congruence|]. split; auto. split.
      * intros t s K. destruct (Tk t s K) as (A & B & C & D). split; auto. split; auto. right. rewrite F2, Ef. auto.
      * intros X Y. destruct (Fl X Y).
    + exists own, doc. split; auto. split; [lia|]. split; auto. split; [congruence|]. split.
      * intros t s K. destruct (Tk t s K) as (A & B & C & D). split; auto. split; auto. right. rewrite Ef. auto.
      * intros X Y. destruct (Fl X Y).
  - assert (Eo : write_to_stream o = o) by (unfold write_to_stream; rewrite Es; auto). rewrite Eo.
    pose proof R as Rc. destruct R. rewrite Es in rs_start0. destruct rs_start0 as [Hc Hd].
    assert ((o_cap o <? n) = true) as -> by lia.
    destruct (Inc o fl Rc ltac:(lia) ltac:(lia) Hd) as (own' & R2 & L2 & T2 & S2 & F2).
    exists own', fl. split; auto. split; auto. split; auto. split; auto. split.
    + intros t s (A & B & [(C1 & C2 & C3 & C4)|(C1 & C2)]); (split; [auto|split; [auto|]]); rewrite F2; [left|right; auto].
      split; auto. split; auto. split; auto. intro N. specialize (C4 N). rewrite Es in C4. discriminate.
    + congruence.
Qed.

(** a new piece [bs] of the document *)
Lemma stream_new : forall o base own fl doc tks bs, RS o base own fl doc (zlen doc) -> zlen bs < two32 ->
  Forall2 (tick o fl doc) (o_tickets o) tks ->
  let '((b, p), o1) := out_alloc o (zlen bs) in
  let o2 := with_mem o1 (mset (h_mem (o_heap o1)) b p bs) in
  exists own' fl', RS o2 base own' fl' (doc ++ bs) (zlen (doc ++ bs)) /\ Forall2 (tick o2 fl' (doc ++ bs)) (o_tickets o2) tks /\
  (zlen (doc ++ bs) <= stream_buffer_size -> o_flushed o = 0 -> o_flushed o2 = 0) /\
  (length fl' <= length doc)%nat /\
  ((0 < length bs)%nat -> o_start o2 = Some (b, p - (zlen doc - zlen fl'))).
Proof.
  intros o base own fl doc tks bs R Hb Tk. unfold out_alloc.
  set (o0 := mkOut (o_heap o) (o_total o + zlen bs) (o_left o) (o_cap o) (o_flushed o) (o_start o) (o_streaming o)
                 (o_file o) (o_put o) (o_tickets o)).
  assert (R0 : RS o0 base own fl doc (zlen (doc ++ bs))).
  { destruct R. split; auto. cbn. rewrite rs_total0. unfold zlen. rewrite app_length. lia. }
  assert (Tk0 : Forall2 (tick o0 fl doc) (o_tickets o0) tks) by exact Tk.
  assert (F0 : o_flushed o0 = o_flushed o) by auto.
  clearbody o0. assert (M0 : o_streaming o0 = true) by apply R0. rewrite M0. cbn [negb].
  fold (prepare o0 (zlen bs)).
  assert (Hb0 : 0 <= zlen bs < two32) by (unfold zlen in *; lia).
  destruct (prepare_spec o0 base own fl doc _ (zlen bs) R0 Hb0) as (own1 & fl1 & R1 & L1 & T1 & S1 & K1 & F1).
  fold (prepare o0 (zlen bs)). set (o1 := prepare o0 (zlen bs)) in *. clearbody o1.
  rewrite <- F0, <- T1 in *.
  assert (Tk1 : Forall2 (tick o1 fl1 doc) (o_tickets o1) tks) by (eapply Forall2_weaken; [|exact Tk0]; auto).
  clear Tk Tk0 K1 R R0. pose proof R1 as Rc. destruct R1.
  assert (Hfl : (length fl1 <= length doc)%nat).
  { destruct (o_start o1) as [[b p]|]; destruct rs_start0 as [_ ->]; auto. rewrite app_length. lia. }
  assert (Lz : zlen (doc ++ bs) = zlen doc + zlen bs) by (unfold zlen; rewrite app_length; lia).
  destruct (o_start o1) as [[b p]|] eqn:Es; cbn [o_heap].
  - destruct rs_start0 as [Hc Hd].
    exists own1, fl1.
    split; [split|]; cbn [with_mem o_streaming o_heap o_file o_put o_left o_cap o_start o_total o_flushed o_tickets h_mem]; auto.
    + apply hinv_mem. auto.
    + lia.
    + split; auto. replace (o_cap o1 - (o_left o1 - zlen bs)) with (o_cap o1 - o_left o1 + zlen bs) by lia.
      rewrite mget_set by lia. rewrite app_assoc, <- Hd. auto.
    + split; [|split; [|split]]; auto.
      * eapply Forall2_weaken; [|exact Tk1]. intros t s (A & B & [(C1 & C2 & C3 & C4)|(C1 & C2)]);
        (split; [auto|split; [auto|]]); [left|right; auto].
        cbn [o_flushed o_start]. split; auto. split; auto. split; [rewrite app_length; lia|]. intro N. exact (eq_trans (eq_sym Es) (C4 N)).
      * intros X Y. apply F1; auto. rewrite <- Lz. auto.
      * intros _. f_equal. f_equal. assert (zlen doc = zlen fl1 + (o_cap o1 - o_left o1)).
        { rewrite Hd at 1. unfold zlen at 1. rewrite app_length, Nat2Z.inj_add. fold (zlen fl1). f_equal. 
          apply (mget_length _ b p). lia. }
        lia.
  - destruct rs_start0 as [Hc Hd].
    assert (bs = []) as -> .
    { destruct bs; auto. exfalso. apply S1; auto. unfold zlen. cbn [length]. lia. }
    rewrite app_nil_r in *. change (zlen []) with 0 in *. exists own1, fl1.
    split; [split|]; cbn [with_mem o_streaming o_heap o_file o_put o_left o_cap o_start o_total o_flushed o_tickets h_mem]; auto.
    + apply hinv_mem. auto.
    + lia.
    + split; [|split; [|split]]; auto.
      * eapply Forall2_weaken; [|exact Tk1]. intros t s (A & B & [(C1 & C2 & C3 & C4)|(C1 & C2)]);
        (split; [auto|split; [auto|]]); [left|right; auto].
        cbn [o_flushed o_start]. split; auto. split; auto. split; auto. intro N. exact (eq_trans (eq_sym Es) (C4 N)).
      * intros X Y. apply F1; auto. lia.
      * cbn. lia.
Qed.

(** positions are absolute: the document begins the stream, or nothing reserved is filled in after a flush *)
Definition place_ok (base : bytes) (ops : list oop) (final : Z) : Prop :=
  base = [] \/ (forall n, ~ In (OReserve n) ops) \/ final <= stream_buffer_size.

Lemma overwrite_app_l : forall l r p b, (p + length b <= length l)%nat -> overwrite (l ++ r) p b = overwrite l p b ++ r.
Proof.
  intros. unfold overwrite. rewrite firstn_app, skipn_app.
  replace (p - length l)%nat with 0%nat by lia. replace (p + length b - length l)%nat with 0%nat by lia.
  cbn [firstn skipn]. rewrite app_nil_r, <- !app_assoc. auto.
Qed.
Lemma overwrite_app_r : forall l r p b, overwrite (l ++ r) (length l + p) b = l ++ overwrite r p b.
Proof.
  intros. unfold overwrite. rewrite firstn_app, skipn_app.
  rewrite firstn_all2, (skipn_all2 l) by lia. cbn [app]. rewrite <- !app_assoc.
  replace (length l + p - length l)%nat with p by lia. replace (length l + p + length b - length l)%nat with (p + length b)%nat by lia. auto.
Qed.
Lemma overwrite_none : forall l p, overwrite l p [] = l.
Proof. intros. unfold overwrite. cbn [app length]. rewrite Nat.add_0_r. apply firstn_skipn. Qed.

Lemma mset_none : forall m b p a c, mset m b p [] a c = m a c.
Proof.
  intros. unfold mset. change (zlen []) with 0.
  destruct (Nat.eqb_spec a b), (Z.leb_spec p c), (Z.ltb_spec c (p + 0)); cbn [andb]; auto; lia.
Qed.

Lemma mget_patch : forall m b p n k bs, 0 <= k -> k + zlen bs <= n ->
  mget (mset m b (p + k) bs) b p n = overwrite (mget m b p n) (Z.to_nat k) bs.
Proof.
  intros m b p n k bs Hk Hn. 
  replace n with (k + (zlen bs + (n - k - zlen bs))) by lia.
  rewrite !mget_app by (unfold zlen in *; lia).
  assert (Z.to_nat k = length (mget m b p k)) as -> by (pose proof (mget_length m b p k Hk); unfold zlen in *; lia).
  rewrite overwrite_mid by (pose proof (mget_length m b (p + k) (zlen bs) ltac:(unfold zlen; lia)); unfold zlen in *; lia).
  f_equal; [|f_equal].
  - rewrite !mget_map. apply mem_map_other. intros a A B. rewrite addrs_in in A, B. lia.
  - rewrite mget_map. apply mem_map_set.
  - rewrite !mget_map. apply mem_map_other. intros a A B. rewrite addrs_in in A, B. lia.
Qed.

Lemma out_op_stream : forall o base own fl doc tks op, RS o base own fl doc (zlen doc) ->
  Forall2 (tick o fl doc) (o_tickets o) tks -> valid_ops (map snd tks) [op] -> op_len op < two32 ->
  (base = [] \/ tks = [] \/ o_flushed o = 0) ->
  exists o' own' fl', out_op o op = Ok o' /\
    RS o' base own' fl' (fst (spec_op (doc, tks) op)) (zlen (fst (spec_op (doc, tks) op))) /\
    Forall2 (tick o' fl' (fst (spec_op (doc, tks) op))) (o_tickets o') (snd (spec_op (doc, tks) op)) /\
    (zlen (fst (spec_op (doc, tks) op)) <= stream_buffer_size -> o_flushed o = 0 -> o_flushed o' = 0).
Proof.
  intros o base own fl doc tks op R Tk V L P. destruct op as [bs|n|k off bs]; cbn [spec_op fst snd out_op op_len] in *.
  - pose proof (stream_new o base own fl doc tks bs R L Tk) as N.
    destruct (out_alloc o (zlen bs)) as [[b p] o1]. destruct N as (own' & fl' & N1 & N2 & N3 & _).
    eexists. exists own', fl'. split; [reflexivity|]. auto.
  - pose proof (stream_new o base own fl doc tks (repeat 0 n) R) as N.
    assert (Z : zlen (repeat 0 n) = Z.of_nat n) by (unfold zlen; rewrite repeat_length; auto). rewrite Z in N.
    destruct (out_alloc o (Z.of_nat n)) as [[b p] o1]. destruct (N L Tk) as (own' & fl' & N1 & N2 & N3 & N4 & N5).
    set (o2 := with_mem o1 (mset (h_mem (o_heap o1)) b p (repeat 0 n))) in *.
    eexists. exists own', fl'. split; [reflexivity|].
    split; [destruct N1; split; auto|]. cbn [o_tickets o_flushed]. split; [|auto].
    apply Forall2_app; [exact N2|]. constructor; auto. split; auto. cbn [fst snd tk_blk tk_off tk_size tk_pos tk_seg o_flushed o_start].
    destruct R. split; [rewrite rs_total0; auto|]. left. split; auto. split; auto. split; [rewrite app_length, repeat_length; lia|].
    rewrite repeat_length in N5. exact N5.
  - destruct V as [(n & Hn & Hl) _]. rewrite nth_error_map in Hn.
    destruct (nth_error tks k) as [[q n']|] eqn:E; [|discriminate]. injection Hn as ->. cbn [fst snd] in *.
    destruct (Forall2_nth _ _ _ _ _ Tk E) as (t & Et & T1 & T2 & T3).
    cbn [fst snd] in *. rewrite Et. destruct (Nat.ltb_spec (tk_size t) (off + length bs)); [lia|].
    pose proof R as Rc. destruct R. rewrite rs_mode0. cbn [negb orb].
    assert (Lo : length (overwrite doc (q + off) bs) = length doc).
    { apply overwrite_length. destruct T3 as [(A & B & C & D)|(A & B)]; [lia|].
      assert ((length fl <= length doc)%nat); [|lia].
      destruct (o_start o) as [[b p]|]; destruct rs_start0 as [_ ->]; auto. rewrite app_length. lia. }
    assert (Lz : zlen (overwrite doc (q + off) bs) = zlen doc) by (unfold zlen; f_equal; auto).
    rewrite Lz.
    destruct (Z.eqb_spec (tk_seg t) (o_flushed o)) as [Hs|Hs].
    + (* in memory *)
      destruct T3 as [(A & B & C & D)|(A & _)]; [|lia].
      eexists. exists own, fl. split; [reflexivity|].
      split; [|split; [|auto]].
      * split; cbn [with_mem o_streaming o_heap o_file o_put o_left o_cap o_start o_total o_flushed o_tickets h_mem]; auto.
        { apply hinv_mem; auto. }
        destruct bs as [|b0 bs].
        { rewrite overwrite_none. destruct (o_start o) as [[b p]|]; auto. destruct rs_start0 as [X Y]. split; auto.
          etransitivity; [exact Y|]. f_equal. unfold mget. apply map_ext. intro i. symmetry. apply mset_none. }
        specialize (D ltac:(cbn [length] in Hl; lia)). rewrite D in *. destruct rs_start0 as [X Y]. split; auto.
        set (p := tk_off t - (Z.of_nat q - zlen fl)) in *.
        replace (tk_off t + Z.of_nat off) with (p + (Z.of_nat q - zlen fl + Z.of_nat off)) by (unfold p; lia).
        assert (Ld : length doc = (length fl + Z.to_nat (o_cap o - o_left o))%nat).
        { rewrite Y at 1. rewrite app_length. f_equal.
          pose proof (mget_length (h_mem (o_heap o)) (tk_blk t) p (o_cap o - o_left o) ltac:(lia)). unfold zlen in *. lia. }
        rewrite mget_patch.
        -- rewrite Y at 1. replace (q + off)%nat with (length fl + Z.to_nat (Z.of_nat q - zlen fl + Z.of_nat off))%nat by (unfold zlen; lia).
           rewrite overwrite_app_r. auto.
        -- unfold zlen. lia.
        -- unfold zlen in *. lia.
      * cbn [with_mem o_tickets]. eapply Forall2_weaken; [|exact Tk].
        intros t' s' (A' & B' & [(C1 & C2 & C3 & C4)|(C1 & C2)]);
        (split; [auto|split; [auto|]]); [left|right; auto].
        cbn [o_flushed o_start with_mem]. rewrite Lo. auto.
    + (* in the stream *)
      destruct T3 as [(A & _)|(A & B)]; [lia|].
      assert (base = []) as ->.
      { destruct P as [P|[P|P]]; auto.
        - subst tks. destruct k; discriminate.
        - lia. }
      eexists. exists own, (overwrite fl (q + off) bs).
      assert (Lf : length (overwrite fl (q + off) bs) = length fl) by (apply overwrite_length; lia).
      assert (Ef : zlen (overwrite fl (q + off) bs) = zlen fl) by (unfold zlen; f_equal; auto).
      cbn [app] in *.
      split; [reflexivity|]. split; [|split; [|auto]].
      * split; cbn [with_mem o_streaming o_heap o_file o_put o_left o_cap o_start o_total o_flushed o_tickets h_mem]; auto.
        -- rewrite rs_file0, T2, Nat2Z.id. auto.
        -- rewrite rs_put0, rs_file0, T2, Nat2Z.id. symmetry. exact Lf.
        -- destruct (o_start o) as [[b p]|]; destruct rs_start0 as [X Y]; (split; [auto|]).
           ++ rewrite Y at 1. apply overwrite_app_l. lia.
           ++ rewrite Y. auto.
        -- split; [apply rs_fl0|]. intro. lia.
      * cbn [with_mem o_tickets]. eapply Forall2_weaken; [|exact Tk].
        intros t' s' (A' & B' & [(C1 & C2 & C3 & C4)|(C1 & C2)]);
        (split; [auto|split; [auto|]]); [left|right]; cbn [o_flushed o_start]; rewrite ?Lo, ?Lf, ?Ef; auto.
Qed.

Lemma out_ops_stream : forall ops o base own fl doc tks, RS o base own fl doc (zlen doc) ->
  Forall2 (tick o fl doc) (o_tickets o) tks -> spec_ok (doc, tks) -> valid_ops (map snd tks) ops ->
  Forall (fun op => op_len op < two32) ops ->
  (base = [] \/ (tks = [] /\ forall n, ~ In (OReserve n) ops) \/
   (o_flushed o = 0 /\ zlen (fst (spec_run ops (doc, tks))) <= stream_buffer_size)) ->
  exists o' own' fl', out_ops o ops = Ok o' /\ RS o' base own' fl' (fst (spec_run ops (doc, tks))) (zlen (fst (spec_run ops (doc, tks)))).
Proof.
  induction ops as [|op ops IH]; intros o base own fl doc tks R Tk Ok V L P.
  - exists o, own, fl. auto.
  - destruct (valid_ops_cons doc tks op ops V) as [V1 V2].
    pose proof (spec_op_ok doc tks op Ok V1) as Ok'.
    pose proof (spec_run_length ops (spec_op (doc, tks) op) Ok' V2) as Ln.
    cbn [spec_run fold_left] in *. fold (spec_run ops (spec_op (doc, tks) op)) in *.
    destruct (out_op_stream o base own fl doc tks op R Tk V1) as (o1 & own1 & fl1 & E & R1 & T1 & F1).
    { apply (Forall_inv L). }
    { destruct P as [P|[[P _]|[P _]]]; auto. }
    assert (P' : base = [] \/ (snd (spec_op (doc, tks) op) = [] /\ forall n, ~ In (OReserve n) ops) \/
      (o_flushed o1 = 0 /\ zlen (fst (spec_run ops (spec_op (doc, tks) op))) <= stream_buffer_size)).
    { destruct P as [P|[[P Q]|[P Q]]]; auto.
      - right. left. split.
        + subst tks. destruct op as [bs|n|k off bs]; cbn [spec_op fst snd]; auto.
          * exfalso. apply (Q n). left; auto.
          * destruct k; auto.
        + intros n X. apply (Q n). right; auto.
      - right. right. split; auto. apply F1; auto. unfold zlen in *. lia. }
    destruct (spec_op (doc, tks) op) as [doc' tks']. cbn [fst snd] in *.
    destruct (IH o1 base own1 fl1 doc' tks' R1 T1 Ok' V2 (Forall_inv_tail L) P') as (o2 & own2 & fl2 & E2 & R2).
    exists o2, own2, fl2. split; auto. cbn [out_ops]. rewrite E. exact E2.
Qed.

Lemma RS_result : forall o base own fl doc T, RS o base own fl doc T ->
  o_file (write_to_stream o) = base ++ doc /\ heap_ok (o_heap (write_to_stream o)).
Proof.
  intros o base own fl doc T []. unfold write_to_stream.
  destruct (o_start o) as [[b p]|]; destruct rs_start0 as [X Y]; cbn [o_file o_heap].
  - split; [|exists own; auto]. rewrite rs_put0, stream_write_end, rs_file0, <- app_assoc, <- Y. auto.
  - split; [|exists own; auto]. rewrite Y. auto.
Qed.

Lemma clear_RS : forall h base, heap_ok h -> RS (out_set_stream h base) base [] [] [] 0.
Proof.
  intros h base [own [Hj _]]. destruct (clear_spec _ _ Hj) as (I & U & _).
  split; cbn [out_set_stream o_streaming o_heap o_file o_put o_left o_cap o_start o_total o_flushed]; auto; try lia.
  - rewrite app_nil_r. auto.
  - split; [lia|auto].
Qed.

Lemma save_stream_spec : forall h base ops, heap_ok h -> valid_ops [] ops ->
  Forall (fun op => op_len op < two32) ops -> place_ok base ops (zlen (spec_out ops)) ->
  exists h', save_stream h base ops = Ok (base ++ spec_out ops, h') /\ heap_ok h'.
Proof.
  intros h base ops Hh V L P. pose proof (clear_RS h base Hh) as R.
  destruct (out_ops_stream ops _ base _ _ _ [] R) as (o & own & fl & E & R').
  - constructor.
  - constructor.
  - exact V.
  - exact L.
  - destruct P as [P|[P|P]]; auto.
  - destruct (RS_result _ _ _ _ _ _ R') as [A B].
    exists (o_heap (write_to_stream o)). unfold save_stream. rewrite E. cbn [rbind]. rewrite A. auto.
Qed.

(** ** any sequence of documents saved with one Out object *)
Lemma heap_ok_init : forall m, heap_ok (heap_init m).
Proof. intro m. exists []. exact (proj1 (heap_init_inv m)). Qed.

Definition job_ok (j : job) : Prop :=
  match j with
  | ToMemory ops => valid_ops [] ops /\ zlen (spec_out ops) < two32
  | ToStream base ops => valid_ops [] ops /\ Forall (fun op => op_len op < two32) ops /\ place_ok base ops (zlen (spec_out ops))
  end.

Lemma run_job_spec : forall h j, heap_ok h -> job_ok j -> exists h', run_job h j = Ok (job_result j, h') /\ heap_ok h'.
Proof.
  intros h [ops|base ops] Hh H; cbn [job_ok run_job job_result] in *.
  - destruct H. apply save_buffer_spec; auto.
  - destruct H as (? & ? & ?). apply save_stream_spec; auto.
Qed.
Lemma run_jobs_spec : forall js h, heap_ok h -> Forall job_ok js -> exists h', run_jobs h js = Ok (map job_result js, h') /\ heap_ok h'.
Proof.
  induction js as [|j js IH]; intros h Hh F; cbn [run_jobs map].
  - eauto.
  - inversion F; subst. destruct (run_job_spec h j Hh) as (h1 & E1 & Hh1); auto. rewrite E1. cbn [rbind].
    destruct (IH h1 Hh1) as (h2 & E2 & Hh2); auto. rewrite E2. cbn [rbind]. eauto.
Qed.

(** a piece of exactly 4 GiB: its length does not fit the size of a segment *)
Lemma big_chunk_zeros : forall m bs, zlen bs = two32 ->
  exists h', save_buffer (heap_init m) [OWrite bs] = Ok (repeat 0 (length bs), h').
Proof.
  intros m bs L. unfold save_buffer, out_set_buffer. cbn [out_ops out_op]. unfold out_alloc. cbn [o_streaming negb o_heap o_total].
  rewrite L. change (clear (heap_init m)) with (heap_init m).
  assert (G : get_mem (heap_init m) two32 1 = ((0%nat, 0), snd (get_mem (heap_init m) two32 1)) /\
     exists s i, h_used (snd (get_mem (heap_init m) two32 1)) = [i] /\ seg_of (snd (get_mem (heap_init m) two32 1)) i = s /\ sg_size s = sg_left s).
  { split; [vm_compute; reflexivity|]. eexists _, 0%nat. split; [vm_compute; reflexivity|]. split; [reflexivity|]. vm_compute. reflexivity. }
  destruct G as [G1 (s & i & G2 & G3 & G4)]. rewrite G1. set (h := snd (get_mem (heap_init m) two32 1)) in *. clearbody h.
  cbn [rbind with_mem o_heap]. eexists. f_equal. f_equal. unfold write_to_buffer, with_mem. cbn [o_heap h_used o_total h_mem].
  rewrite G2. cbn [copy_segs h_mem].
  assert (Sg : forall m, seg_of (mkHeap (h_cap h) (h_crr h) (h_links h) [i] (h_free h) (h_ulinks h) (h_flinks h) (h_blocks h) m) i = s) by (intro; exact G3).
  rewrite Sg, G4, Z.sub_diag. unfold mget. cbn [Z.to_nat seq map]. unfold stream_write. cbn [length Nat.add firstn skipn app].
  rewrite <- L. f_equal. unfold zlen. lia.
Qed.
