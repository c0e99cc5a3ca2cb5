(** Relating the memory source and the stream source: a program that succeeds under the cursor discipline
    [run_ghost] gives the same result on both. *)
From Coq Require Import ZArith List Bool Lia ZifyBool ZifyNat.
From Verif Require Import Base Lemmas M_In.
Import ListNotations.
Open Scope Z_scope.

(** What is known about the stream buffer: [g_vis] bytes from pos on are in the buffer, [g_back] bytes before
    pos are; [g_lit = Some d]: an anchor was set d one-byte moves ago. *)
Record ghost : Type := mkGhost { g_vis : nat; g_back : nat; g_lit : option nat }.
Definition ghost0 : ghost := mkGhost 0 0 None.

Definition vis_after_peek (n : Z) (rem : nat) : nat :=
  if n <? 1024 then Nat.min (Z.to_nat n + 1) rem else Nat.min (Z.to_nat n) rem.
Definition vis_after_move (n : Z) (rem : nat) : nat := if n <? 1024 then Nat.min 1 rem else 0%nat.

Fixpoint run_ghost {R} (p : prog R) (b : blk) (g : ghost) : option (R * blk * ghost) :=
  match p with
  | Ret r => Some (r, b, g)
  | Throw | Undef _ | OutOfFuel | LeftM1 _ => None
  | NotNull k => match b_done b, b_rest b with [], [] => None | _, _ => run_ghost k b g end
  | Move n k =>
      if (0 <=? n) && (n <? two63) && (n <=? zlen (b_rest b)) then
        let rest' := skipn (Z.to_nat n) (b_rest b) in
        let b' := mkBlk (rev_append (firstn (Z.to_nat n) (b_rest b)) (b_done b)) rest' in
        match g_lit g with
        | None => run_ghost k b' (mkGhost (vis_after_move n (length rest')) (Z.to_nat n) None)
        | Some d =>
            if n =? 1 then
              if (d <? 1000)%nat && ((d =? 0)%nat || (2 <=? zlen (b_rest b)))
              then run_ghost k b' (mkGhost (vis_after_move n (length rest')) 0 (Some (S d))) else None
            else if (d =? 0)%nat
            then run_ghost k b' (mkGhost (vis_after_move n (length rest')) (Z.to_nat n) None) else None
        end
      else None
  | Peek n k =>
      if (0 <=? n) && (n <? two63) && (n <=? zlen (b_rest b)) then
        match g_lit g with
        | None => run_ghost k b (mkGhost (vis_after_peek n (length (b_rest b))) 0 None)
        | Some _ => None
        end
      else None
  | TryPeek n k =>
      if (0 <=? n) && (n <=? zlen (b_rest b)) then
        match g_lit g with
        | None => run_ghost (k true) b (mkGhost (vis_after_peek n (length (b_rest b))) 0 None)
        | Some _ => None
        end
      else None
  | Deref off k =>
      if (off <? g_vis g)%nat then
        match nth_error (b_rest b) off with Some c => run_ghost (k c) b g | None => None end
      else None
  | Adv n k =>
      if (n <=? g_vis g)%nat && (n <=? length (b_rest b))%nat then
        match g_lit g with
        | None => run_ghost k (mkBlk (rev_append (firstn n (b_rest b)) (b_done b)) (skipn n (b_rest b)))
                             (mkGhost (g_vis g - n) 0 None)
        | Some _ => None
        end
      else None
  | Anchor true k => run_ghost k b (mkGhost (g_vis g) 0 (Some 0%nat))
  | Anchor false k =>
      run_ghost k b (mkGhost (g_vis g) (match g_lit g with Some d => d | None => g_back g end) None)
  | Back n k =>
      if (0 <=? n) && (n <=? Z.of_nat (g_back g)) && (n <=? zlen (b_done b)) then
        match g_lit g with
        | None => run_ghost (k (rev (firstn (Z.to_nat n) (b_done b)))) b g
        | Some _ => None
        end
      else None
  end.

Lemma run_ghost_block : forall R (p : prog R) b g r b' g',
  run_ghost p b g = Some (r, b', g') -> run_block p b = Ok (r, b').
Proof.
  induction p as [r1|  |u| |p IHp|n p IHp|n p IHp|n p IHp|off p IHp|n p IHp|an p IHp|n p IHp|p IHp];
    intros b g r0 b' g' H0; cbn [run_ghost run_block] in *; try discriminate.
  - congruence.
  - destruct (b_done b), (b_rest b); try discriminate; eauto.
  - destruct ((0 <=? n) && (n <? two63) && (n <=? zlen (b_rest b))) eqn:E; [|discriminate].
    replace (two63 <=? n) with false by lia. replace (n <=? zlen (b_rest b)) with true by lia.
    destruct (g_lit g) as [d|]; [|eauto].
    destruct (n =? 1).
    + destruct ((d <? 1000)%nat && _); [eauto|discriminate].
    + destruct (d =? 0)%nat; [eauto|discriminate].
  - destruct ((0 <=? n) && (n <? two63) && (n <=? zlen (b_rest b))) eqn:E; [|discriminate].
    replace (two63 <=? n) with false by lia. replace (n <=? zlen (b_rest b)) with true by lia.
    destruct (g_lit g); [discriminate|eauto].
  - destruct ((0 <=? n) && (n <=? zlen (b_rest b))) eqn:E; [|discriminate].
    replace (n <=? zlen (b_rest b)) with true by lia.
    destruct (g_lit g); [discriminate|eauto].
  - destruct (off <? g_vis g)%nat; [|discriminate]. destruct (nth_error (b_rest b) off); [eauto|discriminate].
  - destruct ((n <=? g_vis g)%nat && (n <=? length (b_rest b))%nat) eqn:E; [|discriminate].
    replace (n <=? length (b_rest b))%nat with true by lia. destruct (g_lit g); [discriminate|eauto].
  - destruct an; eauto.
  - destruct ((0 <=? n) && (n <=? Z.of_nat (g_back g)) && (n <=? zlen (b_done b))) eqn:E; [|discriminate].
    replace (n <=? zlen (b_done b)) with true by lia. destruct (g_lit g); [discriminate|eauto].
Qed.

Definition lit_ok (g : ghost) (s : strm) : Prop :=
  match g_lit g with
  | None => (g_back g <= s_pos s)%nat
  | Some d => (d <= s_pos s)%nat /\
      (s_anchor s = Some (s_pos s - d)%nat \/
       s_anchor s = None /\ (d >= 1)%nat /\ ((length (s_win s) - s_pos s) + d >= 1024 \/ s_src s = [])%nat)
  end.

Record rel (b : blk) (g : ghost) (s : strm) : Prop := {
  r_eof : s_eof s = false;
  r_pos : (s_pos s <= length (s_win s))%nat;
  r_rest : b_rest b = skipn (s_pos s) (s_win s) ++ s_src s;
  r_done : exists pre, rev (b_done b) = pre ++ firstn (s_pos s) (s_win s);
  r_anchor : forall a, s_anchor s = Some a -> (a <= s_pos s)%nat;
  r_vis : (g_vis g <= length (s_win s) - s_pos s)%nat;
  r_lit : lit_ok g s
}.

(** state after a successful check for n more bytes *)
Lemma need_spec : forall n b g s, rel b g s -> 0 <= n -> n <= zlen (b_rest b) ->
  exists s', need n s = (true, s') /\ s_eof s' = false /\ (s_pos s' <= length (s_win s'))%nat /\
    b_rest b = skipn (s_pos s') (s_win s') ++ s_src s' /\
    (exists pre, rev (b_done b) = pre ++ firstn (s_pos s') (s_win s')) /\
    (forall a, s_anchor s' = Some a -> (a <= s_pos s')%nat) /\
    (vis_after_peek n (length (b_rest b)) <= length (s_win s') - s_pos s')%nat /\
    ((n < 1024 /\ (s' = s /\ (Z.to_nat n + 1 <= length (s_win s) - s_pos s)%nat \/
       ((length (s_win s') - s_pos s' >= 1024)%nat \/ s_src s' = []))
      \/ n >= 1024)) /\
    (s' = s \/
       (forall a, s_anchor s = Some a -> s_anchor s' = None /\ (s_pos s - a <= s_pos s')%nat)
        /\ (length (s_win s) - s_pos s <= Z.to_nat n)%nat).
Proof.
  intros n b g s R Hn Hr. destruct R. unfold need.
  assert (L : zlen (b_rest b) = Z.of_nat (length (s_win s) - s_pos s) + zlen (s_src s)).
  { rewrite r_rest0. unfold zlen. rewrite app_length, skipn_length. lia. }
  assert (L' : length (b_rest b) = (length (s_win s) - s_pos s + length (s_src s))%nat) by (unfold zlen in L; lia).
  destruct (Z.of_nat (s_pos s) + n <? zlen (s_win s)) eqn:E.
  - exists s. unfold zlen in E, L. unfold vis_after_peek. split; [reflexivity|].
    repeat split; auto; try (destruct (n <? 1024); lia).
    + destruct (Z_lt_dec n 1024); [left; split; [lia|left; split; [auto|lia]]|right; lia].
  - unfold fetch. rewrite r_eof0.
    set (left := (length (s_win s) - s_pos s)%nat) in *.
    set (rl := Z.max n 1024 - Z.of_nat left).
    set (kp := match s_anchor s with Some a => a | None => s_pos s end).
    set (mg := Nat.min kp 32). set (dr := (kp - mg)%nat).
    assert (Kp : (kp <= s_pos s)%nat) by (unfold kp; destruct (s_anchor s); [apply r_anchor0; auto|lia]).
    assert (Dr : (dr <= s_pos s)%nat) by lia.
    assert (Lf : Z.of_nat left <= n) by (unfold left, zlen in *; lia).
    assert (G : zlen (firstn (Z.to_nat rl) (s_src s)) = Z.min rl (zlen (s_src s))).
    { unfold zlen. rewrite firstn_length. lia. }
    assert (Fl : (zlen (firstn (Z.to_nat rl) (s_src s)) + Z.of_nat left <? n) = false).
    { rewrite G. lia. }
    rewrite Fl. cbn [negb]. eexists. split; [reflexivity|]. cbn [s_eof s_win s_pos s_anchor s_src].
    assert (Lw : length (skipn dr (s_win s) ++ firstn (Z.to_nat rl) (s_src s)) =
                 (length (s_win s) - dr + Nat.min (Z.to_nat rl) (length (s_src s)))%nat).
    { rewrite app_length, skipn_length, firstn_length. lia. }
    split; [reflexivity|]. split; [rewrite Lw; lia|].
    split.
    { rewrite skipn_app, skipn_skipn, skipn_length.
      replace (s_pos s - dr - (length (s_win s) - dr))%nat with 0%nat by lia. cbn [skipn].
      replace (dr + (s_pos s - dr))%nat with (s_pos s) by lia.
      rewrite <- app_assoc, firstn_skipn. exact r_rest0. }
    split.
    { destruct r_done0 as [pre P]. exists (pre ++ firstn dr (s_win s)). rewrite P, <- app_assoc. f_equal.
      rewrite firstn_app, skipn_length.
      replace (s_pos s - dr - (length (s_win s) - dr))%nat with 0%nat by lia.
      cbn [firstn]. rewrite app_nil_r.
      rewrite <- (firstn_skipn dr (s_win s)) at 1.
      rewrite firstn_app, firstn_firstn, firstn_length.
      replace (Nat.min (s_pos s) dr) with dr by lia. f_equal. f_equal. lia. }
    split.
    { intros a. unfold kp in *. destruct (s_anchor s); [discriminate|]. intros Q. injection Q as <-. unfold mg. lia. }
    split.
    { unfold vis_after_peek. rewrite Lw. unfold zlen in *. destruct (n <? 1024) eqn:N; lia. }
    split.
    { destruct (Z_lt_dec n 1024); [left; split; [lia|right]|right; lia].
      rewrite Lw. destruct (Z_le_dec rl (zlen (s_src s))).
      - left. unfold zlen in *. lia.
      - right. apply skipn_all2. unfold zlen in *. lia. }
    right. split; [|lia]. intros a Ea. rewrite Ea. split; [reflexivity|].
    assert (Dk : (dr <= kp)%nat) by lia. assert (Ka : kp = a) by (unfold kp; rewrite Ea; reflexivity). lia.
Qed.

Lemma ghost_stream : forall R (p : prog R) b g s r b' g',
  rel b g s -> run_ghost p b g = Some (r, b', g') ->
  exists s', run_stream p s = Ok (r, s') /\ rel b' g' s'.
Proof.
  induction p as [r1|  |u| |p IHp|n p IHp|n p IHp|n p IHp|off p IHp|n p IHp|an p IHp|n p IHp|p IHp];
    intros b0 g s r0 b' g' R0 H0; cbn [run_ghost run_stream] in *; try discriminate.
  - injection H0 as <- <- <-. eauto.
  - destruct (b_done b0), (b_rest b0) eqn:E2; try discriminate; eapply IHp; eauto.
  - (* Move *)
    destruct ((0 <=? n) && (n <? two63) && (n <=? zlen (b_rest b0))) eqn:E; [|discriminate].
    replace (two63 <=? n) with false by lia.
    destruct (need_spec n b0 g s R0) as (s1 & N1 & Eof & Pos & Rest & Done & Anc & Vis & Win & Cases); [lia|lia|].
    rewrite N1.
    assert (Lr : length (b_rest b0) = (length (s_win s1) - s_pos s1 + length (s_src s1))%nat).
    { rewrite Rest, app_length, skipn_length. lia. }
    assert (Hn : (Z.to_nat n <= length (s_win s1) - s_pos s1)%nat).
    { unfold vis_after_peek in Vis. unfold zlen in E. destruct (n <? 1024); lia. }
    assert (K : forall gg, (g_vis gg = vis_after_move n (length (skipn (Z.to_nat n) (b_rest b0)))) ->
      (lit_ok gg (mkStrm (s_win s1) (s_pos s1 + Z.to_nat n) (s_anchor s1) (s_src s1) (s_eof s1))) ->
      rel (mkBlk (rev_append (firstn (Z.to_nat n) (b_rest b0)) (b_done b0)) (skipn (Z.to_nat n) (b_rest b0))) gg
          (mkStrm (s_win s1) (s_pos s1 + Z.to_nat n) (s_anchor s1) (s_src s1) (s_eof s1))).
    { intros gg Gv Lo. constructor; cbn [s_eof s_win s_pos s_anchor s_src b_done b_rest]; auto.
      - lia.
      - rewrite Rest, skipn_app, skipn_length, skipn_skipn. f_equal.
        replace (Z.to_nat n - (length (s_win s1) - s_pos s1))%nat with 0%nat by lia. reflexivity.
      - destruct Done as [pre D]. exists pre. rewrite rev_append_rev, rev_app_distr, rev_involutive, D, <- app_assoc. f_equal.
        rewrite Rest, firstn_app, skipn_length.
        replace (Z.to_nat n - (length (s_win s1) - s_pos s1))%nat with 0%nat by lia.
        cbn [firstn]. rewrite app_nil_r.
        rewrite <- (firstn_skipn (s_pos s1) (s_win s1)) at 3. rewrite firstn_app, firstn_firstn, firstn_length.
        f_equal; [f_equal; lia|f_equal; lia].
      - intros a Ha. specialize (Anc a Ha). lia.
      - rewrite Gv, skipn_length. unfold vis_after_move, vis_after_peek in *. destruct (n <? 1024); lia. }
    destruct (g_lit g) as [d|] eqn:Gl.
    + pose proof (r_lit _ _ _ R0) as Lo. unfold lit_ok in Lo. rewrite Gl in Lo.
      destruct (n =? 1) eqn:N1'.
      * destruct ((d <? 1000)%nat && ((d =? 0)%nat || (2 <=? zlen (b_rest b0)))) eqn:D; [|discriminate].
        eapply IHp; [|exact H0]. apply K; [reflexivity|].
        unfold lit_ok. cbn [g_lit s_pos s_anchor s_src s_win].
        destruct Lo as [Lo1 Lo2]. destruct Cases as [->|[Cs Ls]].
        -- split; [lia|]. destruct Lo2 as [A|[A [A' W]]]; [left; rewrite A; f_equal; lia|right].
           split; [exact A|]. split; [lia|]. destruct W; [left; lia|right; auto].
        -- destruct Lo2 as [A|[A [A' W]]].
           ++ destruct (Cs _ A) as [C1 C2]. split; [lia|]. right. split; [auto|]. split; [lia|].
              destruct Win as [[_ [[-> ?]|[W|W]]]|W]; [lia|left; lia|right; auto|lia].
           ++ exfalso. (* no second fetch inside a literal *)
              assert (n = 1) by lia. subst n.
              assert (Lr0 : length (b_rest b0) = (length (s_win s) - s_pos s + length (s_src s))%nat).
              { rewrite (r_rest _ _ _ R0), app_length, skipn_length. lia. }
              destruct W as [W|W]; [lia|]. rewrite W in Lr0. cbn [length] in Lr0. unfold zlen in D. lia.
      * destruct (d =? 0)%nat eqn:D0; [|discriminate].
        eapply IHp; [|exact H0]. apply K; [reflexivity|]. unfold lit_ok. cbn [g_lit g_back s_pos]. lia.
    + eapply IHp; [|exact H0]. apply K; [reflexivity|]. unfold lit_ok. cbn [g_lit g_back s_pos]. lia.
  - (* Peek *)
    destruct ((0 <=? n) && (n <? two63) && (n <=? zlen (b_rest b0))) eqn:E; [|discriminate].
    replace (two63 <=? n) with false by lia.
    destruct (need_spec n b0 g s R0) as (s1 & N1 & Eof & Pos & Rest & Done & Anc & Vis & Win & Cases); [lia|lia|].
    rewrite N1. destruct (g_lit g) as [d|] eqn:Gl; [discriminate|].
    eapply IHp; [|exact H0]. constructor; auto. unfold lit_ok. cbn [g_lit g_back]. lia.
  - (* TryPeek *)
    destruct ((0 <=? n) && (n <=? zlen (b_rest b0))) eqn:E; [|discriminate].
    destruct (need_spec n b0 g s R0) as (s1 & N1 & Eof & Pos & Rest & Done & Anc & Vis & Win & Cases); [lia|lia|].
    rewrite N1. destruct (g_lit g) as [d|] eqn:Gl; [discriminate|].
    eapply IHp; [|exact H0]. constructor; auto. unfold lit_ok. cbn [g_lit g_back]. lia.
  - (* Deref *)
    destruct (off <? g_vis g)%nat eqn:E; [|discriminate].
    destruct (nth_error (b_rest b0) off) eqn:N; [|discriminate].
    assert (N' : nth_error (s_win s) (s_pos s + off) = Some z).
    { rewrite (r_rest _ _ _ R0), nth_error_app1 in N.
      2:{ rewrite skipn_length. pose proof (r_vis _ _ _ R0). lia. }
      rewrite <- N. rewrite <- (firstn_skipn (s_pos s) (s_win s)) at 1.
      pose proof (r_pos _ _ _ R0).
      rewrite nth_error_app2; rewrite firstn_length; [f_equal; lia|lia]. }
    rewrite N'. eapply IHp; eauto.
  - (* Adv *)
    destruct ((n <=? g_vis g)%nat && (n <=? length (b_rest b0))%nat) eqn:E; [|discriminate].
    destruct (g_lit g) as [d|] eqn:Gl; [discriminate|].
    pose proof (r_vis _ _ _ R0) as V. pose proof (r_pos _ _ _ R0) as P.
    replace (s_pos s + n <=? length (s_win s))%nat with true by lia.
    eapply IHp; [|exact H0]. destruct R0. constructor; cbn [s_eof s_win s_pos s_anchor s_src b_done b_rest]; auto.
    + lia.
    + rewrite r_rest0, skipn_app, skipn_length, skipn_skipn. f_equal.
      replace (n - (length (s_win s) - s_pos s))%nat with 0%nat by lia. reflexivity.
    + destruct r_done0 as [pre D]. exists pre. rewrite rev_append_rev, rev_app_distr, rev_involutive, D, <- app_assoc. f_equal.
      rewrite r_rest0, firstn_app, skipn_length.
      replace (n - (length (s_win s) - s_pos s))%nat with 0%nat by lia.
      cbn [firstn]. rewrite app_nil_r.
      rewrite <- (firstn_skipn (s_pos s) (s_win s)) at 3. rewrite firstn_app, firstn_firstn, firstn_length.
      f_equal; [f_equal; lia|f_equal; lia].
    + intros a Ha. specialize (r_anchor0 a Ha). lia.
    + cbn [g_vis]. lia.
    + unfold lit_ok. cbn [g_lit g_back]. lia.
  - (* Anchor *)
    destruct an.
    + eapply IHp; [|exact H0]. destruct R0. constructor; cbn [s_eof s_win s_pos s_anchor s_src]; auto.
      * intros a Q. injection Q as <-. lia.
      * unfold lit_ok. cbn [g_lit s_pos s_anchor]. split; [lia|]. left. f_equal. lia.
    + eapply IHp; [|exact H0]. destruct R0. constructor; cbn [s_eof s_win s_pos s_anchor s_src]; auto.
      * discriminate.
      * unfold lit_ok in *. cbn [g_lit g_back s_pos]. destruct (g_lit g); lia.
  - (* Back *)
    destruct ((0 <=? n) && (n <=? Z.of_nat (g_back g)) && (n <=? zlen (b_done b0))) eqn:E; [|discriminate].
    destruct (g_lit g) as [d|] eqn:Gl; [discriminate|].
    pose proof (r_lit _ _ _ R0) as Lo. unfold lit_ok in Lo. rewrite Gl in Lo.
    replace (n <=? Z.of_nat (s_pos s)) with true by lia.
    assert (Q : firstn (Z.to_nat n) (skipn (s_pos s - Z.to_nat n) (s_win s)) = rev (firstn (Z.to_nat n) (b_done b0))).
    { destruct (r_done _ _ _ R0) as [pre D]. pose proof (r_pos _ _ _ R0) as P.
      rewrite <- (rev_involutive (b_done b0)), D, rev_app_distr, firstn_app, rev_length, firstn_length.
      replace (Z.to_nat n - Nat.min (s_pos s) (length (s_win s)))%nat with 0%nat by lia. cbn [firstn]. rewrite app_nil_r.
      rewrite firstn_rev, rev_involutive, firstn_length. rewrite skipn_firstn_comm. f_equal; [lia|].
      f_equal. lia. }
    rewrite Q. eapply IHp; eauto.
Qed.

Lemma rel_init : forall src, rel (set_block src) ghost0 (set_stream src).
Proof.
  intros src. unfold set_stream, fetch. cbn. destruct src; constructor; cbn; auto; try lia.
  - exists []. reflexivity.
  - intros a H; injection H as <-; lia.
  - exists []. reflexivity.
  - intros a H; injection H as <-; lia.
Qed.

(** the two sources agree on every program that obeys the cursor discipline *)
Lemma stream_eq_block : forall R (p : prog R) src r b g,
  run_ghost p (set_block src) ghost0 = Some (r, b, g) ->
  run_block p (set_block src) = Ok (r, b) /\ exists s, run_stream p (set_stream src) = Ok (r, s).
Proof.
  intros R p src r b g H. split; [eapply run_ghost_block; eauto|].
  destruct (ghost_stream _ _ _ _ _ _ _ _ (rel_init src) H) as (s & S1 & _). eauto.
Qed.

(** sequencing *)
Lemma run_block_bind : forall A B (p : prog A) (f : A -> prog B) b,
  run_block (pbind p f) b = rbind (run_block p b) (fun '(a, b') => run_block (f a) b').
Proof.
  induction p as [r1|  |u| |p IHp|n p IHp|n p IHp|n p IHp|off p IHp|n p IHp|an p IHp|n p IHp|p IHp];
    intros f b; cbn [pbind run_block rbind]; auto.
  - destruct (b_done b), (b_rest b); auto.
  - destruct (two63 <=? n); [reflexivity|]. destruct (n <=? zlen (b_rest b)); [apply IHp|reflexivity].
  - destruct (two63 <=? n); [reflexivity|]. destruct (n <=? zlen (b_rest b)); [apply IHp|reflexivity].
  - destruct (nth_error (b_rest b) off); [apply IHp|reflexivity].
  - destruct (n <=? length (b_rest b))%nat; [apply IHp|reflexivity].
  - destruct (n <=? zlen (b_done b)); [apply IHp|reflexivity].
Qed.
Lemma run_stream_bind : forall A B (p : prog A) (f : A -> prog B) s,
  run_stream (pbind p f) s = rbind (run_stream p s) (fun '(a, s') => run_stream (f a) s').
Proof.
  induction p as [r1|  |u| |p IHp|n p IHp|n p IHp|n p IHp|off p IHp|n p IHp|an p IHp|n p IHp|p IHp];
    intros f b; cbn [pbind run_stream rbind]; auto.
  - destruct (two63 <=? n); [reflexivity|]. destruct (need n b) as [[|] ?]; [apply IHp|reflexivity].
  - destruct (two63 <=? n); [reflexivity|]. destruct (need n b) as [[|] ?]; [apply IHp|reflexivity].
  - destruct (need n b) as [ok ?]; apply IHp.
  - destruct (nth_error (s_win b) (s_pos b + off)); [apply IHp|reflexivity].
  - destruct (s_pos b + n <=? length (s_win b))%nat; [apply IHp|reflexivity].
  - destruct an; apply IHp.
  - destruct (n <=? Z.of_nat (s_pos b)); [apply IHp|reflexivity].
Qed.
Lemma run_ghost_bind : forall A B (p : prog A) (f : A -> prog B) b g,
  run_ghost (pbind p f) b g =
  match run_ghost p b g with Some (a, b', g') => run_ghost (f a) b' g' | None => None end.
Proof.
  induction p as [r1|  |u| |p IHp|n p IHp|n p IHp|n p IHp|off p IHp|n p IHp|an p IHp|n p IHp|p IHp];
    intros f b g; cbn [pbind run_ghost]; auto.
  - destruct (b_done b), (b_rest b); auto.
  - destruct (_ && _); [|reflexivity]. destruct (g_lit g); [|apply IHp].
    destruct (n =? 1); [destruct (_ && _); [apply IHp|reflexivity]|destruct (_ =? 0)%nat; [apply IHp|reflexivity]].
  - destruct (_ && _); [|reflexivity]. destruct (g_lit g); [reflexivity|apply IHp].
  - destruct (_ && _); [|reflexivity]. destruct (g_lit g); [reflexivity|apply IHp].
  - destruct (_ <? _)%nat; [|reflexivity]. destruct (nth_error (b_rest b) off); [apply IHp|reflexivity].
  - destruct (_ && _); [|reflexivity]. destruct (g_lit g); [reflexivity|apply IHp].
  - destruct an; apply IHp.
  - destruct (_ && _); [|reflexivity]. destruct (g_lit g); [reflexivity|apply IHp].
Qed.
