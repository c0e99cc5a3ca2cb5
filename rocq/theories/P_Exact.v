(** Programs on which the memory source and the stream source agree completely, including errors. *)
From Coq Require Import ZArith List Bool Lia ZifyBool ZifyNat.
From Verif Require Import Base Lemmas M_In P_In P_Safe.
Import ListNotations.
Open Scope Z_scope.

(** the result on the stream is the one on memory, where loading ends normally the sources stay related; [I] is
    what is known about the input left *)
Definition exact {A} (I : blk -> Prop) (p : prog A) (Q : A -> Prop) : Prop :=
  forall b g s, rel b g s -> g_lit g = None -> I b ->
  match run_block p b with
  | Ok (a, b') => Q a /\ I b' /\ exists s' g', run_stream p s = Ok (a, s') /\ rel b' g' s' /\ g_lit g' = None
  | Err => run_stream p s = Err
  | UB u => run_stream p s = UB u
  | Fuel => run_stream p s = Fuel
  end.

Lemma exact_ret {A} I (a : A) (Q : A -> Prop) : Q a -> exact I (Ret a) Q.
Proof. intros H b g s R L Hb. cbn. split; [exact H|]. split; [exact Hb|]. exists s, g. auto. Qed.
Lemma exact_throw {A} I (Q : A -> Prop) : exact I Throw Q.
Proof. intros b g s R L. reflexivity. Qed.
Lemma exact_bind {A B} I (p : prog A) (f : A -> prog B) (Q : A -> Prop) (Q2 : B -> Prop) :
  exact I p Q -> (forall a, Q a -> exact I (f a) Q2) -> exact I (pbind p f) Q2.
Proof.
  intros H1 H2 b g s R L Hb. rewrite run_block_bind, run_stream_bind. specialize (H1 b g s R L Hb).
  destruct (run_block p b) as [[a b']| | |]; cbn [rbind].
  - destruct H1 as (Qa & Ib & s' & g' & -> & R' & L'). cbn [rbind]. exact (H2 a Qa b' g' s' R' L' Ib).
  - now rewrite H1.
  - now rewrite H1.
  - now rewrite H1.
Qed.
Lemma exact_conseq {A} I (p : prog A) (Q Q' : A -> Prop) : exact I p Q -> (forall a, Q a -> Q' a) -> exact I p Q'.
Proof.
  intros H HQ b g s R L Hb. specialize (H b g s R L Hb). destruct (run_block p b) as [[a b']| | |]; auto. intuition.
Qed.

(** a failing check for n bytes *)
Lemma need_fails n b g s : rel b g s -> 0 <= n -> zlen (b_rest b) < n -> fst (need n s) = false.
Proof.
  intros R Hn Hr. destruct R. unfold need.
  assert (L : zlen (b_rest b) = Z.of_nat (length (s_win s) - s_pos s) + zlen (s_src s)).
  { rewrite r_rest. unfold zlen. rewrite app_length, skipn_length. lia. }
  pose proof (zlen_nonneg (s_src s)).
  replace (Z.of_nat (s_pos s) + n <? zlen (s_win s)) with false by (unfold zlen in *; lia).
  unfold fetch. rewrite r_eof. cbn [fst]. apply negb_false_iff.
  set (rl := Z.max n 1024 - _). assert (G : zlen (firstn (Z.to_nat rl) (s_src s)) <= zlen (s_src s)) by (unfold zlen; rewrite firstn_length; lia).
  lia.
Qed.

(** input consisting of bytes *)
Definition bytes_left (b : blk) : Prop := wf_bytes (b_rest b).

Lemma exact_read_block n (Q : bytes -> Prop) : 0 <= n -> (forall bs, zlen bs = n -> wf_bytes bs -> Q bs) ->
  exact bytes_left (read_block n) Q.
Proof.
  intros Hn HQ b g s R L Hb. unfold bytes_left in *. pose proof (run_read_block n b) as E. rewrite E.
  destruct (two63 <=? n) eqn:E1; [unfold read_block; cbn [run_stream]; now rewrite E1|].
  destruct (n <=? zlen (b_rest b)) eqn:E2.
  - destruct (agrees_read_block n b g (fun bs b' g' => zlen bs = n /\ consumed bs b b' /\ g_lit g' = None) Hn) with (a := firstn (Z.to_nat n) (b_rest b))
      (b' := mkBlk (rev_append (firstn (Z.to_nat n) (b_rest b)) (b_done b)) (skipn (Z.to_nat n) (b_rest b))) as (g' & G & L1 & C & L2); auto.
    assert (W : wf_bytes (firstn (Z.to_nat n) (b_rest b)) /\ wf_bytes (skipn (Z.to_nat n) (b_rest b))).
    { apply wf_bytes_app. now rewrite firstn_skipn. }
    split; [apply HQ; [exact L1|apply W]|]. split; [apply W|].
    destruct (ghost_stream _ _ _ _ _ _ _ _ R G) as (s' & S1 & S2). exists s', g'. auto.
  - assert (R' : rel b (mkGhost (g_vis g) 0 (Some 0%nat)) (mkStrm (s_win s) (s_pos s) (Some (s_pos s)) (s_src s) (s_eof s))).
    { destruct R. constructor; cbn [s_win s_pos s_anchor s_src s_eof g_vis g_back g_lit]; auto.
      - intros a Ha. injection Ha as <-. lia.
      - unfold lit_ok. cbn [g_lit s_pos s_anchor]. split; [lia|]. left. f_equal. lia. }
    pose proof (need_fails n _ _ _ R' Hn ltac:(lia)) as F. unfold read_block. cbn [run_stream]. rewrite E1.
    destruct (need n _) as [[|] s2]; [discriminate F|reflexivity].
Qed.

Lemma exact_read_move n (Q : Z -> Prop) : 0 <= n -> (forall x, 0 <= x < 256 ^ n -> Q x) ->
  exact bytes_left (read_move n) Q.
Proof.
  intros Hn HQ. eapply exact_bind; [apply exact_read_block with (Q := fun bs => zlen bs = n /\ wf_bytes bs); auto|].
  intros bs [L W]. apply exact_ret, HQ. rewrite <- L. now apply unle_bound.
Qed.

Lemma exact_final {A} (p : prog A) (Q : A -> Prop) src : exact bytes_left p Q -> wf_bytes src ->
  match run_block p (set_block src) with
  | Ok (a, _) => exists s, run_stream p (set_stream src) = Ok (a, s)
  | Err => run_stream p (set_stream src) = Err
  | UB u => run_stream p (set_stream src) = UB u
  | Fuel => run_stream p (set_stream src) = Fuel
  end.
Proof.
  intros H W. specialize (H _ _ _ (rel_init src) eq_refl W). destruct (run_block p (set_block src)) as [[a b]| | |]; auto.
  destruct H as (_ & _ & s & g & E & _). eauto.
Qed.
