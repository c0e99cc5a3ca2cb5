(** Reasoning about programs on arbitrary input: which outcomes are possible, and when the stream source agrees. *)
From Coq Require Import ZArith List Bool Lia ZifyBool ZifyNat.
From Verif Require Import Base Lemmas M_In P_In.
Import ListNotations.
Open Scope Z_scope.

(** every outcome is a result satisfying [Q], an exception, or an undefined behaviour satisfying [U];
    the loop bounds are never exhausted *)
Definition triple {A} (U : ub -> Prop) (p : prog A) (b : blk) (Q : A -> blk -> Prop) : Prop :=
  match run_block p b with Ok (a, b') => Q a b' | Err => True | UB u => U u | Fuel => False end.

Lemma triple_ret {A} U (a : A) b (Q : A -> blk -> Prop) : Q a b -> triple U (Ret a) b Q.
Proof. auto. Qed.
Lemma triple_throw {A} U b (Q : A -> blk -> Prop) : triple U Throw b Q.
Proof. exact I. Qed.
Lemma triple_bind {A B} U (p : prog A) (f : A -> prog B) b Q :
  triple U p b (fun a b' => triple U (f a) b' Q) -> triple U (pbind p f) b Q.
Proof. unfold triple. rewrite run_block_bind. destruct (run_block p b) as [[a b']| | |]; cbn [rbind]; auto. Qed.
Lemma triple_weaken {A} (U U' : ub -> Prop) (p : prog A) b (Q Q' : A -> blk -> Prop) :
  (forall u, U u -> U' u) -> (forall a b', Q a b' -> Q' a b') -> triple U p b Q -> triple U' p b Q'.
Proof. unfold triple. intros HU HQ. destruct (run_block p b) as [[a b']| | |]; auto. Qed.
Lemma triple_conseq {A} U (p : prog A) b (Q Q' : A -> blk -> Prop) :
  triple U p b Q -> (forall a b', Q a b' -> Q' a b') -> triple U p b Q'.
Proof. intros. eapply triple_weaken; eauto. Qed.

Lemma blk_eta b : mkBlk (b_done b) (b_rest b) = b.
Proof. now destruct b. Qed.

(** [b'] is [b] with the bytes [bs] consumed *)
Definition consumed (bs : bytes) (b b' : blk) : Prop :=
  b_rest b = bs ++ b_rest b' /\ b_done b' = rev bs ++ b_done b.
Lemma consumed_nil b : consumed [] b b.
Proof. split; reflexivity. Qed.
Lemma consumed_trans x y a b c : consumed x a b -> consumed y b c -> consumed (x ++ y) a c.
Proof. intros [A1 A2] [B1 B2]. split; [rewrite A1, B1, app_assoc; auto|rewrite B2, A2, rev_app_distr, app_assoc; auto]. Qed.
Lemma consumed_len bs b b' : consumed bs b b' -> (length (b_rest b) = length bs + length (b_rest b'))%nat.
Proof. intros [H _]. rewrite H, app_length. lia. Qed.

(** moving and reading blocks: UbPtr if the size does not fit the address space *)
Lemma run_read_block n b : run_block (read_block n) b =
  if two63 <=? n then UB UbPtr
  else if n <=? zlen (b_rest b) then
    Ok (firstn (Z.to_nat n) (b_rest b),
        mkBlk (rev_append (firstn (Z.to_nat n) (b_rest b)) (b_done b)) (skipn (Z.to_nat n) (b_rest b)))
  else Err.
Proof.
  unfold read_block. cbn [run_block b_rest b_done]. destruct (two63 <=? n) eqn:H1; [reflexivity|].
  destruct (n <=? zlen (b_rest b)) eqn:H2; [|reflexivity].
  set (l := firstn (Z.to_nat n) (b_rest b)). rewrite rev_append_app.
  destruct (Z_lt_dec n 0).
  { unfold l. replace (Z.to_nat n) with 0%nat by lia. cbn [firstn rev app skipn].
    replace (n <=? zlen (b_done b)) with true by (unfold zlen; lia). reflexivity. }
  assert (Ll : length l = Z.to_nat n) by (unfold l; rewrite firstn_length; unfold zlen in *; lia).
  replace (n <=? zlen (rev l ++ b_done b)) with true by (rewrite zlen_app; unfold zlen; rewrite rev_length; lia).
  rewrite firstn_app_exact by (rewrite rev_length; auto). now rewrite rev_involutive.
Qed.

Lemma triple_read_block (U : ub -> Prop) n b (Q : bytes -> blk -> Prop) : (two63 <= n -> U UbPtr) -> 0 <= n ->
  (forall bs b', zlen bs = n -> consumed bs b b' -> Q bs b') -> triple U (read_block n) b Q.
Proof.
  intros HU Hn HQ. unfold triple. rewrite run_read_block. destruct (two63 <=? n) eqn:H1; [apply HU; lia|].
  destruct (n <=? zlen (b_rest b)) eqn:H2; [|exact I]. apply HQ.
  - unfold zlen in *. rewrite firstn_length. lia.
  - split; cbn [b_rest b_done]; [now rewrite firstn_skipn|now rewrite rev_append_app].
Qed.
Lemma triple_read_move (U : ub -> Prop) n b (Q : Z -> blk -> Prop) : 0 <= n < two63 ->
  (forall bs b', zlen bs = n -> consumed bs b b' -> Q (unle bs) b') -> triple U (read_move n) b Q.
Proof.
  intros Hn HQ. apply triple_bind. apply triple_read_block; [lia|lia|]. intros bs b' L C. now apply triple_ret, HQ.
Qed.

(** a successful run of [p] on memory is also one under the cursor discipline of P_In, so the stream agrees *)
Definition agrees {A} (p : prog A) (b : blk) (g : ghost) (Q : A -> blk -> ghost -> Prop) : Prop :=
  forall a b', run_block p b = Ok (a, b') -> exists g', run_ghost p b g = Some (a, b', g') /\ Q a b' g'.

Lemma agrees_ret {A} (a : A) b g (Q : A -> blk -> ghost -> Prop) : Q a b g -> agrees (Ret a) b g Q.
Proof. intros H a' b' E. injection E as <- <-. exists g. auto. Qed.
Lemma agrees_fail {A} (p : prog A) b g Q : (forall r, run_block p b <> Ok r) -> agrees p b g Q.
Proof. intros H a b' E. exfalso. eapply H; eauto. Qed.
Lemma agrees_bind {A B} (p : prog A) (f : A -> prog B) b g Q :
  agrees p b g (fun a b' g' => agrees (f a) b' g' Q) -> agrees (pbind p f) b g Q.
Proof.
  intros H a b' E. rewrite run_block_bind in E. destruct (run_block p b) as [[a1 b1]| | |] eqn:E1; try discriminate.
  destruct (H a1 b1 E1) as (g1 & G1 & H1). cbn [rbind] in E. destruct (H1 a b' E) as (g2 & G2 & Q2).
  exists g2. rewrite run_ghost_bind, G1. auto.
Qed.
Lemma agrees_conseq {A} (p : prog A) b g (Q Q' : A -> blk -> ghost -> Prop) :
  agrees p b g Q -> (forall a b' g', Q a b' g' -> Q' a b' g') -> agrees p b g Q'.
Proof. intros H HQ a b' E. destruct (H a b' E) as (g' & G & X). eauto. Qed.

(** after reading a block of less than 1024 bytes the next byte is in the buffer *)
Lemma agrees_read_block n b g (Q : bytes -> blk -> ghost -> Prop) : 0 <= n ->
  (forall bs b' g', zlen bs = n -> consumed bs b b' -> g_lit g' = None ->
     (n < 1024 -> (Nat.min 1 (length (b_rest b')) <= g_vis g')%nat) -> Q bs b' g') -> agrees (read_block n) b g Q.
Proof.
  intros Hn HQ a b' E. pose proof E as E0. rewrite run_read_block in E. destruct (two63 <=? n) eqn:H1; [discriminate|].
  destruct (n <=? zlen (b_rest b)) eqn:H2; [|discriminate]. 
  assert (C : consumed a b b').
  { injection E as <- <-. split; cbn [b_rest b_done]; [now rewrite firstn_skipn|now rewrite rev_append_app]. }
  assert (L : zlen a = n). { injection E as <- _. unfold zlen in *. rewrite firstn_length. lia. }
  set (g' := mkGhost (vis_after_move n (length (b_rest b'))) (Z.to_nat n) None).
  exists g'. split.
  - unfold read_block. cbn [run_ghost b_rest b_done g_lit g_vis].
    replace ((0 <=? n) && (n <? two63) && (n <=? zlen (b_rest b))) with true by lia.
    replace ((0 <? 1000)%nat && ((0 =? 0)%nat || (2 <=? zlen (b_rest b)))) with true by lia.
    change (0 =? 0)%nat with true. cbv iota.
    assert (B : b' = mkBlk (rev_append (firstn (Z.to_nat n) (b_rest b)) (b_done b)) (skipn (Z.to_nat n) (b_rest b))) by congruence.
    rewrite B in *. cbn [b_rest b_done] in *.
    set (d' := rev_append (firstn (Z.to_nat n) (b_rest b)) (b_done b)) in *.
    assert (X : zlen d' = n + zlen (b_done b)).
    { unfold d'. rewrite rev_append_app, zlen_app. unfold zlen. rewrite rev_length, firstn_length. unfold zlen in *; lia. }
    assert (Y : rev (firstn (Z.to_nat n) d') = a).
    { destruct C as [_ C]. cbn [b_done] in C. rewrite C. rewrite firstn_app_exact, rev_involutive; [auto|]. rewrite rev_length. unfold zlen in *; lia. }
    destruct (n =? 1) eqn:N1.
    + cbn [g_back g_vis g_lit]. assert (n = 1) by lia.
      replace ((0 <=? n) && (n <=? Z.of_nat 1) && (n <=? zlen d')) with true by (rewrite X; unfold zlen; lia).
      rewrite Y. unfold g'. rewrite B. cbn [b_rest]. replace (Z.to_nat n) with 1%nat by lia. reflexivity.
    + cbn [g_back g_vis g_lit].
      replace ((0 <=? n) && (n <=? Z.of_nat (Z.to_nat n)) && (n <=? zlen d')) with true by (rewrite X; unfold zlen; lia).
      rewrite Y. unfold g'. rewrite B. reflexivity.
  - apply HQ; auto. unfold g', vis_after_move. cbn [g_vis]. intros. replace (n <? 1024) with true by lia. lia.
Qed.
Lemma agrees_read_move n b g (Q : Z -> blk -> ghost -> Prop) : 0 <= n ->
  (forall bs b' g', zlen bs = n -> consumed bs b b' -> g_lit g' = None ->
     (n < 1024 -> (Nat.min 1 (length (b_rest b')) <= g_vis g')%nat) -> Q (unle bs) b' g') -> agrees (read_move n) b g Q.
Proof. intros Hn HQ. apply agrees_bind. apply agrees_read_block; auto. intros. now apply agrees_ret, HQ. Qed.
