(** Proofs about the Srl format. *)
From Coq Require Import ZArith List Bool Lia ZifyBool ZifyNat.
From Verif Require Import Base Lemmas M_Types M_Conv M_In S_Doc M_OutOps S_PSrl M_PSrl P_In P_Reads P_Float.
Import ListNotations.
Open Scope Z_scope.

(** * variable length integers *)

Lemma has_128 b : 0 <= b < 256 -> has b 128 = (128 <=? b).
Proof.
  intros H. unfold has. destruct (128 <=? b) eqn:E.
  - assert (Z.testbit (Z.land b 128) 7 = true).
    { rewrite Z.land_spec. change (Z.testbit 128 7) with true. rewrite andb_true_r.
      replace b with (1 * 2 ^ 7 + (b - 128)) by lia. rewrite <- lor_add by lia.
      rewrite Z.lor_spec. rewrite Z.mul_1_l, Z.pow2_bits_true by lia. reflexivity. }
    destruct (Z.land b 128 =? 0) eqn:Q; [|reflexivity]. apply Z.eqb_eq in Q. rewrite Q in H0. discriminate.
  - assert (Z.land b 128 = 0); [|now rewrite H0].
    apply Z.bits_inj'. intros i Hi. rewrite Z.land_spec, Z.bits_0.
    change 128 with (2 ^ 7). rewrite Z.pow2_bits_eqb by lia.
    destruct (Z.eqb_spec 7 i); [subst i|apply andb_false_r]. rewrite andb_true_r.
    rewrite (Z.bits_above_log2 b 7); [reflexivity|lia|].
    destruct (Z.eq_dec b 0); [subst; cbn; lia|]. apply Z.log2_lt_pow2; lia.
Qed.
Lemma land_127 b : Z.land 127 b = b mod 128.
Proof. rewrite Z.land_comm. change 127 with (2 ^ 7 - 1). now apply land_ones_mod. Qed.
Lemma u8_lor_128 n : 0 <= n -> u8 (Z.lor n 128) = 128 + n mod 128.
Proof.
  intros H. unfold u8, two8. change 256 with (2 ^ 8). rewrite <- Z.land_ones by lia.
  apply Z.bits_inj'. intros i Hi. rewrite Z.land_spec, Z.lor_spec.
  replace (128 + n mod 128) with (1 * 2 ^ 7 + n mod 2 ^ 7) by (cbn; lia).
  rewrite <- lor_add by (try lia; apply Z.mod_pos_bound; lia).
  rewrite Z.lor_spec, Z.mul_1_l. change 128 with (2 ^ 7). rewrite !Z.pow2_bits_eqb by lia.
  destruct (Z.eqb_spec 7 i).
  - subst i. rewrite orb_true_r. reflexivity.
  - rewrite orb_false_r. cbn [orb].
    destruct (Z_lt_dec i 7).
    + rewrite Z.mod_pow2_bits_low by lia. rewrite Z.ones_spec_low by lia. now rewrite andb_true_r.
    + rewrite Z.mod_pow2_bits_high by lia. rewrite Z.ones_spec_high by lia. now rewrite andb_false_r.
Qed.

Lemma encode_loop_vlq : forall room n, 0 <= n < 128 ^ Z.of_nat room -> (0 < room)%nat ->
  exists k, (1 <= k <= room)%nat /\ encode_loop room n = Ok (vlq k n) /\ 0 <= n < 128 ^ Z.of_nat k /\
            (k = 1%nat \/ 128 ^ Z.of_nat (k - 1) <= n).
Proof.
  induction room as [|room IH]; intros n Hn Hr; [lia|]. cbn [encode_loop].
  destruct (128 <=? n) eqn:E.
  - rewrite Z.shiftr_div_pow2 by lia. change (2 ^ 7) with 128.
    destruct room as [|room'].
    { change (128 ^ Z.of_nat 1) with 128 in Hn. lia. }
    rewrite Nat2Z.inj_succ, Z.pow_succ_r in Hn by lia.
    destruct (IH (n / 128)) as (k & Hk & Ek & Bk & Mk); [|lia|].
    { split; [apply Z.div_pos; lia|apply Z.div_lt_upper_bound; lia]. }
    exists (S k). split; [lia|]. rewrite Ek. cbn [rbind]. rewrite u8_lor_128 by lia.
    destruct k as [|k']; [lia|]. split; [reflexivity|].
    split.
    { rewrite Nat2Z.inj_succ, Z.pow_succ_r by lia.
      pose proof (Z.div_mod n 128 ltac:(lia)). pose proof (Z.mod_pos_bound n 128 ltac:(lia)). nia. }
    right. destruct Mk as [Mk|Mk].
    { assert (k' = 0%nat) by lia. subst k'. cbn. lia. }
    replace (S (S k') - 1)%nat with (S (S k' - 1)) by lia.
    rewrite Nat2Z.inj_succ, Z.pow_succ_r by lia.
    pose proof (Z.div_mod n 128 ltac:(lia)). pose proof (Z.mod_pos_bound n 128 ltac:(lia)). nia.
  - exists 1%nat. split; [lia|]. cbn [vlq]. unfold u8, two8. rewrite Z.mod_small by lia.
    split; [reflexivity|]. change (128 ^ Z.of_nat 1) with 128. split; [lia|]. now left.
Qed.

Lemma vlq_length k n : length (vlq k n) = k.
Proof. revert n; induction k as [|[|k] IH]; intros; cbn [vlq length]; auto. f_equal. apply IH. Qed.

Lemma vlq_cons k n : (1 <= k)%nat -> 0 <= n < 128 ^ Z.of_nat k ->
  exists b tl, vlq k n = b :: tl /\ 0 <= b < 256 /\ Z.land 127 b = n mod 128 /\
   ((k = 1%nat /\ has b 128 = false /\ tl = [] /\ n < 128) \/
    (2 <= k)%nat /\ has b 128 = true /\ tl = vlq (k - 1) (n / 128)).
Proof.
  intros Hk Hn. destruct k as [|[|k]]; [lia| |].
  - change (128 ^ Z.of_nat 1) with 128 in Hn. exists n, []. cbn [vlq].
    rewrite land_127, has_128 by lia. repeat split; try lia. left. repeat split; lia.
  - exists (128 + n mod 128), (vlq (S k) (n / 128)). pose proof (Z.mod_pos_bound n 128 ltac:(lia)).
    rewrite land_127, has_128 by lia. split; [reflexivity|]. split; [lia|].
    split. { replace (128 + n mod 128) with (n mod 128 + 1 * 128) by lia. rewrite Z.mod_add, Z.mod_mod by lia. reflexivity. }
    right. split; [lia|]. split; [lia|]. reflexivity.
Qed.

Lemma decode_loop_vlq : forall k f n o s b tl d rest, vlq k n = b :: tl -> (1 <= k <= 11)%nat -> (k <= f)%nat ->
  0 <= n < 128 ^ Z.of_nat k -> 7 <= s -> s - 7 + 7 * Z.of_nat k <= 70 -> n < 2 ^ (64 - (s - 7)) -> 0 <= o < 2 ^ (s - 7) ->
  run_block (decode_loop f b (o + (n mod 128) * 2 ^ (s - 7)) s) (mkBlk d (b :: tl ++ rest)) =
  Ok (o + n * 2 ^ (s - 7), mkBlk (rev (b :: tl) ++ d) rest).
Proof.
  induction k as [|k IH]; intros f n o s b tl d rest V Hk Hf Hn Hs Hs2 Hn2 Ho; [lia|].
  destruct f as [|f]; [lia|].
  destruct (vlq_cons (S k) n ltac:(lia) Hn) as (b' & tl' & V' & Hb & Lb & C).
  rewrite V in V'. injection V' as <- <-.
  cbn [decode_loop]. destruct C as [(K1 & Hb1 & -> & Hn3)|(K2 & Hb1 & ->)]; rewrite Hb1.
  - replace (70 <? s) with false by lia. cbn [run_block b_done b_rest].
    change (two63 <=? 1) with false. cbv iota.
    replace (1 <=? zlen (b :: [] ++ rest)) with true by (rewrite zlen_cons; unfold zlen; lia).
    cbn [app firstn skipn rev_append]. change (Z.to_nat 1) with 1%nat. cbn [firstn skipn rev_append].
    rewrite Z.mod_small by lia. reflexivity.
  - replace (S k - 1)%nat with k in * by lia.
    assert (Hn' : 0 <= n / 128 < 128 ^ Z.of_nat k).
    { rewrite Nat2Z.inj_succ, Z.pow_succ_r in Hn by lia.
      split; [apply Z.div_pos; lia|apply Z.div_lt_upper_bound; lia]. }
    destruct (vlq_cons k (n / 128) ltac:(lia) Hn') as (b2 & tl2 & V2 & Hb2 & Lb2 & _).
    cbn [run_block b_done b_rest]. change (two63 <=? 1) with false. cbv iota.
    replace (1 <=? zlen (b :: vlq k (n / 128) ++ rest)) with true by (rewrite zlen_cons; unfold zlen; lia).
    change (Z.to_nat 1) with 1%nat. cbn [firstn skipn rev_append].
    rewrite V2. cbn [app nth_error].
    assert (S1 : s <= 63).
    { assert (k >= 1)%nat by lia. lia. }
    replace (64 <=? s) with false by lia.
    rewrite Lb2.
    assert (Pow : 2 ^ (64 - (s - 7)) = 128 * 2 ^ (64 - s)).
    { replace (64 - (s - 7)) with (7 + (64 - s)) by lia. rewrite Z.pow_add_r by lia. reflexivity. }
    assert (Hn4 : n / 128 < 2 ^ (64 - s)) by (apply Z.div_lt_upper_bound; lia).
    assert (Small : 0 <= (n / 128) mod 128 <= n / 128).
    { pose proof (Z.mod_pos_bound (n / 128) 128 ltac:(lia)). split; [lia|]. apply Z.mod_le; lia. }
    assert (P64 : 2 ^ 64 = 2 ^ (64 - s) * 2 ^ s) by (rewrite <- Z.pow_add_r by lia; f_equal; lia).
    assert (Ps : 0 < 2 ^ s) by (apply Z.pow_pos_nonneg; lia).
    unfold u64, two64. change 18446744073709551616 with (2 ^ 64).
    rewrite Z.shiftl_mul_pow2 by lia. rewrite (Z.mod_small _ (2 ^ 64)) by nia.
    assert (P7 : 2 ^ s = 128 * 2 ^ (s - 7)).
    { replace s with (7 + (s - 7)) at 1 by lia. rewrite Z.pow_add_r by lia. reflexivity. }
    pose proof (Z.mod_pos_bound n 128 ltac:(lia)).
    assert (Ob : 0 <= o + n mod 128 * 2 ^ (s - 7) < 2 ^ s) by nia.
    rewrite Z.lor_comm, lor_add by (auto; lia).
    rewrite Z.add_comm.
    specialize (IH f (n / 128) (o + n mod 128 * 2 ^ (s - 7)) (s + 7) b2 tl2 (b :: d) rest V2).
    replace (s + 7 - 7) with s in IH by lia.
    rewrite IH; try lia.
    f_equal. f_equal.
    + pose proof (Z.div_mod n 128 ltac:(lia)). rewrite P7. nia.
    + f_equal. cbn [rev]. rewrite <- !app_assoc. reflexivity.
Qed.

Lemma pow128 k : 128 ^ Z.of_nat k = 2 ^ (7 * Z.of_nat k).
Proof. change 128 with (2 ^ 7). rewrite <- Z.pow_mul_r by lia. reflexivity. Qed.

Lemma encode_integer_spec n : 0 <= n < two64 ->
  exists k, (1 <= k <= 10)%nat /\ encode_integer n = Ok (vlq k n) /\ 0 <= n < 128 ^ Z.of_nat k /\
            (k = 1%nat \/ 128 ^ Z.of_nat (k - 1) <= n).
Proof.
  intros H. apply encode_loop_vlq; [|lia].
  rewrite pow128. change (2 ^ (7 * Z.of_nat 10)) with 1180591620717411303424. unfold_words. lia.
Qed.

Lemma reads_integer n : 0 <= n < two64 -> forall bs, encode_integer n = Ok bs -> reads decode_integer bs n.
Proof.
  intros H bs E. destruct (encode_integer_spec n H) as (k & Hk & Ek & Bk & Mk).
  rewrite Ek in E. injection E as <-. intros d rest.
  destruct (vlq_cons k n ltac:(lia) Bk) as (b & tl & V & Hb & Lb & _).
  unfold decode_integer. rewrite V. cbn [app run_block b_rest nth_error]. rewrite Lb.
  pose proof (decode_loop_vlq k 11 n 0 7 b tl d rest V) as D.
  change (7 - 7) with 0 in D. rewrite Z.pow_0_r, !Z.mul_1_r, !Z.add_0_l in D.
  apply D; try lia; change (2 ^ (64 - 0)) with two64; lia.
Qed.

Lemma encode_integer_wf n bs : 0 <= n < two64 -> encode_integer n = Ok bs -> wf_bytes bs /\ (1 <= length bs <= 10)%nat.
Proof.
  intros H E. destruct (encode_integer_spec n H) as (k & Hk & Ek & Bk & Mk).
  rewrite Ek in E. injection E as <-. rewrite vlq_length. split; [|lia].
  clear - Bk. revert n Bk. induction k as [|[|k] IH]; intros n Bk; cbn [vlq]; repeat constructor.
  - change (128 ^ Z.of_nat 1) with 128 in Bk. lia.
  - change (128 ^ Z.of_nat 1) with 128 in Bk. lia.
  - pose proof (Z.mod_pos_bound n 128 ltac:(lia)). lia.
  - pose proof (Z.mod_pos_bound n 128 ltac:(lia)). lia.
  - apply IH. rewrite Nat2Z.inj_succ, Z.pow_succ_r in Bk by lia.
    split; [apply Z.div_pos; lia|apply Z.div_lt_upper_bound; lia].
Qed.

