(** Proofs about floating point narrowing, printing and number pasting *)
From Coq Require Import ZArith List Bool Lia ZifyBool ZifyNat.
From Verif Require Import Base Lemmas M_Types M_Conv M_TpTools S_Conv P_Conv P_Text.
Import ListNotations.
Open Scope Z_scope.

(** ** decomposition of bit patterns *)
Lemma f64_split b : 0 <= b < two64 ->
  b = (if f64_sign b then two63 else 0) + f64_exp b * 2 ^ 52 + f64_man b /\
  0 <= f64_exp b < 2048 /\ 0 <= f64_man b < 2 ^ 52.
Proof.
  intros H. unfold f64_sign, f64_exp, f64_man. unfold_words.
  change (2 ^ 52) with 4503599627370496.
  pose proof (Z.mod_pos_bound b 4503599627370496 ltac:(lia)).
  pose proof (Z.div_mod b 4503599627370496 ltac:(lia)).
  pose proof (Z.mod_pos_bound (b / 4503599627370496) 2048 ltac:(lia)).
  pose proof (Z.div_mod (b / 4503599627370496) 2048 ltac:(lia)).
  assert (0 <= b / 4503599627370496 / 2048 < 2).
  { split; [apply Z.div_pos; [apply Z.div_pos|]; lia|].
    apply Z.div_lt_upper_bound; [lia|]. apply Z.div_lt_upper_bound; lia. }
  destruct (Z.leb_spec 9223372036854775808 b); lia.
Qed.
Lemma f32_split b : 0 <= b < two32 ->
  b = (if f32_sign b then two31 else 0) + f32_exp b * 2 ^ 23 + f32_man b /\
  0 <= f32_exp b < 256 /\ 0 <= f32_man b < 2 ^ 23.
Proof.
  intros H. unfold f32_sign, f32_exp, f32_man. unfold_words.
  change (2 ^ 23) with 8388608.
  pose proof (Z.mod_pos_bound b 8388608 ltac:(lia)).
  pose proof (Z.div_mod b 8388608 ltac:(lia)).
  pose proof (Z.mod_pos_bound (b / 8388608) 256 ltac:(lia)).
  pose proof (Z.div_mod (b / 8388608) 256 ltac:(lia)).
  assert (0 <= b / 8388608 / 256 < 2).
  { split; [apply Z.div_pos; [apply Z.div_pos|]; lia|].
    apply Z.div_lt_upper_bound; [lia|]. apply Z.div_lt_upper_bound; lia. }
  destruct (Z.leb_spec 2147483648 b); lia.
Qed.
(** fields of an assembled pattern *)
Lemma f64_fields (s : bool) e m : 0 <= e < 2048 -> 0 <= m < 2 ^ 52 ->
  let b := (if s then two63 else 0) + e * 2 ^ 52 + m in
  f64_sign b = s /\ f64_exp b = e /\ f64_man b = m /\ 0 <= b < two64.
Proof.
  intros He Hm b. unfold f64_sign, f64_exp, f64_man. unfold_words.
  change (2 ^ 52) with 4503599627370496 in *.
  assert (Hb: b = (if s then 2048 else 0) * 4503599627370496 + e * 4503599627370496 + m)
    by (subst b; destruct s; lia).
  clearbody b.
  assert (Hd: b / 4503599627370496 = (if s then 2048 else 0) + e).
  { rewrite Hb. rewrite <- Z.mul_add_distr_r, Z.div_add_l by lia. rewrite Z.div_small by lia. lia. }
  assert (Hm': b mod 4503599627370496 = m).
  { rewrite Hb. rewrite <- Z.mul_add_distr_r, Z.add_comm, Z.mod_add by lia. apply Z.mod_small. lia. }
  rewrite Hd, Hm'.
  repeat split.
  - destruct s; lia.
  - destruct s.
    + rewrite Z.add_comm. change 2048 with (1 * 2048) at 1. rewrite Z.mod_add by lia. apply Z.mod_small; lia.
    + apply Z.mod_small; lia.
  - destruct s; lia.
  - destruct s; lia.
Qed.
Lemma f32_fields (s : bool) e m : 0 <= e < 256 -> 0 <= m < 2 ^ 23 ->
  let b := (if s then two31 else 0) + e * 2 ^ 23 + m in
  f32_sign b = s /\ f32_exp b = e /\ f32_man b = m /\ 0 <= b < two32.
Proof.
  intros He Hm b. unfold f32_sign, f32_exp, f32_man. unfold_words.
  change (2 ^ 23) with 8388608 in *.
  assert (Hb: b = (if s then 256 else 0) * 8388608 + e * 8388608 + m)
    by (subst b; destruct s; lia).
  clearbody b.
  assert (Hd: b / 8388608 = (if s then 256 else 0) + e).
  { rewrite Hb. rewrite <- Z.mul_add_distr_r, Z.div_add_l by lia. rewrite Z.div_small by lia. lia. }
  assert (Hm': b mod 8388608 = m).
  { rewrite Hb. rewrite <- Z.mul_add_distr_r, Z.add_comm, Z.mod_add by lia. apply Z.mod_small. lia. }
  rewrite Hd, Hm'.
  repeat split.
  - destruct s; lia.
  - destruct s.
    + rewrite Z.add_comm. change 256 with (1 * 256) at 1. rewrite Z.mod_add by lia. apply Z.mod_small; lia.
    + apply Z.mod_small; lia.
  - destruct s; lia.
  - destruct s; lia.
Qed.

(** the fields of the widened float *)
Lemma f32_to_f64_fields f : 0 <= f < two32 ->
  exists e m, 0 <= e < 2048 /\ 0 <= m < 2 ^ 52 /\
    f32_to_f64 f = (if f32_sign f then two63 else 0) + e * 2 ^ 52 + m /\
    ((f32_exp f = 255 /\ e = 2047 /\ m = f32_man f * 2 ^ 29) \/
     (f32_exp f = 0 /\ f32_man f = 0 /\ e = 0 /\ m = 0) \/
     (f32_exp f = 0 /\ 0 < f32_man f /\ e = Z.log2 (f32_man f) + 874 /\
        m = (f32_man f - 2 ^ Z.log2 (f32_man f)) * 2 ^ (52 - Z.log2 (f32_man f))) \/
     (0 < f32_exp f < 255 /\ e = f32_exp f + 896 /\ m = f32_man f * 2 ^ 29)).
Proof.
  intros H. destruct (f32_split f H) as (Hf & He & Hm). unfold f32_to_f64.
  change (2 ^ 23) with 8388608 in *. change (2 ^ 52) with 4503599627370496. change (2 ^ 29) with 536870912.
  destruct (Z.eqb_spec (f32_exp f) 255) as [E|E].
  { exists 2047, (f32_man f * 536870912). repeat split; try lia. }
  destruct (Z.eqb_spec (f32_exp f) 0) as [E0|E0].
  - destruct (Z.eqb_spec (f32_man f) 0) as [M0|M0].
    + exists 0, 0. repeat split; try lia.
    + pose proof (Z.log2_spec (f32_man f) ltac:(lia)) as L.
      pose proof (Z.log2_nonneg (f32_man f)) as Ln.
      assert (Lk: Z.log2 (f32_man f) < 23) by (apply Z.log2_lt_pow2; [lia|change (2 ^ 23) with 8388608; lia]).
      set (k := Z.log2 (f32_man f)) in *.
      rewrite Z.pow_succ_r in L by lia.
      assert (P: 2 ^ 52 = 2 ^ k * 2 ^ (52 - k)) by (rewrite <- Z.pow_add_r by lia; f_equal; lia).
      change (2 ^ 52) with 4503599627370496 in P.
      assert (P2: 0 < 2 ^ (52 - k)) by (apply Z.pow_pos_nonneg; lia).
      exists (k + 874), ((f32_man f - 2 ^ k) * 2 ^ (52 - k)). repeat split; try lia; try nia.
  - exists (f32_exp f + 896), (f32_man f * 536870912). repeat split; try lia.
Qed.

Lemma pow_split a b : 0 <= a -> 0 <= b -> 2 ^ (a + b) = 2 ^ a * 2 ^ b.
Proof. intros. now rewrite Z.pow_add_r. Qed.

(** widening preserves the value (finite floats), infinities and the sign *)
Lemma f32_to_f64_value f : 0 <= f < two32 ->
  f64_sign (f32_to_f64 f) = f32_sign f /\ 0 <= f32_to_f64 f < two64 /\
  (f32_exp f <> 255 -> f64_exp (f32_to_f64 f) <> 2047 /\ f64_scaled (f32_to_f64 f) = f32_scaled f) /\
  (f32_isinf f = f64_isinf (f32_to_f64 f)) /\ (f32_isnan f = f64_isnan (f32_to_f64 f)).
Proof.
  intros H. destruct (f32_to_f64_fields f H) as (e & m & He & Hm & E & C).
  destruct (f64_fields (f32_sign f) e m He Hm) as (S & X & M & R). rewrite <- E in *.
  destruct (f32_split f H) as (_ & Fe & Fm).
  split; [auto|]. split; [auto|].
  unfold f32_isinf, f32_isnan, f64_isinf, f64_isnan, f64_scaled, f32_scaled. rewrite S, X, M.
  destruct C as [(C1 & C2 & C3)|[(C1 & C2 & C3 & C4)|[(C1 & C2 & C3 & C4)|(C1 & C2 & C3)]]]; subst e m.
  - rewrite C1. change (2 ^ 29) with 536870912. split; [lia|].
    change (2047 =? 2047) with true. change (255 =? 255) with true. cbn [andb].
    split; [|f_equal]; lia.
  - rewrite C1, C2. cbn [Z.eqb andb negb]. split; [|split; reflexivity]. intros _. split; [lia|].
    destruct (f32_sign f); reflexivity.
  - set (k := Z.log2 (f32_man f)) in *.
    pose proof (Z.log2_spec (f32_man f) C2) as L. fold k in L.
    pose proof (Z.log2_nonneg (f32_man f)) as Ln. fold k in Ln.
    assert (Lk: k < 23) by (apply Z.log2_lt_pow2; lia).
    rewrite C1. change (0 =? 255) with false. cbn [andb].
    replace (k + 874 =? 2047) with false by lia. cbn [andb].
    split; [|split; reflexivity]. intros _. split; [lia|].
    replace (k + 874 =? 0) with false by lia. cbn [Z.eqb].
    assert (EQ: (2 ^ 52 + (f32_man f - 2 ^ k) * 2 ^ (52 - k)) * 2 ^ (k + 874 - 1) = f32_man f * 2 ^ 925).
    { replace (2 ^ 52) with (2 ^ k * 2 ^ (52 - k)) by (rewrite <- Z.pow_add_r by lia; f_equal; lia).
      replace (2 ^ 925) with (2 ^ (52 - k) * 2 ^ (k + 874 - 1)) by (rewrite <- Z.pow_add_r by lia; f_equal; lia).
      ring. }
    rewrite EQ. destruct (f32_sign f); ring.
  - replace (f32_exp f =? 255) with false by lia. replace (f32_exp f + 896 =? 2047) with false by lia. cbn [andb].
    split; [|split; reflexivity]. intros _. split; [lia|].
    replace (f32_exp f + 896 =? 0) with false by lia. replace (f32_exp f =? 0) with false by lia.
    assert (EQ: (2 ^ 52 + f32_man f * 2 ^ 29) * 2 ^ (f32_exp f + 896 - 1) = (2 ^ 23 + f32_man f) * 2 ^ (f32_exp f - 1) * 2 ^ 925).
    { replace (2 ^ (f32_exp f + 896 - 1)) with (2 ^ (f32_exp f - 1) * 2 ^ 896) by (rewrite <- Z.pow_add_r by lia; f_equal; lia).
      replace (2 ^ 52) with (2 ^ 23 * 2 ^ 29) by reflexivity.
      replace (2 ^ 925) with (2 ^ 29 * 2 ^ 896) by (rewrite <- Z.pow_add_r by lia; f_equal; lia).
      ring. }
    rewrite EQ. destruct (f32_sign f); ring.
Qed.

(** narrowing is the partial inverse of widening *)
Lemma narrow64_sound b f : 0 <= b < two64 -> narrow64 b = Some f -> f32_to_f64 f = b /\ 0 <= f < two32 /\ f32_isnan f = false.
Proof.
  intros H. destruct (f64_split b H) as (Hb & He & Hm). unfold narrow64.
  set (e := f64_exp b) in *. set (m := f64_man b) in *. set (s := f64_sign b) in *. clearbody e m s.
  change (2 ^ 52) with 4503599627370496 in *. change (2 ^ 23) with 8388608. change (2 ^ 29) with 536870912.
  assert (K: forall e' m', 0 <= e' < 256 -> 0 <= m' < 8388608 -> ((e' = 255) -> m' = 0) ->
     (forall e2 m2, 
     ((e' = 255 /\ e2 = 2047 /\ m2 = m' * 536870912) \/
     (e' = 0 /\ m' = 0 /\ e2 = 0 /\ m2 = 0) \/
     (e' = 0 /\ 0 < m' /\ e2 = Z.log2 m' + 874 /\ m2 = (m' - 2 ^ Z.log2 m') * 2 ^ (52 - Z.log2 m')) \/
     (0 < e' < 255 /\ e2 = e' + 896 /\ m2 = m' * 536870912)) -> e2 = e /\ m2 = m) ->
     f32_to_f64 ((if s then two31 else 0) + e' * 8388608 + m') = b /\
     0 <= (if s then two31 else 0) + e' * 8388608 + m' < two32 /\ f32_isnan ((if s then two31 else 0) + e' * 8388608 + m') = false).
  { intros e' m' He' Hm' Hn HU.
    destruct (f32_fields s e' m' He' Hm') as (S & X & M & R).
    change (2 ^ 23) with 8388608 in *.
    set (f0 := (if s then two31 else 0) + e' * 8388608 + m') in *. clearbody f0.
    split; [|split; [auto|]].
    - destruct (f32_to_f64_fields f0 R) as (e2 & m2 & He2 & Hm2 & E & C).
      rewrite E, S. rewrite X, M in C. change (2 ^ 29) with 536870912 in C.
      destruct (HU e2 m2 C). subst. change (2 ^ 52) with 4503599627370496. lia.
    - unfold f32_isnan. rewrite X, M. lia. }
  destruct (Z.eqb_spec e 2047) as [E|E].
  { destruct (Z.eqb_spec m 0) as [M0|M0]; [|discriminate]. intros F; apply (f_equal (fun o => match o with Some z => z | None => 0 end)) in F; cbv beta iota in F; subst f.
    replace ((if s then two31 else 0) + 255 * 8388608) with ((if s then two31 else 0) + 255 * 8388608 + 0) by lia.
    apply K; try lia. }
  destruct (Z.eqb_spec e 0) as [E0|E0].
  { destruct (Z.eqb_spec m 0) as [M0|M0]; [|discriminate]. intros F; apply (f_equal (fun o => match o with Some z => z | None => 0 end)) in F; cbv beta iota in F; subst f.
    replace (if s then two31 else 0) with ((if s then two31 else 0) + 0 * 8388608 + 0) by lia.
    apply K; try lia. }
  destruct ((-126 <=? e - 1023) && (e - 1023 <=? 127)) eqn:R1.
  { destruct (Z.eqb_spec (m mod 536870912) 0) as [M0|M0]; [|discriminate]. intros F; apply (f_equal (fun o => match o with Some z => z | None => 0 end)) in F; cbv beta iota in F; subst f.
    pose proof (Z.div_mod m 536870912 ltac:(lia)) as DM.
    assert (0 <= m / 536870912 < 8388608) by (split; [apply Z.div_pos; lia|apply Z.div_lt_upper_bound; lia]).
    apply K; try lia. }
  destruct ((-149 <=? e - 1023) && (e - 1023 <=? -127)) eqn:R2; [|discriminate].
  set (sh := -97 - (e - 1023)). 
  destruct (Z.eqb_spec ((4503599627370496 + m) mod 2 ^ sh) 0) as [M0|M0]; [|discriminate]. intros F; apply (f_equal (fun o => match o with Some z => z | None => 0 end)) in F; cbv beta iota in F; subst f.
  assert (Psh: 0 < 2 ^ sh) by (apply Z.pow_pos_nonneg; lia).
  pose proof (Z.div_mod (4503599627370496 + m) (2 ^ sh) ltac:(lia)) as DM. rewrite M0 in DM.
  set (q := (4503599627370496 + m) / 2 ^ sh) in *.
  set (k := 52 - sh).
  assert (HP: 4503599627370496 = 2 ^ sh * 2 ^ k).
  { change 4503599627370496 with (2 ^ 52). rewrite <- Z.pow_add_r by lia. f_equal. lia. }
  assert (Pk: 0 < 2 ^ k) by (apply Z.pow_pos_nonneg; lia).
  assert (Q: 2 ^ k <= q < 2 * 2 ^ k) by nia.
  assert (LQ: Z.log2 q = k).
  { apply Z.log2_unique; [lia|]. rewrite Z.pow_succ_r by lia. lia. }
  assert (PK: 2 * 2 ^ k <= 8388608).
  { change 8388608 with (2 * 2 ^ 22). apply Z.mul_le_mono_nonneg_l; [lia|]. apply Z.pow_le_mono_r; lia. }
  replace ((if s then two31 else 0) + q) with ((if s then two31 else 0) + 0 * 8388608 + q) by lia.
  apply K; try lia.
  intros e2 m2 [C|[C|[C|C]]]; try lia.
  destruct C as (_ & _ & -> & ->). rewrite LQ. split; [lia|].
  replace (52 - k) with sh by lia. nia.
Qed.

Lemma log2_lt23 m : 0 < m < 8388608 -> Z.log2 m < 23.
Proof. intros. apply Z.log2_lt_pow2; [lia|]. change (2 ^ 23) with 8388608. lia. Qed.

Lemma narrow64_complete f : 0 <= f < two32 -> f32_isnan f = false -> narrow64 (f32_to_f64 f) = Some f.
Proof.
  intros H N. destruct (f32_split f H) as (Hf & Fe & Fm).
  destruct (f32_to_f64_fields f H) as (e & m & He & Hm & E & C).
  destruct (f64_fields (f32_sign f) e m He Hm) as (S & X & M & R). rewrite <- E in *.
  unfold narrow64. rewrite S, X, M. unfold f32_isnan in N.
  change (2 ^ 52) with 4503599627370496 in *. change (2 ^ 23) with 8388608 in *. change (2 ^ 29) with 536870912 in *.
  destruct C as [(C1 & C2 & C3)|[(C1 & C2 & C3 & C4)|[(C1 & C2 & C3 & C4)|(C1 & C2 & C3)]]]; subst e m.
  - change (2047 =? 2047) with true. cbn iota. assert (f32_man f = 0) by lia.
    replace (f32_man f * 536870912 =? 0) with true by lia. f_equal. lia.
  - cbn [Z.eqb]. f_equal. lia.
  - set (k := Z.log2 (f32_man f)) in *.
    pose proof (Z.log2_spec (f32_man f) C2) as L. fold k in L. rewrite Z.pow_succ_r in L by (subst k; apply Z.log2_nonneg).
    pose proof (Z.log2_nonneg (f32_man f)) as Ln. fold k in Ln.
    assert (Lk: k < 23) by (apply log2_lt23; lia).
    replace (k + 874 =? 2047) with false by lia. replace (k + 874 =? 0) with false by lia.
    replace ((-126 <=? k + 874 - 1023) && (k + 874 - 1023 <=? 127)) with false by lia.
    replace ((-149 <=? k + 874 - 1023) && (k + 874 - 1023 <=? -127)) with true by lia.
    replace (-97 - (k + 874 - 1023)) with (52 - k) by lia.
    assert (HP: 4503599627370496 = 2 ^ (52 - k) * 2 ^ k).
    { change 4503599627370496 with (2 ^ 52). rewrite <- Z.pow_add_r by lia. f_equal. lia. }
    assert (Pk: 0 < 2 ^ (52 - k)) by (apply Z.pow_pos_nonneg; lia).
    assert (EQ: 4503599627370496 + (f32_man f - 2 ^ k) * 2 ^ (52 - k) = f32_man f * 2 ^ (52 - k)) by nia.
    rewrite EQ, Z.mod_mul, Z.div_mul by lia. cbn [Z.eqb]. f_equal. lia.
  - replace (f32_exp f + 896 =? 2047) with false by lia. replace (f32_exp f + 896 =? 0) with false by lia.
    replace ((-126 <=? f32_exp f + 896 - 1023) && (f32_exp f + 896 - 1023 <=? 127)) with true by lia.
    rewrite Z.mod_mul, Z.div_mul by lia. cbn [Z.eqb]. f_equal. lia.
Qed.

(** the stored value of a double reads back as the same double *)
Lemma val_f64_roundtrip d : 0 <= d < two64 -> v_double (val_f64 d) = d.
Proof.
  intros H. unfold val_f64. destruct (narrow64 d) as [f|] eqn:E; [|reflexivity].
  destruct (narrow64_sound d f H E) as (S & R & _).
  unfold v_double, v_fp32. cbn [v_type v_raw ty_eqb ty_num]. cbn.
  rewrite Z.mod_small; auto.
Qed.
Lemma val_f64_type d : 0 <= d < two64 ->
  (v_type (val_f64 d) = TFP32 <-> exists f, 0 <= f < two32 /\ f32_isnan f = false /\ f32_to_f64 f = d).
Proof.
  intros H. unfold val_f64. destruct (narrow64 d) as [f|] eqn:E; cbn [v_type].
  - split; auto. intros _. destruct (narrow64_sound d f H E) as (S & R & N). eauto.
  - split; [discriminate|]. intros (f & R & N & <-). rewrite narrow64_complete in E by auto. discriminate.
Qed.
