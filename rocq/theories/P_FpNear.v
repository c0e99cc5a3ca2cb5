(** The digits of the double printer are nearest to the double. *)
From Coq Require Import ZArith List Bool QArith Qabs Qpower Lqa Lia ZifyBool ZifyNat.
From Verif Require Import Base S_Conv M_Fpconv S_Fpconv P_FpDigits P_FpScale.
Import ListNotations.
Open Scope Q_scope.

(** ** powers *)
Lemma power_pos b e : (0 < b)%Z -> 0 < power b e.
Proof. intros. apply Qpower_0_lt. change 0 with (inject_Z 0). rewrite <- Zlt_Qlt. exact H. Qed.
Lemma power_add b n m : (0 < b)%Z -> power b (n + m) == power b n * power b m.
Proof. intros. apply Qpower_plus. intros X. change 0 with (inject_Z 0) in X. rewrite inject_Z_injective in X. lia. Qed.
Lemma power_Z b n : (0 <= n)%Z -> power b n == inject_Z (b ^ n).
Proof. intros. unfold power. rewrite Zpower_Qpower by lia. reflexivity. Qed.
Lemma power_0 b : power b 0 == 1.
Proof. reflexivity. Qed.
Lemma power_opp b n : (0 < b)%Z -> power b n * power b (- n) == 1.
Proof. intros. rewrite <- power_add by lia. replace (n + - n)%Z with 0%Z by lia. reflexivity. Qed.
Lemma iZ_mult a b : inject_Z (a * b) == inject_Z a * inject_Z b.
Proof. rewrite inject_Z_mult. reflexivity. Qed.
Lemma iZ_plus a b : inject_Z (a + b) == inject_Z a + inject_Z b.
Proof. rewrite inject_Z_plus. reflexivity. Qed.
Lemma iZ_minus a b : inject_Z (a - b) == inject_Z a - inject_Z b.
Proof. unfold Z.sub. rewrite inject_Z_plus, inject_Z_opp. reflexivity. Qed.
Lemma iZ_le a b : (a <= b)%Z -> inject_Z a <= inject_Z b.
Proof. rewrite Zle_Qle. auto. Qed.
Lemma iZ_lt a b : (a < b)%Z -> inject_Z a < inject_Z b.
Proof. rewrite Zlt_Qlt. auto. Qed.

(** ** the doubles and their neighbours *)
Definition mant (n : Z) : Z := if (n / 2 ^ 52 =? 0)%Z then (n mod 2 ^ 52)%Z else (n mod 2 ^ 52 + 2 ^ 52)%Z.
Definition expo (n : Z) : Z := if (n / 2 ^ 52 =? 0)%Z then (-1074)%Z else (n / 2 ^ 52 - 1075)%Z.
Lemma value_parts n : double_value n == inject_Z (mant n) * power 2 (expo n).
Proof. unfold double_value, mant, expo. destruct (n / 2 ^ 52 =? 0)%Z; reflexivity. Qed.
Lemma two_half e : power 2 e == 2 * power 2 (e - 1).
Proof. replace e with (1 + (e - 1))%Z at 1 by lia. rewrite power_add by lia. reflexivity. Qed.

Lemma next_value n : (0 <= n)%Z -> double_value (n + 1) == double_value n + power 2 (expo n).
Proof.
  intros N. rewrite !value_parts. pose proof (Z.div_mod n (2 ^ 52) ltac:(lia)) as DM. pose proof (Z.mod_pos_bound n (2 ^ 52) ltac:(lia)) as MB. pose proof (Z.div_pos n (2 ^ 52) ltac:(lia) ltac:(lia)) as DP.
  set (q := (n / 2 ^ 52)%Z) in *. set (r := (n mod 2 ^ 52)%Z) in *. destruct (Z.eq_dec r (2 ^ 52 - 1)) as [R|R].
  - assert (D1 : ((n + 1) / 2 ^ 52 = q + 1)%Z) by (symmetry; apply (Z.div_unique_pos (n + 1) (2 ^ 52) (q + 1) 0); lia).
    assert (M1 : ((n + 1) mod 2 ^ 52 = 0)%Z) by (symmetry; apply (Z.mod_unique_pos (n + 1) (2 ^ 52) (q + 1) 0); lia).
    unfold mant, expo. rewrite D1, M1. fold q r. rewrite R. replace (q + 1 =? 0)%Z with false by lia. destruct (Z.eqb_spec q 0) as [Q|Q].
    + rewrite Q. change (0 + 1 - 1075)%Z with (-1074)%Z. change (0 + 2 ^ 52)%Z with (2 ^ 52 - 1 + 1)%Z. rewrite iZ_plus. change (inject_Z 1) with 1. ring.
    + replace (q + 1 - 1075)%Z with (1 + (q - 1075))%Z by lia. rewrite power_add by lia. change (power 2 1) with (inject_Z 2). replace (2 ^ 52 - 1 + 2 ^ 52)%Z with ((0 + 2 ^ 52) * 2 - 1)%Z by lia.
      rewrite iZ_minus, iZ_mult. change (inject_Z 1) with 1. ring.
  - assert (D1 : ((n + 1) / 2 ^ 52 = q)%Z) by (symmetry; apply (Z.div_unique_pos (n + 1) (2 ^ 52) q (r + 1)); lia).
    assert (M1 : ((n + 1) mod 2 ^ 52 = r + 1)%Z) by (symmetry; apply (Z.mod_unique_pos (n + 1) (2 ^ 52) q (r + 1)); lia).
    unfold mant, expo. rewrite D1, M1. fold q r. destruct (q =? 0)%Z; rewrite !iZ_plus; change (inject_Z 1) with 1; ring.
Qed.
Lemma value_mono n d : (0 <= n)%Z -> double_value n <= double_value (n + Z.of_nat d).
Proof.
  intros N. induction d as [|d IH]; [replace (n + Z.of_nat 0)%Z with n by lia; apply Qle_refl|].
  replace (n + Z.of_nat (S d))%Z with (n + Z.of_nat d + 1)%Z by lia. rewrite next_value by lia. pose proof (power_pos 2 (expo (n + Z.of_nat d)) ltac:(lia)). lra.
Qed.
Lemma value_le n m : (0 <= n <= m)%Z -> double_value n <= double_value m.
Proof. intros. replace m with (n + Z.of_nat (Z.to_nat (m - n)))%Z by lia. apply value_mono. lia. Qed.
(** between the middle of the neighbours *)
Lemma nearest_between n q : (0 < n)%Z -> double_value (n - 1) + double_value n < 2 * q -> 2 * q < double_value n + double_value (n + 1) -> nearest n q.
Proof.
  intros N A B m M NE. assert (C : double_value m <= double_value (n - 1) \/ double_value (n + 1) <= double_value m).
  { destruct (Z_lt_le_dec m n); [left|right]; apply value_le; lia. }
  assert (D1 : double_value (n - 1) < double_value n).
  { pose proof (next_value (n - 1) ltac:(lia)) as H. replace (n - 1 + 1)%Z with n in H by lia. pose proof (power_pos 2 (expo (n - 1)) ltac:(lia)). lra. }
  assert (D2 : double_value n < double_value (n + 1)) by (pose proof (next_value n ltac:(lia)) as H; pose proof (power_pos 2 (expo n) ltac:(lia)); lra).
  apply Qabs_case; intros X; apply Qabs_case; intros Y; destruct C as [C|C]; lra.
Qed.
(** the boundaries that the printer uses *)
Lemma prev_value n : (0 < n)%Z -> exists e, (e = expo n \/ e = expo n - 1 /\ mant n = 2 ^ 52)%Z /\ double_value (n - 1) == double_value n - power 2 e.
Proof.
  intros N. exists (expo (n - 1)). split.
  - pose proof (Z.div_mod n (2 ^ 52) ltac:(lia)) as DM. pose proof (Z.mod_pos_bound n (2 ^ 52) ltac:(lia)) as MB. pose proof (Z.div_pos n (2 ^ 52) ltac:(lia) ltac:(lia)) as DP.
    unfold expo, mant. set (q := (n / 2 ^ 52)%Z) in *. set (r := (n mod 2 ^ 52)%Z) in *. destruct (Z.eq_dec r 0) as [R|R].
    + assert (D1 : ((n - 1) / 2 ^ 52 = q - 1)%Z) by (symmetry; apply (Z.div_unique_pos (n - 1) (2 ^ 52) (q - 1) (2 ^ 52 - 1)); lia). rewrite D1, R.
      destruct (Z.eqb_spec q 0); [lia|]. destruct (Z.eqb_spec (q - 1) 0); lia.
    + assert (D1 : ((n - 1) / 2 ^ 52 = q)%Z) by (symmetry; apply (Z.div_unique_pos (n - 1) (2 ^ 52) q (r - 1)); lia). rewrite D1. lia.
  - pose proof (next_value (n - 1) ltac:(lia)) as H. replace (n - 1 + 1)%Z with n in H by lia. rewrite H. ring.
Qed.
Lemma nearest_bounds n q f e : (0 < n)%Z -> f = mant n -> e = expo n ->
  (if (f =? 2 ^ 52)%Z then inject_Z (4 * f - 1) * power 2 (e - 2) else inject_Z (2 * f - 1) * power 2 (e - 1)) < q -> q < inject_Z (2 * f + 1) * power 2 (e - 1) -> nearest n q.
Proof.
  intros N -> -> A B. pose proof (two_half (expo n)) as T1. pose proof (two_half (expo n - 1)) as T2. replace (expo n - 1 - 1)%Z with (expo n - 2)%Z in T2 by lia.
  pose proof (power_pos 2 (expo n - 2) ltac:(lia)) as PP. pose proof (value_parts n) as V. apply nearest_between; [exact N| |].
  - destruct (prev_value n N) as (x & X & E). rewrite E. clear B. destruct (Z.eqb_spec (mant n) (2 ^ 52)) as [M|M].
    + destruct X as [->|[-> _]]; rewrite V; rewrite iZ_minus, iZ_mult in A; change (inject_Z 4) with 4 in A; change (inject_Z 1) with 1 in A; rewrite ?T1, ?T2 in *.
      * set (y := power 2 (expo n - 2)) in *. set (k := inject_Z (mant n)) in *. nra.
      * set (y := power 2 (expo n - 2)) in *. set (k := inject_Z (mant n)) in *. nra.
    + destruct X as [->|[_ X]]; [|contradiction]. rewrite V. rewrite iZ_minus, iZ_mult in A; change (inject_Z 2) with 2 in A; change (inject_Z 1) with 1 in A; rewrite ?T1, ?T2 in *.
      set (y := power 2 (expo n - 2)) in *. set (k := inject_Z (mant n)) in *. nra.
  - rewrite next_value by lia. rewrite V. clear A. rewrite iZ_plus, iZ_mult in B; change (inject_Z 2) with 2 in B; change (inject_Z 1) with 1 in B; rewrite ?T1, ?T2 in *.
    set (y := power 2 (expo n - 2)) in *. set (k := inject_Z (mant n)) in *. nra.
Qed.

(** ** the printer *)
Lemma build_spec bits n : finite bits -> n = (bits mod 2 ^ 63)%Z -> (0 < n)%Z -> build_fp bits = mkFp (mant n) (expo n) /\ (0 < mant n < 2 ^ 53)%Z /\ (-1074 <= expo n <= 971)%Z /\ (mant n < 2 ^ 52 -> expo n = -1074)%Z.
Proof.
  intros [B F] -> N. unfold build_fp. rewrite land_frac, land_exp by lia. unfold mant, expo. set (n := (bits mod 2 ^ 63)%Z) in *.
  assert (E : (bits mod 2 ^ 52 = n mod 2 ^ 52)%Z). { unfold n. change (2 ^ 63)%Z with (2 ^ 52 * 2 ^ 11)%Z. rewrite Z.rem_mul_r by lia. rewrite Z.mul_comm, Z.mod_add by lia. rewrite Z.mod_mod by lia. reflexivity. }
  rewrite E. pose proof (Z.div_mod n (2 ^ 52) ltac:(lia)) as DM. pose proof (Z.mod_pos_bound n (2 ^ 52) ltac:(lia)) as MB. set (q := (n / 2 ^ 52)%Z) in *. set (r := (n mod 2 ^ 52)%Z) in *.
  change hiddenbit with (2 ^ 52)%Z. unfold expbias. destruct (Z.eqb_spec q 0) as [Q|Q]; split; try reflexivity; lia.
Qed.

Lemma power10_split k V one L U : (0 < one)%Z -> ((0 <= k)%Z /\ (L <= V * 10 ^ k * one <= U)%Z \/ (k < 0)%Z /\ (L * 10 ^ (- k) <= V * one <= U * 10 ^ (- k))%Z) ->
  inject_Z L <= inject_Z V * power 10 k * inject_Z one <= inject_Z U.
Proof.
  intros O [[K [A B]]|[K [A B]]].
  - rewrite power_Z by lia. rewrite <- !iZ_mult. split; now apply iZ_le.
  - pose proof (power_opp 10 k ltac:(lia)) as PO. apply iZ_le in A. apply iZ_le in B. rewrite !iZ_mult, <- power_Z in A, B by lia. pose proof (power_pos 10 k ltac:(lia)) as PP.
    set (x := power 10 k) in *. set (y := power 10 (- k)) in *. set (l := inject_Z L) in *. set (u := inject_Z U) in *. set (v := inject_Z V) in *. set (o := inject_Z one) in *.
    split.
    + setoid_replace l with (l * y * x) by (transitivity (l * (x * y)); [rewrite PO; ring|ring]). setoid_replace (v * x * o) with (v * o * x) by ring. apply Qmult_le_compat_r; [exact A|lra].
    + setoid_replace u with (u * y * x) by (transitivity (u * (x * y)); [rewrite PO; ring|ring]). setoid_replace (v * x * o) with (v * o * x) by ring. apply Qmult_le_compat_r; [exact B|lra].
Qed.

Theorem grisu2_nearest bits n : finite bits -> n = (bits mod 2 ^ 63)%Z -> (0 < n)%Z ->
  exists ds K, grisu2 bits = Ok (rev ds, K) /\ dig ds /\ ds <> [] /\ (zlen ds <= 17)%Z /\ (-420 <= K <= 420)%Z /\ nearest n (inject_Z (rval ds) * power 10 K).
Proof.
  intros F En N. destruct (build_spec bits n F En N) as (EB & M & X & SUB). set (f := mant n) in *. set (e := expo n) in *.
  destruct (boundaries_spec f e M) as (s & h & g & S1 & Hh & Hg & G1 & G2 & EN & EBd).
  assert (SE : (s = 0 \/ e = -1074)%Z).
  { destruct (Z.eq_dec s 0) as [S0|S0]; [now left|]. right. apply SUB. assert (P : (2 ^ 12 <= 2 ^ (s + 11))%Z) by (apply Z.pow_le_mono_r; lia). nia. }
  destruct (find_cachedpow10_spec (e - s - 11)) as (p & k & EP & PE & PF & PK & PA); [lia|].
  destruct p as [c ce]. cbn [frac fexp] in PE, PF, PA. set (E := (e - s - 11)%Z) in *.
  set (fl := if (f =? 2 ^ 52)%Z then (g - h / 2)%Z else (g - h)%Z) in *.
  assert (H0 : (2 ^ 10 <= h)%Z) by (rewrite Hh; apply Z.pow_le_mono_r; lia).
  assert (Hgh : (g = f * (2 * h))%Z). { rewrite Hg, Hh. replace (s + 11)%Z with (s + 10 + 1)%Z by lia. rewrite Z.pow_add_r by lia. ring. }
  assert (Hh2 : (h = 2 * (h / 2))%Z). { rewrite Hh. replace (s + 10)%Z with (s + 9 + 1)%Z by lia. rewrite Z.pow_add_r by lia. change (2 ^ 1)%Z with 2%Z. rewrite Z.div_mul by lia. ring. }
  assert (FL : (g - h <= fl <= g - h / 2)%Z) by (unfold fl; destruct (f =? 2 ^ 52)%Z; lia).
  assert (FL0 : (0 < fl)%Z) by (pose proof (Z.mul_le_mono_nonneg_r 1 f (2 * h) ltac:(lia) ltac:(lia)); lia).
  unfold grisu2. rewrite EB, EBd. cbn [rbind]. rewrite EN. cbn [rbind fexp]. rewrite EP. cbn [rbind].
  assert (W64 : two64 = (2 ^ 64)%Z) by reflexivity.
  rewrite !multiply_spec by (rewrite ?W64; lia). cbn [frac fexp].
  set (u' := ((g + h) * c + 2 ^ 63)%Z) in *. set (l' := (fl * c + 2 ^ 63)%Z) in *. set (w' := (g * c + 2 ^ 63)%Z) in *.
  pose proof (Z.div_mod u' (2 ^ 64) ltac:(lia)) as Du. pose proof (Z.mod_pos_bound u' (2 ^ 64) ltac:(lia)) as Mu. pose proof (Z.div_mod l' (2 ^ 64) ltac:(lia)) as Dl. pose proof (Z.mod_pos_bound l' (2 ^ 64) ltac:(lia)) as Ml.
  set (a := (u' / 2 ^ 64)%Z) in *. set (b := (l' / 2 ^ 64)%Z) in *.
  assert (DIF : ((g + h - fl) * c = u' - l')%Z) by (unfold u', l'; ring).
  assert (HC : (1536 * c <= (g + h - fl) * c)%Z) by (apply Z.mul_le_mono_nonneg_r; lia).
  assert (UC : (0 <= u' <= 2 ^ 64 * c + 2 ^ 63)%Z) by (unfold u'; split; [pose proof (Z.mul_nonneg_nonneg (g + h) c ltac:(lia) ltac:(lia)); lia|]; apply Zplus_le_compat_r, Z.mul_le_mono_nonneg_r; lia).
  assert (LC : (c <= l')%Z) by (unfold l'; pose proof (Z.mul_le_mono_nonneg_r 1 fl c ltac:(lia) ltac:(lia)); lia).
  assert (LB : (0 <= b)%Z) by (apply Z.div_pos; lia).
  assert (SZ : (a - 1 <= 10 ^ 16 * (a - 1 - (b + 1)))%Z).
  { destruct (Z.eqb_spec f (2 ^ 52)) as [Y|Y].
    - assert (g = 2 ^ 63)%Z. { assert (s = 0)%Z. { destruct (Z.eq_dec s 0) as [S0|S0]; [exact S0|]. assert (P : (2 ^ 12 <= 2 ^ (s + 11))%Z) by (apply Z.pow_le_mono_r; lia). rewrite Y in Hg. lia. } subst s. rewrite Hg, Y. reflexivity. }
      assert (U2 : (u' <= (2 ^ 63 + 2 ^ 10) * c + 2 ^ 63)%Z). { unfold u'. assert (h = 2 ^ 10)%Z by (rewrite Y in Hgh; lia). apply Zplus_le_compat_r, Z.mul_le_mono_nonneg_r; lia. } lia.
    - assert (HC2 : (2048 * c <= (g + h - fl) * c)%Z) by (apply Z.mul_le_mono_nonneg_r; unfold fl; lia). lia. }
  assert (A64 : (2 <= a < 2 ^ 64)%Z) by lia.
  rewrite (u64_id (a - 1)), (u64_id (b + 1)) by (rewrite W64; lia).
  set (pp := (- (E + ce + 64))%Z). replace (E + ce + 64)%Z with (- pp)%Z by (unfold pp; lia).
  assert (PP : (32 <= pp <= 60)%Z) by (unfold pp; lia).
  assert (ONE : (2 ^ 32 <= 2 ^ pp <= 2 ^ 60)%Z) by (split; apply Z.pow_le_mono_r; lia).
  destruct (generate_spec (2 ^ pp) (a - 1) (b + 1) (u64 (a - 1 - w' / 2 ^ 64)) ONE) with (w := (w' / 2 ^ 64)%Z) (K := (- k)%Z) (p := pp) as (ds & kk & EG & G & ND & LN & BD); try reflexivity; try lia.
  exists ds, (- k + kk)%Z. split; [exact EG|]. split; [exact G|]. split; [exact ND|]. split; [exact LN|]. split; [destruct BD; lia|].
  (* the product with the power of ten *)
  assert (BQ : inject_Z (b + 1) <= inject_Z (rval ds) * power 10 kk * inject_Z (2 ^ pp) <= inject_Z (a - 1)).
  { apply power10_split; [lia|]. destruct BD as [[B1 B2]|[B1 B2]]; [left|right]; (split; [lia|exact B2]). }
  rewrite <- power_Z in BQ by lia. set (v := inject_Z (rval ds)) in *. set (t := power 10 k * power 2 (- ce)) in *.
  apply Qabs_Qle_condition in PA. set (cq := inject_Z c) in *.
  assert (UB' : inject_Z (a - 1) * power 2 64 < inject_Z (g + h) * t).
  { assert (Y : inject_Z (a - 1) * power 2 64 <= inject_Z (g + h) * cq - power 2 63).
    { rewrite !power_Z by lia. unfold cq. rewrite <- !iZ_mult, <- iZ_minus. apply iZ_le. fold u' in Du. unfold u' in *. lia. }
    assert (Y2 : inject_Z (g + h) < power 2 64) by (rewrite power_Z by lia; apply iZ_lt; lia). assert (Y0 : 0 <= inject_Z (g + h)) by (change 0 with (inject_Z 0); apply iZ_le; lia).
    assert (Y3 : power 2 64 == 2 * power 2 63) by reflexivity. rewrite Y3 in Y2. assert (Y4 : inject_Z (g + h) * cq <= inject_Z (g + h) * (t + (1#2))) by (apply Qmult_le_l_weak || (rewrite !(Qmult_comm (inject_Z (g + h))); apply Qmult_le_compat_r; [lra|exact Y0])). lra. }
  assert (LB' : inject_Z fl * t < inject_Z (b + 1) * power 2 64).
  { assert (Y : inject_Z fl * cq + power 2 63 <= inject_Z (b + 1) * power 2 64).
    { rewrite !power_Z by lia. unfold cq. rewrite <- !iZ_mult, <- iZ_plus. apply iZ_le. unfold l' in *. lia. }
    assert (Y2 : inject_Z fl < power 2 64) by (rewrite power_Z by lia; apply iZ_lt; lia). assert (Y0 : 0 <= inject_Z fl) by (change 0 with (inject_Z 0); apply iZ_le; lia).
    assert (Y3 : power 2 64 == 2 * power 2 63) by reflexivity. rewrite Y3 in Y2. assert (Y4 : inject_Z fl * (t - (1#2)) <= inject_Z fl * cq) by (rewrite !(Qmult_comm (inject_Z fl)); apply Qmult_le_compat_r; [lra|exact Y0]). lra. }
  (* q in terms of the scaled numbers: q * T = V * 2^p * 2^64 *)
  set (T := t * power 2 (- E)).
  assert (QT : v * power 10 (- k + kk) * T == v * power 10 kk * power 2 pp * power 2 64).
  { unfold T, t. assert (Z1 : power 2 pp * power 2 64 == power 2 (- ce) * power 2 (- E)) by (rewrite <- !power_add by lia; unfold pp; replace (- (E + ce + 64) + 64)%Z with (- ce + - E)%Z by lia; reflexivity).
    assert (Z2 : power 10 (- k + kk) * power 10 k == power 10 kk) by (rewrite <- power_add by lia; replace (- k + kk + k)%Z with kk by lia; reflexivity).
    rewrite <- Z2. transitivity (v * (power 10 (- k + kk) * power 10 k) * (power 2 (- ce) * power 2 (- E))); [ring|]. rewrite <- Z1. ring. }
  assert (TP : 0 < T) by (unfold T, t; pose proof (power_pos 10 k ltac:(lia)); pose proof (power_pos 2 (- ce) ltac:(lia)); pose proof (power_pos 2 (- E) ltac:(lia)); repeat apply Qmult_lt_0_compat; assumption).
  assert (P64 : 0 < power 2 64) by (apply power_pos; lia).
  set (q := v * power 10 (- k + kk)) in *.
  assert (QU : q * T < inject_Z (g + h) * power 2 E * T).
  { assert (Z3 : inject_Z (g + h) * power 2 E * T == inject_Z (g + h) * t) by (unfold T; transitivity (inject_Z (g + h) * t * (power 2 E * power 2 (- E))); [ring|rewrite power_opp by lia; ring]). rewrite Z3, QT.
    eapply Qle_lt_trans; [|exact UB']. apply Qmult_le_compat_r; [apply BQ|lra]. }
  assert (QL : inject_Z fl * power 2 E * T < q * T).
  { assert (Z3 : inject_Z fl * power 2 E * T == inject_Z fl * t) by (unfold T; transitivity (inject_Z fl * t * (power 2 E * power 2 (- E))); [ring|rewrite power_opp by lia; ring]). rewrite Z3, QT.
    eapply Qlt_le_trans; [exact LB'|]. apply Qmult_le_compat_r; [apply BQ|lra]. }
  apply Qmult_lt_r in QU; [|exact TP]. apply Qmult_lt_r in QL; [|exact TP].
  apply (nearest_bounds n q f e N eq_refl eq_refl).
  - eapply Qle_lt_trans; [|exact QL]. unfold fl. destruct (f =? 2 ^ 52)%Z.
    + assert (Z4 : (g - h / 2 = (4 * f - 1) * 2 ^ (s + 9))%Z). { rewrite Hgh. assert (h / 2 = 2 ^ (s + 9))%Z by (rewrite Hh; replace (s + 10)%Z with (s + 9 + 1)%Z by lia; rewrite Z.pow_add_r by lia; change (2 ^ 1)%Z with 2%Z; apply Z.div_mul; lia). lia. }
      rewrite Z4, iZ_mult, <- power_Z, <- Qmult_assoc, <- power_add by lia. replace (s + 9 + E)%Z with (e - 2)%Z by (unfold E; lia). apply Qle_refl.
    + assert (Z4 : (g - h = (2 * f - 1) * 2 ^ (s + 10))%Z) by (rewrite Hgh, <- Hh; ring). rewrite Z4, iZ_mult, <- power_Z, <- Qmult_assoc, <- power_add by lia. replace (s + 10 + E)%Z with (e - 1)%Z by (unfold E; lia). apply Qle_refl.
  - eapply Qlt_le_trans; [exact QU|]. assert (Z4 : (g + h = (2 * f + 1) * 2 ^ (s + 10))%Z) by (rewrite Hgh, <- Hh; ring). rewrite Z4, iZ_mult, <- power_Z, <- Qmult_assoc, <- power_add by lia. replace (s + 10 + E)%Z with (e - 1)%Z by (unfold E; lia). apply Qle_refl.
Qed.
