(** Rounding to nearest: numbers that are pasted into floating point types. *)
From Coq Require Import ZArith List Bool Lia ZifyBool ZifyNat.
From Verif Require Import Base Lemmas M_Types M_Conv M_TpTools S_Round P_Float P_Paste.
Import ListNotations.
Open Scope Z_scope.

Lemma pow_pos k : 0 <= k -> 0 < 2 ^ k.
Proof. intros H. apply Z.pow_pos_nonneg; lia. Qed.
Lemma pow_neg k : k < 0 -> 2 ^ k = 0.
Proof. intros. now apply Z.pow_neg_r. Qed.

(** rne_shift is the nearest multiple, with ties to even *)
Lemma rne_near z k : 0 <= z -> 0 < k -> let q := rne_shift z k in let h := 2 ^ (k - 1) in
  0 <= q /\ - h <= q * (2 * h) - z <= h /\ ((q * (2 * h) - z = h \/ q * (2 * h) - z = - h) -> exists m, q = 2 * m).
Proof.
  intros Hz Hk q h. assert (P : 2 ^ k = 2 * h). { unfold h. rewrite <- Z.pow_succ_r by lia. f_equal. lia. }
  assert (Hh : 0 < h) by (apply pow_pos; lia). unfold q, rne_shift. replace (k <=? 0) with false by lia. fold h. rewrite P.
  pose proof (Z.div_mod z (2 * h) ltac:(lia)) as D. pose proof (Z.mod_pos_bound z (2 * h) ltac:(lia)) as B.
  pose proof (Z.div_pos z (2 * h) Hz ltac:(lia)) as Q. set (w := z / (2 * h)) in *. set (r := z mod (2 * h)) in *. clearbody w r h. clear P q.
  destruct (r <? h) eqn:C1; [split; [lia|split; [nia|intros [X|X]; exfalso; nia]]|].
  destruct (h <? r) eqn:C2; [split; [lia|split; [nia|intros [X|X]; exfalso; nia]]|].
  assert (r = h) by lia. destruct (Z.even w) eqn:C3.
  - split; [lia|]. split; [nia|]. intros _. apply Z.even_spec in C3. exact C3.
  - split; [lia|]. split; [nia|]. intros _. rewrite <- Z.negb_odd in C3. apply negb_false_iff in C3. apply Z.odd_spec in C3. destruct C3 as [m ->]. exists (m + 1). lia.
Qed.
Lemma rne_le z k n : 0 <= z -> 0 <= k -> z <= n * 2 ^ k -> rne_shift z k <= n.
Proof.
  intros Hz Hk H. destruct (Z.eq_dec k 0) as [->|K].
  - unfold rne_shift. cbn. lia.
  - destruct (rne_near z k Hz ltac:(lia)) as (A & B & C). set (q := rne_shift z k) in *.
    assert (P : 2 ^ k = 2 * 2 ^ (k - 1)). { rewrite <- Z.pow_succ_r by lia. f_equal. lia. }
    rewrite P in H. pose proof (pow_pos (k - 1) ltac:(lia)). set (h := 2 ^ (k - 1)) in *. clearbody h q. destruct (Z.le_gt_cases q n) as [?|G]; [lia|exfalso].
    destruct (Z.eq_dec q (n + 1)) as [->|]; [|nia].
    nia.
Qed.
Lemma rne_ge z k n : 0 <= z -> 0 <= k -> n * 2 ^ k <= z -> n <= rne_shift z k.
Proof.
  intros Hz Hk H. destruct (Z.eq_dec k 0) as [->|K].
  - unfold rne_shift. cbn. lia.
  - destruct (rne_near z k Hz ltac:(lia)) as (A & B & C). set (q := rne_shift z k) in *.
    assert (P : 2 ^ k = 2 * 2 ^ (k - 1)). { rewrite <- Z.pow_succ_r by lia. f_equal. lia. }
    rewrite P in H. pose proof (pow_pos (k - 1) ltac:(lia)). set (h := 2 ^ (k - 1)) in *. clearbody h q. nia.
Qed.
(** other units *)
Lemma rne_scale a k c : 0 <= c -> rne_shift (a * 2 ^ c) (k + c) = rne_shift a k.
Proof.
  intros Hc. pose proof (pow_pos c Hc) as PC. unfold rne_shift. destruct (Z.leb_spec k 0) as [K|K]; destruct (Z.leb_spec (k + c) 0) as [L|L]; try lia.
  - rewrite <- Z.mul_assoc, <- Z.pow_add_r by lia. f_equal. f_equal. lia.
  - assert (E : a * 2 ^ c = a * 2 ^ (- k) * 2 ^ (k + c)). { rewrite <- Z.mul_assoc, <- Z.pow_add_r by lia. do 2 f_equal. lia. }
    rewrite E, Z.div_mul, Z_mod_mult by (pose proof (pow_pos (k + c) ltac:(lia)); lia).
    pose proof (pow_pos (k + c - 1) ltac:(lia)). cbv zeta. now replace (0 <? 2 ^ (k + c - 1)) with true by lia.
  - rewrite Z.pow_add_r by lia. pose proof (pow_pos k ltac:(lia)) as PK.
    rewrite Z.div_mul_cancel_r, Z.mul_mod_distr_r by lia. cbv zeta.
    replace (2 ^ (k + c - 1)) with (2 ^ (k - 1) * 2 ^ c) by (rewrite <- Z.pow_add_r by lia; f_equal; lia).
    set (r := a mod 2 ^ k). set (h := 2 ^ (k - 1)).
    replace (r * 2 ^ c <? h * 2 ^ c) with (r <? h) by (destruct (Z.ltb_spec r h), (Z.ltb_spec (r * 2 ^ c) (h * 2 ^ c)); try reflexivity; nia).
    now replace (h * 2 ^ c <? r * 2 ^ c) with (h <? r) by (destruct (Z.ltb_spec h r), (Z.ltb_spec (h * 2 ^ c) (r * 2 ^ c)); try reflexivity; nia).
Qed.

(** the nearest of all numbers with [p] bits, in units of 2^[kmin] at least *)
Definition bits_of (p kmin y : Z) : Prop := exists M k, Z.abs M < 2 ^ p /\ kmin <= k /\ y = M * 2 ^ k.
Lemma near_grid z q h (even_tie : (q * (2 * h) - z = h \/ q * (2 * h) - z = - h) -> exists m, q = 2 * m) N : 0 < h -> - h <= q * (2 * h) - z <= h ->
  as_near z (q * (2 * h)) (N * (2 * h)).
Proof.
  intros Hh B. split.
  - destruct (Z.eq_dec N q) as [->|D]; [lia|]. assert (N <= q - 1 \/ q + 1 <= N) as [L|L] by lia; nia.
  - intros E D. assert (NQ : N <> q) by (intros ->; now apply D).
    assert (N <= q - 1 \/ q + 1 <= N) as [L|L] by lia.
    + assert (N = q - 1 /\ q * (2 * h) - z = h) as [-> Q] by nia. destruct (even_tie (or_introl Q)) as [m ->]. exists (- m). lia.
    + assert (N = q + 1 /\ q * (2 * h) - z = - h) as [-> Q] by nia. destruct (even_tie (or_intror Q)) as [m ->]. exists m. lia.
Qed.
Lemma as_near_refl z a : as_near z a a.
Proof. split; [lia|]. intros _ H. now contradict H. Qed.
Lemma round_near p kmin z g y : 1 <= p -> 0 <= kmin <= g -> 0 <= z -> (g = kmin \/ 2 ^ (p - 1 + g) <= z) -> bits_of p kmin y ->
  as_near z (rne_shift z g * 2 ^ g) y.
Proof.
  intros Hp Hg Hz R (M & k & HM & Hk & ->).
  destruct (Z.eq_dec g 0) as [->|G0].
  { unfold rne_shift. cbn [Z.leb Z.compare]. rewrite Z.pow_0_r. replace (z * 2 ^ (- 0) * 1) with z by (cbn; lia). split; [lia|]. intros E D. exfalso. apply D. lia. }
  destruct (rne_near z g Hz ltac:(lia)) as (A & B & C). set (q := rne_shift z g) in *.
  assert (P : 2 ^ g = 2 * 2 ^ (g - 1)). { rewrite <- Z.pow_succ_r by lia. f_equal. lia. }
  pose proof (pow_pos (g - 1) ltac:(lia)) as Hh. rewrite P. set (h := 2 ^ (g - 1)) in *.
  destruct (Z.le_gt_cases g k) as [L|L].
  - replace (M * 2 ^ k) with (M * 2 ^ (k - g) * (2 * h)); [now apply near_grid|]. rewrite <- P, <- Z.mul_assoc, <- Z.pow_add_r by lia. do 2 f_equal. lia.
  - destruct R as [->|R]; [lia|].
    assert (Y : Z.abs (M * 2 ^ k) < 2 ^ (p - 1 + g)).
    { pose proof (pow_pos k ltac:(lia)). rewrite Z.abs_mul, (Z.abs_eq (2 ^ k)) by lia.
      apply Z.lt_le_trans with (2 ^ p * 2 ^ k); [apply Z.mul_lt_mono_pos_r; lia|]. rewrite <- Z.pow_add_r by lia. apply Z.pow_le_mono_r; lia. }
    assert (E : 2 ^ (p - 1 + g) = 2 ^ (p - 1) * (2 * h)) by (rewrite <- P, <- Z.pow_add_r by lia; reflexivity).
    destruct (near_grid z q h C (2 ^ (p - 1)) Hh B) as [N _]. rewrite <- E in N. set (y := M * 2 ^ k) in *. set (T := 2 ^ (p - 1 + g)) in *. clearbody y T.
    clear E. set (a := q * (2 * h)) in *. clearbody a. split; [lia|]. intros X. exfalso. lia.
Qed.
Lemma as_near_opp z a b : as_near z a b -> as_near (- z) (- a) (- b).
Proof.
  intros [H1 H2]. split; [lia|]. intros E D. destruct H2 as [m Hm]; [lia|lia|]. exists m. lia.
Qed.
Lemma bits_of_opp p kmin y : bits_of p kmin y -> bits_of p kmin (- y).
Proof. intros (M & k & A & B & ->). exists (- M), k. split; [lia|]. split; [exact B|]. lia. Qed.
Lemma as_near_signed p kmin (s : bool) z g y : 1 <= p -> 0 <= kmin <= g -> 0 <= z -> (g = kmin \/ 2 ^ (p - 1 + g) <= z) -> bits_of p kmin y ->
  as_near (if s then - z else z) (if s then - (rne_shift z g * 2 ^ g) else rne_shift z g * 2 ^ g) y.
Proof.
  intros. destruct s; [|now apply round_near with p kmin]. rewrite <- (Z.opp_involutive y). apply as_near_opp. apply round_near with p kmin; auto. now apply bits_of_opp.
Qed.

(** the finite patterns have 53 (24) bits *)
Lemma finite64_bits b : finite64 b -> bits_of 53 0 (f64_scaled b).
Proof.
  intros [H _]. change (2 ^ 64) with two64 in H. destruct (f64_split b H) as (_ & He & Hm). unfold f64_scaled.
  assert (X : bits_of 53 0 (if f64_exp b =? 0 then f64_man b else (2 ^ 52 + f64_man b) * 2 ^ (f64_exp b - 1))).
  { destruct (f64_exp b =? 0) eqn:E.
    - exists (f64_man b), 0. rewrite Z.pow_0_r. change (2 ^ 53) with (2 * 2 ^ 52). lia.
    - exists (2 ^ 52 + f64_man b), (f64_exp b - 1). change (2 ^ 53) with (2 * 2 ^ 52). lia. }
  destruct (f64_sign b); [now apply bits_of_opp|exact X].
Qed.
Lemma finite32_bits b : finite32 b -> bits_of 24 925 (f32_scaled b).
Proof.
  intros [H _]. change (2 ^ 32) with two32 in H. destruct (f32_split b H) as (_ & He & Hm). unfold f32_scaled.
  assert (X : bits_of 24 925 ((if f32_exp b =? 0 then f32_man b else (2 ^ 23 + f32_man b) * 2 ^ (f32_exp b - 1)) * 2 ^ 925)).
  { destruct (f32_exp b =? 0) eqn:E.
    - exists (f32_man b), 925. change (2 ^ 24) with (2 * 2 ^ 23). split; [lia|]. split; [lia|reflexivity].
    - exists (2 ^ 23 + f32_man b), (f32_exp b - 1 + 925). change (2 ^ 24) with (2 * 2 ^ 23). split; [lia|]. split; [lia|]. rewrite Z.pow_add_r by lia. apply eq_sym, Z.mul_assoc. }
  destruct (f32_sign b); [|exact X]. rewrite Z.mul_opp_l. now apply bits_of_opp.
Qed.

(** patterns put together from an exponent and a rounded mantissa, which may have become one bit longer *)
Lemma make64 (s : bool) e q : 1 <= e <= 2045 -> 2 ^ 52 <= q <= 2 ^ 53 -> let b := (if s then two63 else 0) + (e - 1) * 2 ^ 52 + q in
  finite64 b /\ f64_sign b = s /\ f64_scaled b = (if s then - (q * 2 ^ (e - 1)) else q * 2 ^ (e - 1)).
Proof.
  intros He Hq b. change (2 ^ 53) with (2 * 2 ^ 52) in Hq. destruct (Z.eq_dec q (2 * 2 ^ 52)) as [->|N].
  - destruct (f64_fields s (e + 1) 0 ltac:(lia) ltac:(lia)) as (A & B & C & D). replace ((if s then two63 else 0) + (e + 1) * 2 ^ 52 + 0) with b in * by (unfold b; lia).
    split; [split; [exact D|lia]|]. split; [exact A|]. unfold f64_scaled. rewrite A, B, C. replace (e + 1 =? 0) with false by lia.
    replace ((2 ^ 52 + 0) * 2 ^ (e + 1 - 1)) with (2 * 2 ^ 52 * 2 ^ (e - 1)); [reflexivity|]. replace (e + 1 - 1) with (Z.succ (e - 1)) by lia. rewrite Z.pow_succ_r by lia. lia.
  - destruct (f64_fields s e (q - 2 ^ 52) ltac:(lia) ltac:(lia)) as (A & B & C & D). replace ((if s then two63 else 0) + e * 2 ^ 52 + (q - 2 ^ 52)) with b in * by (unfold b; lia).
    split; [split; [exact D|lia]|]. split; [exact A|]. unfold f64_scaled. rewrite A, B, C. replace (e =? 0) with false by lia.
    now replace (2 ^ 52 + (q - 2 ^ 52)) with q by lia.
Qed.
Lemma make32 (s : bool) e q : 1 <= e <= 254 -> 2 ^ 23 <= q <= 2 ^ 24 -> (e = 254 -> q < 2 ^ 24) -> let b := (if s then two31 else 0) + (e - 1) * 2 ^ 23 + q in
  finite32 b /\ f32_sign b = s /\ f32_scaled b = (if s then - (q * 2 ^ (e - 1 + 925)) else q * 2 ^ (e - 1 + 925)).
Proof.
  intros He Hq Hx b. change (2 ^ 24) with (2 * 2 ^ 23) in Hq, Hx. destruct (Z.eq_dec q (2 * 2 ^ 23)) as [->|N].
  - assert (e <> 254) by (intros E; specialize (Hx E); lia).
    destruct (f32_fields s (e + 1) 0 ltac:(lia) ltac:(lia)) as (A & B & C & D). replace ((if s then two31 else 0) + (e + 1) * 2 ^ 23 + 0) with b in * by (unfold b; lia).
    split; [split; [exact D|lia]|]. split; [exact A|]. unfold f32_scaled. rewrite A, B, C. replace (e + 1 =? 0) with false by lia. rewrite (Z.pow_add_r 2 (e - 1) 925) by lia.
    replace ((2 ^ 23 + 0) * 2 ^ (e + 1 - 1)) with (2 * 2 ^ 23 * 2 ^ (e - 1)); [destruct s; ring|]. replace (e + 1 - 1) with (Z.succ (e - 1)) by lia. rewrite Z.pow_succ_r by lia. lia.
  - destruct (f32_fields s e (q - 2 ^ 23) ltac:(lia) ltac:(lia)) as (A & B & C & D). replace ((if s then two31 else 0) + e * 2 ^ 23 + (q - 2 ^ 23)) with b in * by (unfold b; lia).
    split; [split; [exact D|lia]|]. split; [exact A|]. unfold f32_scaled. rewrite A, B, C. replace (e =? 0) with false by lia. rewrite (Z.pow_add_r 2 (e - 1) 925) by lia.
    replace (2 ^ 23 + (q - 2 ^ 23)) with q by lia. destruct s; ring.
Qed.
(** the same below the smallest normal float *)
Lemma make32_small (s : bool) q : 0 <= q <= 2 ^ 23 -> let b := (if s then two31 else 0) + q in
  finite32 b /\ f32_sign b = s /\ f32_scaled b = (if s then - (q * 2 ^ 925) else q * 2 ^ 925).
Proof.
  intros Hq b. destruct (Z.eq_dec q (2 ^ 23)) as [->|N].
  - destruct (make32 s 1 (2 ^ 23) ltac:(lia) ltac:(lia) ltac:(lia)) as (A & B & C). replace ((if s then two31 else 0) + (1 - 1) * 2 ^ 23 + 2 ^ 23) with b in * by (unfold b; lia). exact (conj A (conj B C)).
  - destruct (f32_fields s 0 q ltac:(lia) ltac:(lia)) as (A & B & C & D). replace ((if s then two31 else 0) + 0 * 2 ^ 23 + q) with b in * by (unfold b; lia).
    split; [split; [exact D|lia]|]. split; [exact A|]. unfold f32_scaled. rewrite A, B, C. cbn [Z.eqb]. destruct s; ring.
Qed.

(** whole numbers *)
Lemma f64_of_int_near n : Z.abs n <= 2 ^ 64 -> nearest64 (n * 2 ^ 1074) (f64_of_int n).
Proof.
  intros Hn. unfold f64_of_int, fp_of_int. destruct (n =? 0) eqn:N0.
  { replace n with 0 by lia. split; [split; [lia|vm_compute; discriminate]|]. intros y _. change (f64_scaled 0) with 0. split; [lia|]. intros E D. exfalso. apply D. lia. }
  cbv zeta. set (a := Z.abs n) in *. set (k := Z.log2 a). assert (Ha : 0 < a) by lia. pose proof (Z.log2_spec a Ha) as [L1 L2]. fold k in L1, L2.
  assert (K : 0 <= k <= 64). { split; [apply Z.log2_nonneg|]. change 64 with (Z.log2 (2 ^ 64)). apply Z.log2_le_mono. lia. }
  set (g := k + 1022). set (z := a * 2 ^ 1074).
  assert (R : rne_shift a (k - 53 + 1) = rne_shift z g). { unfold z, g. rewrite <- (rne_scale a (k - 53 + 1) 1074) by lia. f_equal. lia. }
  assert (Z1 : 2 ^ 52 * 2 ^ g <= z). { unfold z, g. replace (2 ^ 52 * 2 ^ (k + 1022)) with (2 ^ k * 2 ^ 1074) by (rewrite <- !Z.pow_add_r by lia; f_equal; lia). pose proof (pow_pos 1074 ltac:(lia)). apply Z.mul_le_mono_nonneg_r; lia. }
  assert (Z2 : z <= 2 ^ 53 * 2 ^ g). { unfold z, g. replace (2 ^ 53 * 2 ^ (k + 1022)) with (2 ^ Z.succ k * 2 ^ 1074) by (rewrite <- !Z.pow_add_r by lia; f_equal; lia). pose proof (pow_pos 1074 ltac:(lia)). apply Z.mul_le_mono_nonneg_r; lia. }
  assert (Z0 : 0 <= z). { unfold z. pose proof (pow_pos 1074 ltac:(lia)). apply Z.mul_nonneg_nonneg; lia. }
  pose proof (rne_ge z g _ Z0 ltac:(unfold g; lia) Z1) as Q1. pose proof (rne_le z g _ Z0 ltac:(unfold g; lia) Z2) as Q2. rewrite R.
  destruct (make64 (n <? 0) (k + 1023) (rne_shift z g) ltac:(lia) ltac:(lia)) as (A & B & C).
  replace ((if n <? 0 then two63 else 0) + (k + 1023) * 2 ^ (53 - 1) + rne_shift z g - 2 ^ (53 - 1)) with ((if n <? 0 then two63 else 0) + (k + 1023 - 1) * 2 ^ 52 + rne_shift z g) by (change (53 - 1) with 52; lia).
  split; [exact A|]. intros y Y. rewrite C. replace (k + 1023 - 1) with g by (unfold g; lia).
  replace (n * 2 ^ 1074) with (if n <? 0 then - z else z).
  - apply as_near_signed with 53 0; [lia|unfold g; lia|exact Z0| |now apply finite64_bits]. right. rewrite Z.pow_add_r by (unfold g; lia). exact Z1.
  - unfold z, a. destruct (Z.ltb_spec n 0); [rewrite Z.abs_neq by lia; ring|rewrite Z.abs_eq by lia; reflexivity].
Qed.
Lemma f32_of_int_near n : Z.abs n <= 2 ^ 64 -> nearest32 (n * 2 ^ 1074) (f32_of_int n).
Proof.
  intros Hn. unfold f32_of_int, fp_of_int. destruct (n =? 0) eqn:N0.
  { replace n with 0 by lia. split; [split; [lia|vm_compute; discriminate]|]. intros y _. change (f32_scaled 0) with 0. split; [lia|]. intros E D. exfalso. apply D. lia. }
  cbv zeta. set (a := Z.abs n) in *. set (k := Z.log2 a). assert (Ha : 0 < a) by lia. pose proof (Z.log2_spec a Ha) as [L1 L2]. fold k in L1, L2.
  assert (K : 0 <= k <= 64). { split; [apply Z.log2_nonneg|]. change 64 with (Z.log2 (2 ^ 64)). apply Z.log2_le_mono. lia. }
  set (g := k + 1051). set (z := a * 2 ^ 1074).
  assert (R : rne_shift a (k - 24 + 1) = rne_shift z g). { unfold z, g. rewrite <- (rne_scale a (k - 24 + 1) 1074) by lia. f_equal. lia. }
  assert (Z1 : 2 ^ 23 * 2 ^ g <= z). { unfold z, g. replace (2 ^ 23 * 2 ^ (k + 1051)) with (2 ^ k * 2 ^ 1074) by (rewrite <- !Z.pow_add_r by lia; f_equal; lia). pose proof (pow_pos 1074 ltac:(lia)). apply Z.mul_le_mono_nonneg_r; lia. }
  assert (Z2 : z <= 2 ^ 24 * 2 ^ g). { unfold z, g. replace (2 ^ 24 * 2 ^ (k + 1051)) with (2 ^ Z.succ k * 2 ^ 1074) by (rewrite <- !Z.pow_add_r by lia; f_equal; lia). pose proof (pow_pos 1074 ltac:(lia)). apply Z.mul_le_mono_nonneg_r; lia. }
  assert (Z0 : 0 <= z). { unfold z. pose proof (pow_pos 1074 ltac:(lia)). apply Z.mul_nonneg_nonneg; lia. }
  pose proof (rne_ge z g _ Z0 ltac:(unfold g; lia) Z1) as Q1. pose proof (rne_le z g _ Z0 ltac:(unfold g; lia) Z2) as Q2. rewrite R.
  destruct (make32 (n <? 0) (k + 127) (rne_shift z g) ltac:(lia) ltac:(lia) ltac:(lia)) as (A & B & C).
  replace ((if n <? 0 then two31 else 0) + (k + 127) * 2 ^ (24 - 1) + rne_shift z g - 2 ^ (24 - 1)) with ((if n <? 0 then two31 else 0) + (k + 127 - 1) * 2 ^ 23 + rne_shift z g) by (change (24 - 1) with 23; lia).
  split; [exact A|]. intros y Y. rewrite C. replace (k + 127 - 1 + 925) with g by (unfold g; lia).
  replace (n * 2 ^ 1074) with (if n <? 0 then - z else z).
  - apply as_near_signed with 24 925; [lia|unfold g; lia|exact Z0| |now apply finite32_bits]. right. rewrite Z.pow_add_r by (unfold g; lia). exact Z1.
  - unfold z, a. destruct (Z.ltb_spec n 0); [rewrite Z.abs_neq by lia; ring|rewrite Z.abs_eq by lia; reflexivity].
Qed.

(** doubles to floats *)
Lemma pow_le_lt24 M e : 2 ^ 52 <= M < 2 ^ 53 -> 0 <= e -> M * 2 ^ e <= (2 ^ 24 - 1) * 2 ^ 104 * 2 ^ 1074 -> e <= 1149 /\ (e = 1149 -> M <= (2 ^ 24 - 1) * 2 ^ 29).
Proof.
  intros HM He H. rewrite <- Z.mul_assoc, <- Z.pow_add_r in H by lia. change (104 + 1074) with (29 + 1149) in H. rewrite Z.pow_add_r, Z.mul_assoc in H by lia.
  pose proof (pow_pos 1149 ltac:(lia)) as P. split.
  - destruct (Z.le_gt_cases e 1149) as [?|G]; [assumption|exfalso].
    assert (2 * 2 ^ 1149 <= 2 ^ e). { rewrite <- Z.pow_succ_r by lia. apply Z.pow_le_mono_r; lia. }
    set (T := 2 ^ 1149) in *. set (U := 2 ^ e) in *. clearbody T U. nia.
  - intros ->. apply Z.mul_le_mono_pos_r with (2 ^ 1149); [exact P|exact H].
Qed.
Lemma f32_of_f64_near d : finite64 d -> Z.abs (f64_scaled d) <= float_max -> nearest32 (f64_scaled d) (f32_of_f64 d) /\ f32_sign (f32_of_f64 d) = f64_sign d.
Proof.
  intros [Hd Hx] Hb. change (2 ^ 64) with two64 in Hd. destruct (f64_split d Hd) as (_ & He & Hm). unfold f32_of_f64. unfold f64_scaled in Hb |- *. unfold float_max in Hb. cbv zeta.
  set (s := f64_sign d) in *. set (e := f64_exp d) in *. set (m := f64_man d) in *. clearbody s e m. replace (e =? 2047) with false by lia.
  destruct (e =? 0) eqn:E0.
  - destruct (make32_small s 0 ltac:(lia)) as (A & B & C). rewrite Z.add_0_r in A, B, C.
    split; [|exact B]. split; [exact A|]. intros y Y. rewrite C.
    assert (R : rne_shift m 925 = 0).
    { assert (L : m < 2 ^ 924) by (apply Z.lt_le_trans with (2 ^ 52); [lia|apply Z.pow_le_mono_r; lia]). unfold rne_shift. replace (925 <=? 0) with false by lia.
      assert (L2 : m < 2 ^ 925) by (apply Z.lt_le_trans with (2 ^ 52); [lia|apply Z.pow_le_mono_r; lia]).
      rewrite Z.div_small, Z.mod_small by lia. cbv zeta. change (925 - 1) with 924. now replace (m <? 2 ^ 924) with true by lia. }
    rewrite <- R. apply as_near_signed with 24 925; [lia|lia|lia|now left|now apply finite32_bits].
  - set (M := 2 ^ 52 + m) in *. assert (HM : 2 ^ 52 <= M < 2 ^ 53) by (unfold M; change (2 ^ 53) with (2 * 2 ^ 52); lia). clearbody M.
    pose proof (pow_pos (e - 1) ltac:(lia)) as PE.
    assert (Z0 : 0 <= M * 2 ^ (e - 1)) by (apply Z.mul_nonneg_nonneg; lia).
    assert (HB : M * 2 ^ (e - 1) <= (2 ^ 24 - 1) * 2 ^ 104 * 2 ^ 1074). { set (F := (2 ^ 24 - 1) * 2 ^ 104 * 2 ^ 1074) in *. clearbody F. destruct s; lia. }
    destruct (pow_le_lt24 M (e - 1) HM ltac:(lia) HB) as [EM EX]. clear Hb HB.
    destruct (-126 <=? e - 1023) eqn:C126.
    + assert (R : rne_shift M 29 = rne_shift (M * 2 ^ (e - 1)) (e + 28)). { rewrite <- (rne_scale M 29 (e - 1)) by lia. f_equal. lia. }
      pose proof (rne_ge M 29 (2 ^ 23) ltac:(lia) ltac:(lia) ltac:(rewrite <- Z.pow_add_r by lia; change (23 + 29) with 52; lia)) as Q1.
      pose proof (rne_le M 29 (2 ^ 24) ltac:(lia) ltac:(lia) ltac:(rewrite <- Z.pow_add_r by lia; change (24 + 29) with 53; lia)) as Q2.
      assert (Q3 : e - 896 = 254 -> rne_shift M 29 < 2 ^ 24). { intros X. pose proof (rne_le M 29 (2 ^ 24 - 1) ltac:(lia) ltac:(lia) (EX ltac:(lia))). lia. }
      destruct (make32 s (e - 896) (rne_shift M 29) ltac:(lia) ltac:(lia) Q3) as (A & B & C).
      replace ((if s then two31 else 0) + (e - 1023 + 126) * 2 ^ 23 + rne_shift M 29) with ((if s then two31 else 0) + (e - 896 - 1) * 2 ^ 23 + rne_shift M 29) by lia.
      split; [|exact B]. split; [exact A|]. intros y Y. rewrite C. replace (e - 896 - 1 + 925) with (e + 28) by lia. rewrite R.
      apply as_near_signed with 24 925; [lia|lia|exact Z0| |now apply finite32_bits]. right. replace (24 - 1 + (e + 28)) with (52 + (e - 1)) by lia. rewrite Z.pow_add_r by lia. apply Z.mul_le_mono_nonneg_r; lia.
    + assert (R : rne_shift M (-97 - (e - 1023)) = rne_shift (M * 2 ^ (e - 1)) 925). { rewrite <- (rne_scale M (-97 - (e - 1023)) (e - 1)) by lia. f_equal. lia. }
      rewrite R.
      assert (Q1 : 0 <= rne_shift (M * 2 ^ (e - 1)) 925) by (apply rne_ge; lia).
      assert (Q2 : rne_shift (M * 2 ^ (e - 1)) 925 <= 2 ^ 23).
      { apply rne_le; [exact Z0|lia|]. apply Z.le_trans with (2 ^ 53 * 2 ^ (e - 1)); [apply Z.mul_le_mono_nonneg_r; lia|]. rewrite <- !Z.pow_add_r by lia. apply Z.pow_le_mono_r; lia. }
      destruct (make32_small s (rne_shift (M * 2 ^ (e - 1)) 925) (conj Q1 Q2)) as (A & B & C).
      split; [|exact B]. split; [exact A|]. intros y Y. rewrite C. apply as_near_signed with 24 925; [lia|lia|exact Z0|now left|now apply finite32_bits].
Qed.
