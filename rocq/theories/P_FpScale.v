(** Boundaries, powers of ten and products of the double printer. *)
From Coq Require Import ZArith List Bool QArith Qabs Lqa Lia ZifyBool ZifyNat.
From Verif Require Import Base S_Conv M_Fpconv S_Fpconv P_FpDigits.
Import ListNotations.
Open Scope Z_scope.

(** ** bits *)
Lemma land_frac n : 0 <= n -> Z.land n fracmask = n mod 2 ^ 52.
Proof. intros. change fracmask with (Z.ones 52). apply Z.land_ones. lia. Qed.
Lemma land_exp n : 0 <= n -> Z.land (Z.shiftr n 52) 2047 = (n mod 2 ^ 63) / 2 ^ 52.
Proof.
  intros. change 2047 with (Z.ones 11). rewrite Z.land_ones by lia. rewrite Z.shiftr_div_pow2 by lia.
  change (2 ^ 63) with (2 ^ 52 * 2 ^ 11). rewrite Z.rem_mul_r by lia. rewrite Z.mul_comm, Z.div_add by lia. rewrite (Z.div_small (n mod 2 ^ 52)); [lia|]. apply Z.mod_pos_bound. lia.
Qed.
Lemma land_bit x b : 0 <= b -> 0 <= x < 2 ^ (b + 1) -> Z.land x (2 ^ b) = if x <? 2 ^ b then 0 else 2 ^ b.
Proof.
  intros B X. apply Z.bits_inj'. intros i Hi. rewrite Z.land_spec, Z.pow2_bits_eqb by lia. destruct (Z.eqb_spec b i) as [<-|N].
  - rewrite andb_true_r. rewrite Z.testbit_odd, Z.shiftr_div_pow2 by lia. destruct (Z.ltb_spec x (2 ^ b)).
    + rewrite Z.bits_0. replace (x / 2 ^ b) with 0 by (rewrite Z.div_small; lia). reflexivity.
    + rewrite Z.pow2_bits_true by lia. replace (x / 2 ^ b) with 1; [reflexivity|]. rewrite Z.pow_add_r in X by lia. apply (Z.div_unique_pos x (2 ^ b) 1 (x - 2 ^ b)); lia.
  - rewrite andb_false_r. destruct (x <? 2 ^ b); [now rewrite Z.bits_0|]. rewrite Z.pow2_bits_false by lia. reflexivity.
Qed.

(** ** normalization *)
Lemma shift_up_spec b : 0 <= b <= 53 -> forall fuel x e, 0 < x < 2 ^ (b + 1) -> 2 ^ b <= x * 2 ^ (Z.of_nat fuel - 1) -> (0 < fuel)%nat ->
  exists s, shift_up fuel (2 ^ b) (mkFp x e) = Ok (mkFp (x * 2 ^ s) (e - s)) /\ 0 <= s < Z.of_nat fuel /\ 2 ^ b <= x * 2 ^ s < 2 ^ (b + 1).
Proof.
  intros B. induction fuel as [|f IH]; intros x e X L F; [lia|]. cbn [shift_up frac fexp]. rewrite land_bit by lia.
  assert (P : 2 ^ b < two64) by (change two64 with (2 ^ 64); apply Z.pow_lt_mono_r; lia). assert (P0 : 0 < 2 ^ b) by (apply Z.pow_pos_nonneg; lia).
  assert (Hb : 2 ^ (b + 1) = 2 * 2 ^ b) by (rewrite Z.add_1_r, Z.pow_succ_r by lia; reflexivity).
  destruct (Z.ltb_spec x (2 ^ b)) as [Y|Y].
  - change (0 =? 0) with true. cbn iota. destruct f as [|f].
    + change (Z.of_nat 1 - 1) with 0 in L. change (2 ^ 0) with 1 in L. lia.
    + assert (P2 : 2 ^ b <= 2 ^ 53) by (apply Z.pow_le_mono_r; lia).
      rewrite u64_id by (unfold two64; lia). destruct (IH (x * 2) (e - 1)) as (s & E & S1 & S2); [lia| |lia|].
      * replace (Z.of_nat (S (S f)) - 1) with (Z.of_nat (S f) - 1 + 1) in L by lia. rewrite Z.pow_add_r in L by lia. change (2 ^ 1) with 2 in L. lia.
      * exists (s + 1). assert (Hs : 2 ^ (s + 1) = 2 ^ s * 2) by (rewrite Z.pow_add_r by lia; reflexivity).
        split; [rewrite E; do 2 f_equal; [rewrite Hs; ring|lia]|]. split; [lia|]. rewrite Hs. replace (x * (2 ^ s * 2)) with (x * 2 * 2 ^ s) by ring. exact S2.
  - replace (2 ^ b =? 0) with false by lia. exists 0. split; [do 2 f_equal; change (2 ^ 0) with 1; lia|]. split; [lia|]. change (2 ^ 0) with 1. lia.
Qed.

(** the neighbourhood of f*2^e: with [h] half a unit and [g] the number, in units of 2^(e - s - 11) *)
Lemma boundaries_spec f e : 0 < f < 2 ^ 53 -> exists s h g, 0 <= s <= 52 /\ h = 2 ^ (s + 10) /\ g = f * 2 ^ (s + 11) /\ 2 ^ 63 <= g < 2 ^ 64 /\ g + h < 2 ^ 64 /\
  normalize (mkFp f e) = Ok (mkFp g (e - s - 11)) /\
  boundaries (mkFp f e) = Ok (mkFp (if f =? 2 ^ 52 then g - h / 2 else g - h) (e - s - 11), mkFp (g + h) (e - s - 11)).
Proof.
  intros F. destruct (shift_up_spec 52 ltac:(lia) 64 f e) as (s & E1 & S1 & S2); [lia|change (2 ^ (Z.of_nat 64 - 1)) with (2 ^ 63); lia|lia|].
  destruct (shift_up_spec 53 ltac:(lia) 64 (f * 2 + 1) (e - 1)) as (s' & E2 & S1' & S2'); [lia|change (2 ^ (Z.of_nat 64 - 1)) with (2 ^ 63); lia|lia|].
  change (52 + 1) with 53 in *. change (53 + 1) with 54 in *.
  assert (Hs52 : s <= 52).
  { destruct (Z_le_gt_dec s 52) as [X|X]; [exact X|]. assert (2 ^ 53 <= 2 ^ s) by (apply Z.pow_le_mono_r; lia). assert (1 * 2 ^ 53 <= f * 2 ^ s) by (apply Z.mul_le_mono_nonneg; lia). lia. }
  assert (P0 : 0 < 2 ^ s) by (apply Z.pow_pos_nonneg; lia).
  assert (F1 : (f + 1) * 2 ^ s <= 2 ^ 53).
  { assert (X : 2 ^ 53 = 2 ^ (53 - s) * 2 ^ s) by (rewrite <- Z.pow_add_r by lia; f_equal; lia). rewrite X in S2 |- *. apply Z.mul_le_mono_nonneg_r; [lia|]. destruct S2 as [_ S2]. apply Z.mul_lt_mono_pos_r in S2; lia. }
  assert (Hs : s' = s).
  { assert (P : forall n m, 0 <= n < m -> 2 * ((f * 2 + 1) * 2 ^ n) <= (f * 2 + 1) * 2 ^ m).
    { intros n k Hn. assert (X : 2 ^ (n + 1) <= 2 ^ k) by (apply Z.pow_le_mono_r; lia). rewrite Z.pow_add_r in X by lia. change (2 ^ 1) with 2 in X.
      replace (2 * ((f * 2 + 1) * 2 ^ n)) with ((f * 2 + 1) * (2 ^ n * 2)) by ring. apply Z.mul_le_mono_nonneg_l; lia. }
    destruct (Z.lt_trichotomy s s') as [X|[X|X]]; [|now symmetry|].
    - specialize (P s s' ltac:(lia)). lia.
    - specialize (P s' s ltac:(lia)). lia. }
  subst s'.
  assert (P10 : 2 ^ (s + 10) = 2 ^ s * 2 ^ 10) by (apply Z.pow_add_r; lia). assert (P11 : 2 ^ (s + 11) = 2 ^ s * 2 ^ 11) by (apply Z.pow_add_r; lia).
  exists s, (2 ^ (s + 10)), (f * 2 ^ (s + 11)). split; [lia|]. split; [reflexivity|]. split; [reflexivity|]. rewrite P10, P11.
  change (2 ^ 63) with (2 ^ 52 * 2 ^ 11) in *. change (2 ^ 64) with (2 ^ 53 * 2 ^ 11) in *.
  assert (GH : f * (2 ^ s * 2 ^ 11) + 2 ^ s * 2 ^ 10 = (f * 2 + 1) * 2 ^ s * 2 ^ 10) by ring.
  split; [lia|]. split; [rewrite GH; lia|]. split.
  - unfold normalize. change hiddenbit with (2 ^ 52). rewrite E1. cbn [rbind frac fexp]. rewrite u64_id by (unfold two64; lia). do 2 f_equal. ring.
  - unfold boundaries. cbn [frac fexp]. rewrite (u64_id (f * 2 + 1)) by (unfold two64; lia). change (hiddenbit * 2) with (2 ^ 53). rewrite E2. cbn [rbind frac fexp].
    rewrite (u64_id ((f * 2 + 1) * 2 ^ s * 2 ^ 10)) by (unfold two64; lia). change hiddenbit with (2 ^ 52).
    set (l := if f =? 2 ^ 52 then 2 else 1). assert (Hl : l = 1 \/ l = 2) by (unfold l; destruct (f =? 2 ^ 52); tauto).
    replace (e - l - (e - 1 - s - 10)) with (s + 11 - l) by lia. replace ((s + 11 - l <? 0) || (64 <=? s + 11 - l)) with false by lia.
    assert (EX : e - 1 - s - 10 = e - s - 11) by lia. rewrite EX. rewrite <- GH. do 3 f_equal. unfold l. destruct (Z.eqb_spec f (2 ^ 52)) as [X|X].
    + subst f. assert (s = 0) by (destruct (Z.eq_dec s 0) as [Y|Y]; [exact Y|]; assert (2 ^ 1 <= 2 ^ s) by (apply Z.pow_le_mono_r; lia); lia). subst s. reflexivity.
    + replace (s + 11 - 1) with (s + 10) by lia. rewrite P10. change (2 ^ 1) with 2. rewrite (u64_id (f * 2 - 1)) by (unfold two64; lia).
      replace ((f * 2 - 1) * (2 ^ s * 2 ^ 10)) with (f * (2 ^ s * 2 ^ 11) - 2 ^ s * 2 ^ 10) by ring. apply u64_id. unfold two64. nia.
Qed.

(** ** products *)
Lemma multiply_spec a b ea eb : 0 <= a < two64 -> 0 <= b < two64 -> multiply (mkFp a ea) (mkFp b eb) = mkFp ((a * b + 2 ^ 63) / 2 ^ 64) (ea + eb + 64).
Proof.
  intros A B. unfold multiply. cbn [frac fexp]. f_equal.
  pose proof (Z.div_mod a two32 ltac:(unfold two32; lia)) as DA. pose proof (Z.mod_pos_bound a two32 ltac:(unfold two32; lia)) as MA.
  pose proof (Z.div_mod b two32 ltac:(unfold two32; lia)) as DB. pose proof (Z.mod_pos_bound b two32 ltac:(unfold two32; lia)) as MB.
  assert (HA : 0 <= a / two32 < two32) by (split; [apply Z.div_pos; unfold two32; lia|apply Z.div_lt_upper_bound; unfold two32, two64 in *; lia]).
  assert (HB : 0 <= b / two32 < two32) by (split; [apply Z.div_pos; unfold two32; lia|apply Z.div_lt_upper_bound; unfold two32, two64 in *; lia]).
  set (ah := a / two32) in *. set (al := a mod two32) in *. set (bh := b / two32) in *. set (bl := b mod two32) in *. unfold two32, two64 in *.
  assert (X1 : 0 <= ah * bl <= 4294967295 * 4294967295) by nia. assert (X2 : 0 <= al * bh <= 4294967295 * 4294967295) by nia.
  assert (X3 : 0 <= al * bl <= 4294967295 * 4294967295) by nia. assert (X4 : 0 <= ah * bh <= 4294967295 * 4294967295) by nia.
  assert (PR : a * b = ah * bh * 18446744073709551616 + (ah * bl + al * bh) * 4294967296 + al * bl) by (rewrite DA, DB; ring).
  assert (RG : 0 <= a * b <= 18446744073709551615 * 18446744073709551615) by nia. rewrite PR in RG |- *. clear PR DA DB.
  set (p := ah * bl) in *. set (q := al * bh) in *. set (r := al * bl) in *. set (t := ah * bh) in *. clearbody p q r t. clear - X1 X2 X3 X4 RG.
  rewrite !(u64_id p), !(u64_id q), !(u64_id r), !(u64_id t) by (unfold two64; lia).
  change (2 ^ 31) with 2147483648. change (2 ^ 63) with 9223372036854775808. change (2 ^ 64) with 18446744073709551616.
  pose proof (Z.div_mod p 4294967296 ltac:(lia)) as Dp. pose proof (Z.mod_pos_bound p 4294967296 ltac:(lia)) as Mp.
  pose proof (Z.div_mod q 4294967296 ltac:(lia)) as Dq. pose proof (Z.mod_pos_bound q 4294967296 ltac:(lia)) as Mq.
  pose proof (Z.div_mod r 4294967296 ltac:(lia)) as Dr. pose proof (Z.mod_pos_bound r 4294967296 ltac:(lia)) as Mr.
  set (ph := p / 4294967296) in *. set (pl := p mod 4294967296) in *. set (qh := q / 4294967296) in *. set (ql := q mod 4294967296) in *. set (rh := r / 4294967296) in *. set (rl := r mod 4294967296) in *.
  assert (R0 : 0 <= rh < 4294967296) by lia.
  rewrite (u64_id (pl + ql + rh)) by (unfold two64; lia). rewrite (u64_id (pl + ql + rh + 2147483648)) by (unfold two64; lia).
  pose proof (Z.div_mod (pl + ql + rh + 2147483648) 4294967296 ltac:(lia)) as Dt. pose proof (Z.mod_pos_bound (pl + ql + rh + 2147483648) 4294967296 ltac:(lia)) as Mt.
  set (th := (pl + ql + rh + 2147483648) / 4294967296) in *. set (tl := (pl + ql + rh + 2147483648) mod 4294967296) in *.
  rewrite u64_id by (unfold two64; lia). apply (Z.div_unique_pos _ _ _ (tl * 4294967296 + rl)); lia.
Qed.

(** ** powers of ten *)
Definition power_ok (e : Z) : bool :=
  match find_cachedpow10 e with
  | Ok (p, k) => (-60 <=? e + fexp p + 64) && (e + fexp p + 64 <=? -32) && (2 ^ 63 <=? frac p) && (frac p <? 2 ^ 64) && (-400 <=? k) && (k <=? 400) &&
      Qle_bool (Qabs (inject_Z (frac p) - power 10 k * power 2 (- fexp p))) (1 # 2)
  | _ => false
  end.
Fixpoint range_ok (n : nat) (e : Z) : bool := match n with O => true | S m => power_ok e && range_ok m (e + 1) end.
Lemma range_ok_true : range_ok 2098 (-1137) = true.
Proof. vm_compute. reflexivity. Qed.
Lemma range_ok_spec n : forall e, range_ok n e = true -> forall x, e <= x < e + Z.of_nat n -> power_ok x = true.
Proof.
  induction n as [|n IH]; intros e H x X; [lia|]. cbn [range_ok] in H. apply andb_true_iff in H as [H1 H2].
  destruct (Z.eq_dec x e) as [->|N]; [exact H1|]. apply (IH (e + 1)); [exact H2|lia].
Qed.
Lemma find_cachedpow10_spec e : -1137 <= e <= 960 -> exists p k, find_cachedpow10 e = Ok (p, k) /\ -60 <= e + fexp p + 64 <= -32 /\ 2 ^ 63 <= frac p < 2 ^ 64 /\ -400 <= k <= 400 /\
  (Qabs (inject_Z (frac p) - power 10 k * power 2 (- fexp p)) <= 1 # 2)%Q.
Proof.
  intros E. pose proof (range_ok_spec _ _ range_ok_true e ltac:(lia)) as H. unfold power_ok in H. destruct (find_cachedpow10 e) as [[p k]| | |]; try discriminate.
  rewrite !andb_true_iff in H. destruct H as [[[[[[H1 H2] H3] H4] H5] H6] H7]. exists p, k. split; [reflexivity|]. apply Qle_bool_iff in H7. repeat split; try lia. exact H7.
Qed.
