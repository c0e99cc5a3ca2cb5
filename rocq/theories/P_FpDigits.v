(** The digit generation of the double printer stays between the boundaries it is given. *)
From Coq Require Import ZArith List Bool Lia ZifyBool ZifyNat.
From Verif Require Import Base S_Conv M_Fpconv.
Import ListNotations.
Open Scope Z_scope.

(** ** digits, last one first *)
Fixpoint rval (ds : bytes) : Z := match ds with [] => 0 | d :: r => rval r * 10 + (d - 48) end.
Lemma rval_dec ds : rval ds = dec_value (rev ds).
Proof. unfold dec_value. induction ds as [|d r IH]; cbn [rval rev]; [reflexivity|]. rewrite fold_left_app, IH. reflexivity. Qed.
Definition dig (ds : bytes) : Prop := Forall is_digit ds /\ (ds = [] \/ 10 ^ (zlen ds - 1) <= rval ds).
Lemma zlen_cons {A} (a : A) l : zlen (a :: l) = zlen l + 1.
Proof. unfold zlen. cbn [length]. lia. Qed.
Lemma zlen_nonneg {A} (l : list A) : 0 <= zlen l.
Proof. unfold zlen. lia. Qed.
Lemma pow10_pos n : 0 <= n -> 0 < 10 ^ n.
Proof. intros. apply Z.pow_pos_nonneg; lia. Qed.
Lemma pow10_S n : 0 <= n -> 10 ^ (n + 1) = 10 * 10 ^ n.
Proof. intros. rewrite Z.add_1_r, Z.pow_succ_r by lia. reflexivity. Qed.
Lemma rval_nonneg ds : Forall is_digit ds -> 0 <= rval ds.
Proof. induction 1 as [|d r H _ IH]; cbn [rval]; [lia|]. unfold is_digit in H. lia. Qed.
Lemma dig_len ds : dig ds -> rval ds < 10 ^ 17 -> zlen ds <= 17.
Proof.
  intros [_ [->|H]] L; [cbn; lia|]. destruct (Z_lt_le_dec 17 (zlen ds)) as [X|X]; [|exact X].
  assert (10 ^ 17 <= 10 ^ (zlen ds - 1)) by (apply Z.pow_le_mono_r; lia). lia.
Qed.
Lemma dig_pos ds : dig ds -> ds <> [] -> 1 <= rval ds.
Proof. intros [_ [H|H]] N; [contradiction|]. assert (0 < 10 ^ (zlen ds - 1)); [|lia]. apply pow10_pos. destruct ds; [contradiction|]. rewrite zlen_cons. pose proof (zlen_nonneg ds). lia. Qed.
Lemma dig_cons d ds : dig ds -> is_digit d -> (ds = [] -> 49 <= d) -> dig (d :: ds).
Proof.
  intros G D N. pose proof (dig_pos ds G) as P. destruct G as [F G]. split; [now constructor|]. right. rewrite zlen_cons. replace (zlen ds + 1 - 1) with (zlen ds) by lia. cbn [rval]. unfold is_digit in D.
  destruct ds as [|x r]; [cbn; specialize (N eq_refl); lia|]. destruct G as [G|G]; [discriminate|].
  replace (zlen (x :: r)) with (zlen (x :: r) - 1 + 1) by lia. rewrite pow10_S; [lia|]. rewrite zlen_cons. pose proof (zlen_nonneg r). lia.
Qed.
(** the last digit, decremented *)
Lemma dig_less d n ds : dig (d + 48 :: ds) -> 0 <= n <= d -> (ds = [] -> n < d) -> dig (d + 48 - n :: ds).
Proof.
  intros [F G] N E. inversion F as [|? ? H1 H2]; subst. destruct ds as [|x r].
  - apply dig_cons; [split; [constructor|now left]| |]; unfold is_digit in *; [lia|]. intros _. specialize (E eq_refl). lia.
  - destruct G as [G|G]; [discriminate|]. rewrite zlen_cons in G. split; [constructor; [unfold is_digit in *; lia|exact H2]|]. right. rewrite zlen_cons. cbn [rval] in G |- *. unfold is_digit in H1.
    replace (zlen (x :: r) + 1 - 1) with (zlen r + 1) in * by (rewrite zlen_cons; lia). pose proof (zlen_nonneg r). rewrite pow10_S in * by lia. lia.
Qed.

(** ** rounding *)
Lemma u64_id n : 0 <= n < two64 -> u64 n = n.
Proof. intros. unfold u64. now apply Z.mod_small. Qed.
Lemma round_loop_spec delta kappa fr : 0 < kappa -> delta < two64 -> forall fuel rem n, 0 <= rem <= delta -> delta < rem + Z.of_nat fuel * kappa ->
  exists m, round_loop fuel delta rem kappa fr n = Ok (n + m) /\ 0 <= m /\ rem + m * kappa <= delta.
Proof.
  intros K D. induction fuel as [|f IH]; intros rem n R L; [lia|]. cbn [round_loop].
  destruct ((rem <? fr) && (kappa <=? u64 (delta - rem)) && ((u64 (rem + kappa) <? fr) || (u64 (rem + kappa - fr) <? u64 (fr - rem)))) eqn:B.
  - apply andb_true_iff in B as [B _]. apply andb_true_iff in B as [_ B]. rewrite u64_id in B by lia. rewrite (u64_id (rem + kappa)) by lia.
    destruct (IH (rem + kappa) (n + 1)) as (m & E & M1 & M2); [lia|lia|]. exists (m + 1). split; [rewrite E; f_equal; lia|]. split; [lia|]. nia.
  - exists 0. split; [f_equal; lia|]. split; lia.
Qed.
(** the last digit [d] stays one *)
Lemma round_digit_spec d ds delta kappa fr rem : 0 < kappa -> 0 <= rem <= delta -> delta < two64 -> delta <= rem + d * kappa -> (ds = [] -> delta < rem + d * kappa) ->
  dig (d + 48 :: ds) ->
  exists n, round_digit (d + 48 :: ds) delta rem kappa fr = Ok (d + 48 - n :: ds) /\ dig (d + 48 - n :: ds) /\ 0 <= n /\ rem + n * kappa <= delta.
Proof.
  intros K R D U E G. assert (H : 0 <= d <= 9) by (destruct G as [F _]; inversion F as [|? ? H1 _]; unfold is_digit in H1; lia).
  destruct (round_loop_spec delta kappa fr K D 12 rem 0 R) as (n & En & N1 & N2); [change (Z.of_nat 12) with 12; nia|].
  unfold round_digit. rewrite En. cbn [rbind]. replace (0 + n) with n by lia. exists n. split; [reflexivity|]. split; [|split; [exact N1|exact N2]].
  apply dig_less; [exact G|nia|]. intros X. specialize (E X). nia.
Qed.

Lemma put_digit_spec ds d : dig ds -> 0 <= d <= 9 -> zlen ds <= 17 -> exists ds', put_digit ds d = Ok ds' /\ dig ds' /\ rval ds' = rval ds * 10 + d /\
  (ds' = [] /\ ds = [] /\ d = 0 \/ ds' = d + 48 :: ds).
Proof.
  intros G D L. unfold put_digit. destruct ((negb (d =? 0)) || negb (zlen ds =? 0)) eqn:B.
  - replace (zlen ds <? 18) with true by lia. exists (d + 48 :: ds). split; [reflexivity|]. split; [|split; [cbn [rval]; lia|now right]]. apply dig_cons; [exact G|unfold is_digit; lia|].
    intros ->. change (zlen (@nil Z)) with 0 in B. lia.
  - destruct ds as [|x r]; [|rewrite zlen_cons in B; pose proof (zlen_nonneg r); lia]. assert (d = 0) by lia. subst d. exists []. split; [reflexivity|]. split; [exact G|]. split; [reflexivity|]. now left.
Qed.

(** ** digits before and behind the point *)
Lemma mul_ge1 a x : 1 <= a -> 0 <= x -> x <= a * x.
Proof. nia. Qed.
Section Generate.
Variables (one U L wf : Z).
Hypothesis (O1 : 2 ^ 32 <= one <= 2 ^ 60) (L1 : 1 <= L) (U1 : U < two64) (L2 : L < U) (S1 : U <= 10 ^ 16 * (U - L)).
Local Notation delta := (U - L).

Lemma int_spec part2 : 0 <= part2 < one -> forall steps i ds part1, (i + steps = 20)%nat -> (steps <= 10)%nat -> dig ds -> 0 <= part1 < 10 ^ Z.of_nat steps ->
  U = (rval ds * 10 ^ Z.of_nat steps + part1) * one + part2 -> delta < part1 * one + part2 -> delta < 10 ^ Z.of_nat steps * one ->
  exists r, int_digits steps i one wf delta part1 part2 ds = Ok r /\
  match r with
  | inl ds => dig ds /\ U = rval ds * one + part2 /\ delta < part2
  | inr (ds, k) => 0 <= k <= 10 /\ dig ds /\ ds <> [] /\ zlen ds <= 17 /\ L <= rval ds * 10 ^ k * one <= U
  end.
Proof.
  intros P2. induction steps as [|k IH]; intros i ds part1 Hi Hs G P1 E R T; cbn [int_digits].
  - change (10 ^ Z.of_nat 0) with 1 in *. exists (inl ds). split; [reflexivity|]. split; [exact G|]. split; [rewrite E; assert (part1 = 0) by lia; subst; ring|]. nia.
  - assert (Ht : tens i = 10 ^ Z.of_nat k) by (unfold tens; f_equal; lia). rewrite Ht. set (p := 10 ^ Z.of_nat k) in *.
    assert (Hp : 0 < p) by (apply pow10_pos; lia). assert (Hp' : p <= 10 ^ 9) by (apply Z.pow_le_mono_r; lia).
    assert (HS : 10 ^ Z.of_nat (S k) = 10 * p) by (unfold p; rewrite <- pow10_S by lia; f_equal; lia). rewrite HS in *.
    pose proof (Z.div_mod part1 p ltac:(lia)) as DM. pose proof (Z.mod_pos_bound part1 p Hp) as MB. set (d := part1 / p) in *. set (r := part1 mod p) in *.
    assert (Hd : 0 <= d <= 9) by (split; [apply Z.div_pos; lia|apply Z.lt_succ_r, Z.div_lt_upper_bound; lia]).
    assert (Hu : u32 d = d) by (unfold u32; apply Z.mod_small; unfold two32; lia). rewrite Hu.
    assert (G0 : 0 <= rval ds) by (apply rval_nonneg; apply G).
    (* the number with the new digit *)
    assert (V : (rval ds * 10 + d) * p * one <= U) by (rewrite E, DM; nia).
    assert (V2 : rval ds * 10 + d < 10 ^ 17).
    { assert (X : (rval ds * 10 + d) * (p * one) < 10 ^ 17 * (p * one)) by (change (10 ^ 17) with (10 * 10 ^ 16); nia). nia. }
    assert (Hl : zlen ds <= 17) by (apply dig_len; [exact G|lia]).
    destruct (put_digit_spec ds d G Hd Hl) as (ds' & Ep & G' & V' & C). rewrite Ep. cbn [rbind].
    assert (Hr : u64 (part1 - d * p) = r) by (rewrite u64_id; unfold two64; lia). rewrite Hr.
    assert (Q : r * one + part2 = U - rval ds' * p * one) by (rewrite E, V', DM; ring).
    assert (Q0 : 0 <= r * one + part2) by nia.
    assert (Q1 : r * one + part2 <= U) by (rewrite Q; assert (0 <= rval ds' * p * one) by (rewrite V'; nia); lia).
    rewrite (u64_id (r * one)), (u64_id (r * one + part2)) by nia.
    destruct (Z.leb_spec (r * one + part2) delta) as [B|B].
    + destruct C as [(-> & -> & D0)|C]; [cbn [rval] in Q; lia|]. subst ds'.
      assert (PO0 : 0 < p * one) by (apply Z.mul_pos_pos; lia).
      assert (PO : p * one <= U).
      { assert (X : 1 <= rval (d + 48 :: ds)) by (apply dig_pos; [exact G'|discriminate]). pose proof (mul_ge1 _ (p * one) X ltac:(lia)) as Y. rewrite Z.mul_assoc in Y. lia. }
      rewrite (u64_id (p * one)) by lia.
      assert (E0 : part1 * one + part2 = r * one + part2 + d * (p * one)) by (rewrite DM; ring).
      destruct (round_digit_spec d ds delta (p * one) wf (r * one + part2)) as (n & En & Gn & N1 & N2); [lia|lia|lia|lia|lia|exact G'|].
      rewrite En. cbn [rbind]. eexists. split; [reflexivity|]. cbn beta iota. split; [lia|]. split; [exact Gn|]. split; [discriminate|].
      cbn [rval] in V' |- *. fold p. assert (W : (rval ds * 10 + (d + 48 - n - 48)) * p * one = U - (r * one + part2) - n * (p * one)) by (rewrite Q; cbn [rval]; ring).
      split; [|rewrite W; nia]. apply dig_len; [exact Gn|]. cbn [rval]. lia.
    + apply IH; [lia|lia|exact G'|lia|rewrite E, V', DM; ring|exact B|]. pose proof (Z.mul_le_mono_nonneg_r (r + 1) p one ltac:(lia) ltac:(lia)). lia.
Qed.

Lemma frac_digits_eq i p k ds D : frac_digits i one wf D p k ds =
  let part2 := u64 (p * 10) in let delta := u64 (D * 10) in
  let* digits := put_digit ds (u32 (part2 / one)) in
  if part2 mod one <? delta then let* ds := round_digit digits delta (part2 mod one) one (u64 (wf * tens i)) in Ok (ds, k - 1)
  else match i with O => UB UbOob | S i' => frac_digits i' one wf delta (part2 mod one) (k - 1) digits end.
Proof. destruct i; reflexivity. Qed.
Lemma frac_spec : forall i ds part2 j, (i + j = 18)%nat -> dig ds -> 0 <= part2 < one -> U * 10 ^ Z.of_nat j = rval ds * one + part2 -> delta * 10 ^ Z.of_nat j <= part2 ->
  exists ds' k, frac_digits i one wf (delta * 10 ^ Z.of_nat j) part2 (- Z.of_nat j) ds = Ok (ds', - k) /\ 0 < k <= 19 /\ dig ds' /\ ds' <> [] /\ zlen ds' <= 17 /\
  L * 10 ^ k <= rval ds' * one <= U * 10 ^ k.
Proof.
  induction i as [i IH] using lt_wf_ind. intros ds part2 j Hij G P2 E R.
  assert (Hj : 0 < 10 ^ Z.of_nat j) by (apply pow10_pos; lia).
  assert (HS : 10 ^ (Z.of_nat j + 1) = 10 ^ Z.of_nat j * 10) by (rewrite pow10_S by lia; ring).
  rewrite frac_digits_eq. set (q := 10 ^ Z.of_nat j) in *.
  assert (DQ : 0 < delta * q) by (apply Z.mul_pos_pos; lia).
  rewrite (u64_id (part2 * 10)), (u64_id (delta * q * 10)) by (unfold two64; lia). cbv zeta.
  pose proof (Z.div_mod (part2 * 10) one ltac:(lia)) as DM. pose proof (Z.mod_pos_bound (part2 * 10) one ltac:(lia)) as MB. set (d := part2 * 10 / one) in *. set (r := (part2 * 10) mod one) in *.
  assert (Hd : 0 <= d <= 9) by (split; [apply Z.div_pos; lia|apply Z.lt_succ_r, Z.div_lt_upper_bound; lia]).
  assert (Hu : u32 d = d) by (unfold u32; apply Z.mod_small; unfold two32; lia). rewrite Hu.
  assert (G0 : 0 <= rval ds) by (apply rval_nonneg; apply G).
  assert (V : (rval ds * 10 + d) * one + r = U * q * 10) by (rewrite E; lia).
  assert (V2 : rval ds * 10 + d < 10 ^ 17).
  { assert (X : (rval ds * 10 + d) * one <= 10 ^ 16 * (delta * q * 10)).
    { assert (X1 : U * (q * 10) <= 10 ^ 16 * delta * (q * 10)) by (apply Z.mul_le_mono_nonneg_r; lia). lia. }
    assert (X2 : (rval ds * 10 + d) * one < 10 ^ 17 * one) by (change (10 ^ 17) with (10 * 10 ^ 16); lia). apply Z.mul_lt_mono_pos_r in X2; lia. }
  assert (Hl : zlen ds <= 17) by (apply dig_len; [exact G|lia]).
  destruct (put_digit_spec ds d G Hd Hl) as (ds' & Ep & G' & V' & C). rewrite Ep. cbn [rbind].
  assert (LU : delta * q * 10 < U * q * 10) by nia.
  destruct (Z.ltb_spec r (delta * q * 10)) as [B|B].
  - destruct C as [(-> & -> & D0)|C]; [cbn [rval] in V; lia|]. subst ds'.
    destruct (round_digit_spec d ds (delta * q * 10) one (u64 (wf * tens i)) r) as (n & En & Gn & N1 & N2); [lia|lia|unfold two64; lia|lia| |exact G'|].
    { intros ->. cbn [rval] in V. lia. }
    rewrite En. cbn [rbind]. exists (d + 48 - n :: ds), (Z.of_nat j + 1). split; [do 2 f_equal; lia|]. split; [lia|]. split; [exact Gn|]. split; [discriminate|].
    cbn [rval]. rewrite HS. split; [apply dig_len; [exact Gn|cbn [rval]; lia]|].
    assert (W : (rval ds * 10 + (d + 48 - n - 48)) * one = U * q * 10 - r - n * one) by lia. rewrite W. pose proof (Z.mul_nonneg_nonneg n one N1 ltac:(lia)). lia.
  - destruct i as [|i].
    + exfalso. assert (j = 18%nat) by lia. subst j. assert (q = 10 ^ 18) by reflexivity. lia.
    + replace (- Z.of_nat j - 1) with (- Z.of_nat (S j)) by lia. replace (delta * q * 10) with (delta * 10 ^ Z.of_nat (S j)) in * by (replace (Z.of_nat (S j)) with (Z.of_nat j + 1) by lia; rewrite HS; ring).
      apply IH; [lia|lia|exact G'|exact MB| |exact B]. replace (Z.of_nat (S j)) with (Z.of_nat j + 1) by lia. rewrite HS, V'. lia.
Qed.

Lemma generate_spec w K p : one = 2 ^ p -> 32 <= p <= 60 -> u64 (U - w) = wf ->
  exists ds k, generate_digits (mkFp w (- p)) (mkFp U (- p)) (mkFp L (- p)) K = Ok (rev ds, K + k) /\ dig ds /\ ds <> [] /\ zlen ds <= 17 /\
  ((0 <= k <= 10 /\ L <= rval ds * 10 ^ k * one <= U) \/ (-19 <= k < 0 /\ L * 10 ^ (- k) <= rval ds * one <= U * 10 ^ (- k))).
Proof.
  intros Ho Hp Hw. unfold generate_digits. cbn [frac fexp]. replace ((0 <? - p) || (- p <=? -64)) with false by lia. rewrite Hw, (u64_id delta) by (unfold two64 in *; lia). rewrite Z.opp_involutive, <- Ho.
  pose proof (Z.div_mod U one ltac:(lia)) as DM. pose proof (Z.mod_pos_bound U one ltac:(lia)) as MB.
  assert (P1 : 0 <= U / one < 2 ^ 32) by (split; [apply Z.div_pos; lia|apply Z.div_lt_upper_bound; [lia|unfold two64 in U1; nia]]).
  destruct (int_spec (U mod one) MB 10 10 [] (U / one)) as (r & Er & Hr); [reflexivity|lia|split; [constructor|now left]|change (10 ^ Z.of_nat 10) with 10000000000; lia|cbn [rval]; lia|lia| |].
  { change (10 ^ Z.of_nat 10) with 10000000000. unfold two64 in U1. lia. }
  rewrite Er. cbn [rbind]. destruct r as [ds|[ds k]].
  - destruct Hr as (G & EU & DR). destruct (frac_spec 18 ds (U mod one) 0) as (ds' & k & Ef & Hk & G' & N & Hl & V); [reflexivity|exact G|exact MB|change (10 ^ Z.of_nat 0) with 1; lia|change (10 ^ Z.of_nat 0) with 1; lia|].
    change (10 ^ Z.of_nat 0) with 1 in Ef. rewrite Z.mul_1_r in Ef. change (- Z.of_nat 0) with 0 in Ef. rewrite Ef. cbn [rbind]. exists ds', (- k). split; [reflexivity|].
    split; [exact G'|]. split; [exact N|]. split; [exact Hl|]. right. rewrite Z.opp_involutive. split; [lia|exact V].
  - destruct Hr as (Hk & G & N & Hl & V). cbn [rbind]. exists ds, k. split; [reflexivity|]. split; [exact G|]. split; [exact N|]. split; [exact Hl|]. left. split; [exact Hk|exact V].
Qed.
End Generate.
