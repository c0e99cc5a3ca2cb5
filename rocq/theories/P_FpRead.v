(** The reference reader rounds correctly; what it reads back of printed doubles. *)
From Coq Require Import ZArith List Bool QArith Qabs Qpower Lqa Lia ZifyBool ZifyNat.
From Verif Require Import Base M_Types M_Conv S_Conv S_Json M_Fpconv S_Fpconv S_FpRead S_JsonText P_FpDigits P_FpScale P_FpNear P_FpEmit.
Import ListNotations.
Open Scope Z_scope.

Definition stops (t : bytes) : Prop := match t with c :: _ => digitb c = false | [] => True end.
Lemma span_digits a b : Forall is_digit a -> stops b -> span (a ++ b) = (a, b).
Proof.
  induction 1 as [|c r D _ IH]; intros H; cbn [app].
  - destruct b as [|c r]; [reflexivity|]. cbn in H. cbn [span]. now rewrite H.
  - cbn [span]. replace (digitb c) with true by (unfold digitb, is_digit in *; lia). now rewrite IH.
Qed.
Lemma cut_no c t : (match t with x :: _ => x <> c | [] => True end) -> cut c t = (false, t).
Proof. destruct t as [|x r]; [reflexivity|]. intros H. cbn. now replace (x =? c) with false by lia. Qed.
Lemma cut_yes c t : cut c (c :: t) = (true, t).
Proof. cbn. now rewrite Z.eqb_refl. Qed.
Lemma parse_spec t neg q : decimal_text t neg q -> exists q', parse_decimal t = Some (neg, q') /\ (q' == q)%Q.
Proof.
  intros (i & p & f & x & e & -> & [Ni Di] & Fr & Ex & Q). unfold parse_decimal. destruct i as [|i0 ir]; [contradiction|].
  assert (I0 : is_digit i0) by now inversion Di. unfold is_digit in I0.
  assert (C1 : cut 45 ((if neg then [45] else []) ++ (i0 :: ir) ++ p ++ x) = (neg, (i0 :: ir) ++ p ++ x)) by (destruct neg; [apply cut_yes|apply cut_no; cbn; lia]).
  rewrite C1. cbv beta iota. assert (SX : stops x) by (destruct Ex as [[-> _]|(s & ds & -> & _)]; cbn; auto).
  rewrite span_digits; [|exact Di|destruct Fr as [[-> _]|[-> _]]; [exact SX|reflexivity]]. cbv beta iota.
  assert (HP : exists b : bool, cut 46 (p ++ x) = (b, if b then f ++ x else x) /\ (b = false -> f = []) /\ (b = true -> f <> [] /\ Forall is_digit f)).
  { destruct Fr as [[-> ->]|[-> [Nf Df]]].
    - exists false. split; [apply cut_no; destruct Ex as [[-> _]|(s & ds & -> & _)]; [exact I|cbn; lia]|split; [reflexivity|discriminate]].
    - exists true. split; [apply cut_yes|split; [discriminate|auto]]. }
  destruct HP as (b & EC & B1 & B2). rewrite EC. cbv beta iota.
  match goal with |- context[if b then span ?z else ?w] => replace (if b then span z else w) with (f, x) end.
  2: { destruct b; [|rewrite B1 by reflexivity; reflexivity]. destruct (B2 eq_refl). symmetry. now apply span_digits. }
  assert (TAIL : exists (ex plus minus : bool) ds, (let (ex, t5) := cut 101 x in let (plus, t6) := cut 43 t5 in let (minus, t7) := cut 45 t6 in let (ds, t8) := span t7 in (ex, plus, minus, ds, t8)) = (ex, plus, minus, ds, []) /\
     Bool.eqb ex (negb (isnil ds)) = true /\ plus && minus = false /\ (ex = false -> x = []) /\ (if minus then - dec_value ds else dec_value ds) = e).
  { destruct Ex as [[-> ->]|(s & ds & -> & [Nd Dd] & Y)]; [exists false, false, false, []; repeat split; reflexivity|].
    rewrite cut_yes. destruct ds as [|d0 dr]; [contradiction|]. assert (D0 : is_digit d0) by now inversion Dd. unfold is_digit in D0.
    pose proof (span_digits (d0 :: dr) [] Dd Logic.I) as SP. rewrite app_nil_r in SP.
    destruct Y as [[[->| ->] ->]|[-> ->]].
    - exists true, false, false, (d0 :: dr). cbn [app]. rewrite cut_no by lia. rewrite cut_no by lia. rewrite SP. repeat split; try reflexivity. discriminate.
    - exists true, true, false, (d0 :: dr). cbn [app]. rewrite cut_yes. rewrite cut_no by lia. rewrite SP. repeat split; try reflexivity. discriminate.
    - exists true, false, true, (d0 :: dr). cbn [app]. rewrite (cut_no 43) by lia. rewrite cut_yes. rewrite SP. repeat split; try reflexivity. discriminate. }
  destruct TAIL as (ex & plus & minus & ds & T & T1 & T2 & T3 & T4).
  destruct (cut 101 x) as [ex' t5]. destruct (cut 43 t5) as [plus' t6]. destruct (cut 45 t6) as [minus' t7]. destruct (span t7) as [ds' t8]. injection T as -> -> -> -> ->.
  rewrite T1, T2. cbn [isnil orb negb andb]. replace (b && isnil f) with false by (destruct b; [|reflexivity]; destruct (B2 eq_refl) as [Nf _]; destruct f; [contradiction|reflexivity]).
  replace (negb ex && negb (isnil x)) with false by (destruct ex; [reflexivity|]; rewrite T3 by reflexivity; reflexivity). cbn [orb].
  eexists. split; [reflexivity|]. rewrite T4, Q. reflexivity.
Qed.

Lemma value_lt n m : 0 <= n < m -> (double_value n < double_value m)%Q.
Proof.
  intros H. pose proof (next_value n ltac:(lia)) as E. pose proof (power_pos 2 (expo n) ltac:(lia)). pose proof (value_le (n + 1) m ltac:(lia)). lra.
Qed.
Lemma search_spec q : forall fuel lo hi, 0 <= lo < hi -> hi - lo <= 2 ^ Z.of_nat fuel -> (double_value lo <= q)%Q -> (q < double_value hi)%Q ->
  let n := search fuel q lo hi in lo <= n < hi /\ (double_value n <= q)%Q /\ (q < double_value (n + 1))%Q.
Proof.
  induction fuel as [|k IH]; intros lo hi B W L U; cbn [search].
  - change (2 ^ Z.of_nat 0) with 1 in W. replace hi with (lo + 1) in * by lia. cbn zeta. split; [lia|]. split; assumption.
  - destruct (Z.eq_dec hi (lo + 1)) as [E|E].
    + subst hi. assert (M : (lo + (lo + 1)) / 2 = lo) by (symmetry; apply (Z.div_unique_pos _ 2 lo 1); lia). rewrite M.
      replace (Qle_bool (double_value lo) q) with true by (symmetry; apply Qle_bool_iff; exact L). apply IH; auto. assert (0 < 2 ^ Z.of_nat k) by (apply Z.pow_pos_nonneg; lia). lia.
    + rewrite Nat2Z.inj_succ, Z.pow_succ_r in W by lia. pose proof (Z.div_mod (lo + hi) 2 ltac:(lia)) as DM. pose proof (Z.mod_pos_bound (lo + hi) 2 ltac:(lia)) as MB. set (mid := (lo + hi) / 2) in *.
      destruct (Qle_bool (double_value mid) q) eqn:C.
      * apply Qle_bool_iff in C. destruct (IH mid hi ltac:(lia) ltac:(lia) C U) as (R1 & R2 & R3). cbn zeta. split; [lia|]. split; assumption.
      * assert (C2 : (q < double_value mid)%Q). { apply Qnot_le_lt. intros X. apply Qle_bool_iff in X. congruence. } destruct (IH lo mid ltac:(lia) ltac:(lia) L C2) as (R1 & R2 & R3). cbn zeta. split; [lia|]. split; assumption.
Qed.
Lemma round_spec n q : 0 <= n < too_large -> nearest n q -> (0 <= q)%Q -> round_nearest q = Some n.
Proof.
  intros B NR Q0. unfold round_nearest. assert (TL : (q < double_value too_large)%Q).
  { apply Qnot_le_lt. intros X. specialize (NR too_large ltac:(unfold too_large; lia) ltac:(lia)). pose proof (value_lt n too_large ltac:(lia)). revert NR. apply Qabs_case; intros X1; apply Qabs_case; intros Y1; lra. }
  destruct (Qle_bool (double_value too_large) q) eqn:C; [apply Qle_bool_iff in C; lra|].
  destruct (search_spec q 64 0 too_large) as (R1 & R2 & R3); [unfold too_large; lia|unfold too_large; vm_compute; discriminate|setoid_replace (double_value 0) with 0%Q by reflexivity; exact Q0|exact TL|].
  set (lo := search 64 q 0 too_large) in *. cbn zeta.
  assert (CS : n = lo \/ n = lo + 1).
  { destruct (Z_lt_le_dec n lo) as [X|X].
    - exfalso. specialize (NR lo ltac:(unfold too_large in *; lia) ltac:(lia)). pose proof (value_lt n lo ltac:(lia)). revert NR. apply Qabs_case; intros X1; apply Qabs_case; intros Y1; lra.
    - destruct (Z_lt_le_dec (lo + 1) n) as [Y|Y]; [|lia]. exfalso. specialize (NR (lo + 1) ltac:(unfold too_large in *; lia) ltac:(lia)). pose proof (value_lt (lo + 1) n ltac:(lia)). revert NR. apply Qabs_case; intros X1; apply Qabs_case; intros Y1; lra. }
  assert (RES : (match (q - double_value lo ?= double_value (lo + 1) - q)%Q with Lt => lo | Gt => lo + 1 | Eq => if Z.even lo then lo else lo + 1 end) = n).
  { destruct CS as [E|E].
    - specialize (NR (lo + 1) ltac:(unfold too_large in *; lia) ltac:(lia)). rewrite E in NR. rewrite (Qabs_pos (q - double_value lo)) in NR by lra. rewrite (Qabs_neg (q - double_value (lo + 1))) in NR by lra.
      assert (L : (q - double_value lo < double_value (lo + 1) - q)%Q) by lra. rewrite Qlt_alt in L. rewrite L. auto.
    - specialize (NR lo ltac:(unfold too_large in *; lia) ltac:(lia)). rewrite E in NR. rewrite (Qabs_pos (q - double_value lo)) in NR by lra. rewrite (Qabs_neg (q - double_value (lo + 1))) in NR by lra.
      assert (L : (double_value (lo + 1) - q < q - double_value lo)%Q) by lra. rewrite Qgt_alt in L. rewrite L. auto. }
  rewrite RES. now replace (n <? too_large) with true by lia.
Qed.
Lemma nearest_eq n q q' : (q == q')%Q -> nearest n q -> nearest n q'.
Proof. intros E H m M NE. rewrite <- E. now apply H. Qed.
Lemma decimal_nonneg t neg q : decimal_text t neg q -> (0 <= q)%Q.
Proof.
  intros (i & p & f & x & e & _ & [_ Di] & Fr & _ & Q). rewrite Q. apply Qmult_le_0_compat; [|apply Qlt_le_weak, power_pos; lia]. change 0%Q with (inject_Z 0). apply iZ_le. rewrite dec_rev. apply rval_nonneg, Forall_rev, Forall_app. split; [exact Di|].
  destruct Fr as [[_ ->]|[_ [_ Df]]]; [constructor|exact Df].
Qed.
Theorem ref_reads_nearest : reads_nearest ref_strtod.
Proof.
  intros t neg q n D B NR. unfold ref_strtod. destruct (parse_spec t neg q D) as (q' & -> & E). symmetry in E.
  rewrite (round_spec n q'); [reflexivity|unfold too_large; lia|eapply nearest_eq; eauto|rewrite <- E; eapply decimal_nonneg; eauto].
Qed.

(** ** the whole printer *)
Lemma neg_test bits : 0 <= bits < 2 ^ 64 -> negb (Z.land bits two63 =? 0) = negative bits.
Proof.
  intros B. unfold negative. change two63 with (2 ^ 63). destruct (Z.leb_spec (2 ^ 63) bits) as [H|H].
  - destruct (Z.eqb_spec (Z.land bits (2 ^ 63)) 0) as [E|E]; [|reflexivity]. exfalso. assert (T : Z.testbit (Z.land bits (2 ^ 63)) 63 = true).
    { rewrite Z.land_spec, Z.pow2_bits_true by lia. rewrite andb_true_r. rewrite Z.testbit_odd, Z.shiftr_div_pow2 by lia. replace (bits / 2 ^ 63) with 1; [reflexivity|]. apply (Z.div_unique_pos bits (2 ^ 63) 1 (bits - 2 ^ 63)); lia. }
    rewrite E, Z.bits_0 in T. discriminate.
  - replace (Z.land bits (2 ^ 63)) with 0; [reflexivity|]. symmetry. apply Z.bits_inj'. intros i I. rewrite Z.land_spec, Z.bits_0. destruct (Z.eq_dec i 63) as [->|NE].
    + rewrite Z.testbit_odd, Z.shiftr_div_pow2, Z.div_small by lia. reflexivity.
    + rewrite Z.pow2_bits_false by lia. apply andb_false_r.
Qed.
Lemma nearest_zero : nearest 0 0.
Proof. intros m M NE. pose proof (value_lt 0 m ltac:(lia)) as H. change (double_value 0) with (0 * power 2 (-1074))%Q in *. apply Qabs_case; intros X; apply Qabs_case; intros Y; lra. Qed.
(** the text of a double, its value, and how many digits are after the point *)
Theorem fpconv_spec bits : finite bits -> exists t q b, fpconv_dtoa bits = Ok ((if negative bits then [45] else []) ++ t) /\ zlen t <= (if negative bits then 23 else 24) /\ number_parts t q b /\ nearest (bits mod 2 ^ 63) q
  /\ (b = true -> 0 < bits mod 2 ^ 63 -> exists m, 0 < m < 10 ^ 24 /\ (q == inject_Z m)%Q).
Proof.
  intros F. assert (F' := F). destruct F' as [B FF]. unfold fpconv_dtoa. rewrite neg_test, land_frac, land_exp by lia. set (n := bits mod 2 ^ 63) in *.
  assert (N0 : 0 <= n < 2047 * 2 ^ 52) by (unfold n in *; pose proof (Z.mod_pos_bound bits (2 ^ 63) ltac:(lia)); lia).
  assert (E : bits mod 2 ^ 52 = n mod 2 ^ 52). { unfold n. change (2 ^ 63) with (2 ^ 52 * 2 ^ 11). rewrite Z.rem_mul_r by lia. rewrite Z.mul_comm, Z.mod_add by lia. rewrite Z.mod_mod by lia. reflexivity. }
  rewrite E. pose proof (Z.div_mod n (2 ^ 52) ltac:(lia)) as DM. pose proof (Z.mod_pos_bound n (2 ^ 52) ltac:(lia)) as MB.
  destruct ((n / 2 ^ 52 =? 0) && (n mod 2 ^ 52 =? 0)) eqn:C1.
  - assert (Z0 : n = 0) by lia. exists [48], 0%Q, true. split; [reflexivity|]. split; [destruct (negative bits); vm_compute; discriminate|]. split; [|split; [rewrite Z0; apply nearest_zero|intros _ X; lia]].
    exists [48], [], [], [], 0. split; [reflexivity|]. split; [split; [split; [discriminate|constructor; [unfold is_digit; lia|constructor]]|now left]|]. split; [now left|]. split; [now left|]. split; [reflexivity|discriminate].
  - replace (n / 2 ^ 52 =? 2047) with false by lia. destruct (grisu2_nearest bits n F eq_refl) as (ds & K & EG & G & ND & LN & KB & NR); [lia|]. rewrite EG. cbn [rbind].
    assert (DG : digits (rev ds)). { split; [intros X; apply ND; apply (f_equal (@rev Z)) in X; rewrite rev_involutive in X; exact X|apply Forall_rev, G]. }
    destruct (emit_spec (rev ds) K (negative bits) DG (dig_first ds G ND)) as (t & ET & LT & NP); [rewrite zlen_rev; exact LN|exact KB|]. rewrite ET. cbn [rbind].
    exists t, (inject_Z (rval ds) * power 10 K)%Q, ((0 <=? K) && (K <=? 7)). rewrite rval_dec. rewrite rval_dec in NR. split; [reflexivity|]. split; [exact LT|]. split; [exact NP|]. split; [exact NR|].
    intros K0 _. exists (dec_value (rev ds) * 10 ^ K). pose proof (dig_pos ds G ND) as P. pose proof (rval_lt ds (proj1 G)) as R. rewrite rval_dec in P, R.
    assert (P1 : 0 < 10 ^ K <= 10 ^ 7) by (split; [apply Z.pow_pos_nonneg; lia|apply Z.pow_le_mono_r; lia]). assert (P2 : 10 ^ zlen ds <= 10 ^ 17) by (apply Z.pow_le_mono_r; lia).
    split; [split; [apply Z.mul_pos_pos; lia|]; change (10 ^ 24) with (10 ^ 17 * 10 ^ 7); nia|]. rewrite iZ_mult, <- power_Z by lia. reflexivity.
Qed.
Lemma sign_bits bits : finite bits -> (if negative bits then 2 ^ 63 + bits mod 2 ^ 63 else bits mod 2 ^ 63) = bits.
Proof.
  intros [B _]. unfold negative. destruct (Z.leb_spec (2 ^ 63) bits).
  - rewrite <- (Z.mod_unique_pos bits (2 ^ 63) 1 (bits - 2 ^ 63)); lia.
  - rewrite Z.mod_small; lia.
Qed.

(** ** texts of doubles for the JSON parser *)
Lemma scaled_value d : finite d -> (double_value (d mod 2 ^ 63) == inject_Z (Z.abs (f64_scaled d)) * power 2 (-1074))%Q.
Proof.
  intros [B _]. unfold f64_scaled, f64_exp, f64_man. set (n := d mod 2 ^ 63).
  assert (E : d mod 2 ^ 52 = n mod 2 ^ 52). { unfold n. change (2 ^ 63) with (2 ^ 52 * 2 ^ 11). rewrite Z.rem_mul_r by lia. rewrite Z.mul_comm, Z.mod_add by lia. rewrite Z.mod_mod by lia. reflexivity. }
  assert (X : (d / 2 ^ 52) mod 2048 = n / 2 ^ 52).
  { unfold n. change (2 ^ 63) with (2 ^ 52 * 2048). rewrite Z.rem_mul_r by lia. rewrite (Z.add_comm (d mod _)), Z.mul_comm, Z.div_add_l by lia. rewrite (Z.div_small (d mod 2 ^ 52)); [lia|apply Z.mod_pos_bound; lia]. }
  rewrite E, X. pose proof (Z.mod_pos_bound n (2 ^ 52) ltac:(lia)) as MB. pose proof (Z.div_pos n (2 ^ 52) ltac:(pose proof (Z.mod_pos_bound d (2 ^ 63) ltac:(lia)); lia) ltac:(lia)) as DP. unfold double_value.
  assert (AB : forall (s : bool) m, 0 <= m -> Z.abs (if s then - m else m) = m) by (intros s m; destruct s; lia).
  destruct (Z.eqb_spec (n / 2 ^ 52) 0) as [Z0|Z0].
  - rewrite AB by lia. reflexivity.
  - rewrite AB by (apply Z.mul_nonneg_nonneg; [lia|apply Z.pow_nonneg; lia]). rewrite iZ_mult, <- (power_Z 2 (n / 2 ^ 52 - 1)) by lia. rewrite <- Qmult_assoc, <- power_add by lia. replace (n / 2 ^ 52 - 1 + -1074) with (n / 2 ^ 52 - 1075) by lia.
    rewrite (Z.add_comm (n mod 2 ^ 52)). reflexivity.
Qed.
Lemma unit_power : (power 2 (-1074) * inject_Z fp_unit == 1)%Q.
Proof. unfold fp_unit. rewrite <- power_Z by lia. rewrite <- power_add by lia. reflexivity. Qed.
Lemma not_whole d m : finite d -> whole d = None -> Z.abs (f64_scaled d) < two63 * fp_unit -> (double_value (d mod 2 ^ 63) == inject_Z m)%Q -> False.
Proof.
  intros F W L E. rewrite scaled_value in E by exact F. assert (U : 0 < fp_unit) by (unfold fp_unit; apply Z.pow_pos_nonneg; lia).
  assert (A : Z.abs (f64_scaled d) = m * fp_unit).
  { apply inject_Z_injective. rewrite iZ_mult. rewrite <- E. rewrite <- Qmult_assoc, unit_power. ring. }
  destruct F as [B FF]. assert (NE : f64_exp d <> 2047). { unfold f64_exp. intros X. pose proof (Z.mod_pos_bound d (2 ^ 63) ltac:(lia)).
    assert (Y : (d / 2 ^ 52) mod 2048 = (d mod 2 ^ 63) / 2 ^ 52).
    { change (2 ^ 63) with (2 ^ 52 * 2048). rewrite Z.rem_mul_r by lia. rewrite (Z.add_comm (d mod _)), Z.mul_comm, Z.div_add_l by lia. rewrite (Z.div_small (d mod 2 ^ 52)); [lia|apply Z.mod_pos_bound; lia]. }
    rewrite X in Y. pose proof (Z.div_mod (d mod 2 ^ 63) (2 ^ 52) ltac:(lia)). pose proof (Z.mod_pos_bound (d mod 2 ^ 63) (2 ^ 52) ltac:(lia)). lia. }
  assert (DV : exists k, f64_scaled d = k * fp_unit) by (destruct (Z.abs_spec (f64_scaled d)) as [[_ Y]|[_ Y]]; [exists m|exists (- m)]; lia). destruct DV as [k DV].
  unfold whole in W. rewrite DV, Z.mod_mul, Z.div_mul in W by lia. rewrite DV in L. rewrite Z.abs_mul, (Z.abs_eq fp_unit) in L by lia.
  assert (K : Z.abs k < two63) by (apply (Z.mul_lt_mono_pos_r fp_unit); assumption).
  replace (f64_exp d =? 2047) with false in W by lia. replace (Z.abs k <=? two63) with true in W by lia. discriminate.
Qed.
(** small doubles *)
Lemma small_value d : finite d -> whole d = None -> Z.abs (f64_scaled d) < two63 * fp_unit -> (double_value (d mod 2 ^ 63) < power 2 53)%Q.
Proof.
  intros F W L. destruct (Z_lt_le_dec (d mod 2 ^ 63) (1076 * 2 ^ 52)) as [H|H].
  - pose proof (Z.mod_pos_bound d (2 ^ 63) ltac:(lia)). pose proof (value_lt _ (1076 * 2 ^ 52) (conj (proj1 H0) H)) as V. change (double_value (1076 * 2 ^ 52)) with (inject_Z (0 + 2 ^ 52) * power 2 1)%Q in V. exact V.
  - exfalso. pose proof (Z.mod_pos_bound d (2 ^ 63) ltac:(lia)) as B. set (n := d mod 2 ^ 63) in *.
    apply (not_whole d ((n mod 2 ^ 52 + 2 ^ 52) * 2 ^ (n / 2 ^ 52 - 1075)) F W L). fold n. unfold double_value. pose proof (Z.div_le_lower_bound n (2 ^ 52) 1076 ltac:(lia) ltac:(lia)).
    replace (n / 2 ^ 52 =? 0) with false by lia. rewrite iZ_mult, <- (power_Z 2 (n / 2 ^ 52 - 1075)) by lia. reflexivity.
Qed.
Lemma digits_numchar l : Forall is_digit l -> Forall number_char l.
Proof. apply Forall_impl. intros a H. now left. Qed.
Lemma parts_numchar t q b : number_parts t q b -> Forall number_char t /\ exists c r, t = c :: r /\ is_digit c.
Proof.
  intros (i & p & f & x & e & -> & [[Ni Di] _] & F & X & _ & _). split.
  - apply Forall_app. split; [now apply digits_numchar|]. apply Forall_app. split.
    + destruct F as [[-> _]|[-> [_ Df]]]; [constructor|]. constructor; [right; cbn; auto|now apply digits_numchar].
    + destruct X as [[-> _]|(s & ds & -> & [_ Dd] & Y)]; [constructor|]. constructor; [right; cbn; tauto|]. apply Forall_app. split; [|now apply digits_numchar].
      destruct Y as [[[->| ->] _]|[-> _]]; repeat constructor; right; cbn; tauto.
  - destruct i as [|c r]; [contradiction|]. exists c, (r ++ p ++ x). split; [reflexivity|]. now inversion Di.
Qed.
Lemma parts_not_digits t q : number_parts t q false -> ~ digits t.
Proof.
  intros (i & p & f & x & e & -> & _ & F & X & _ & N) [_ D]. apply Forall_app in D. destruct D as [_ D]. specialize (N eq_refl).
  destruct F as [[-> _]|[-> _]]; [destruct X as [[-> _]|(s & ds & -> & _)]; [now apply N|]|]; inversion D as [|? ? H _]; unfold is_digit in H; lia.
Qed.
(** large doubles *)
Lemma large_value d q m : finite d -> 2 ^ 80 * fp_unit <= Z.abs (f64_scaled d) -> nearest (d mod 2 ^ 63) q -> (q == inject_Z m)%Q -> 10 ^ 24 <= m.
Proof.
  intros F L NR Q. destruct (Z_lt_le_dec m (10 ^ 24)) as [M|M]; [|exact M]. exfalso. set (n := d mod 2 ^ 63) in *.
  assert (V : (power 2 80 <= double_value n)%Q).
  { unfold n. rewrite scaled_value by exact F. apply iZ_le in L. rewrite iZ_mult, <- power_Z in L by lia. pose proof unit_power as U. pose proof (power_pos 2 (-1074) ltac:(lia)) as PP.
    setoid_replace (power 2 80) with (power 2 80 * inject_Z fp_unit * power 2 (-1074))%Q by (transitivity (power 2 80 * (power 2 (-1074) * inject_Z fp_unit))%Q; [rewrite U; ring|ring]).
    apply Qmult_le_compat_r; [exact L|lra]. }
  set (k := 1103 * 2 ^ 52 - 1).
  assert (KV : (double_value k < power 2 80)%Q) by (vm_compute; reflexivity). assert (KQ : (inject_Z (10 ^ 24) < double_value k)%Q) by (vm_compute; reflexivity).
  assert (MQ : (inject_Z m <= inject_Z (10 ^ 24))%Q) by (apply iZ_le; lia).
  specialize (NR k ltac:(unfold k; lia)). rewrite Q in NR. assert (NE : k <> n) by (intros E; rewrite E in KV; lra). specialize (NR NE). revert NR. apply Qabs_case; intros X1; apply Qabs_case; intros Y1; lra.
Qed.
Theorem fpconv_prints_well x d : finite d -> whole d = None -> (Z.abs (f64_scaled d) < two63 * fp_unit \/ 2 ^ 80 * fp_unit <= Z.abs (f64_scaled d)) ->
  fpconv_dtoa d = Ok (x_dtoa x d) -> reads_nearest (x_strtod x) -> prints_well x d /\ js_number (x_dtoa x d).
Proof.
  intros F W L E R. destruct (fpconv_spec d F) as (t & q & b & ET & LT & NP & NR & WH). rewrite E in ET. injection ET as ET.
  assert (N0 : 0 < d mod 2 ^ 63).
  { destruct L as [L|L].
    2: { pose proof (Z.mod_pos_bound d (2 ^ 63) ltac:(lia)) as MB. destruct (Z.eq_dec (d mod 2 ^ 63) 0) as [Z0|Z0]; [|lia]. exfalso. apply iZ_le in L.
      pose proof (scaled_value d F) as S. rewrite Z0 in S. pose proof (power_pos 2 (-1074) ltac:(lia)) as PP. change (double_value 0) with (0 * power 2 (-1074))%Q in S.
      apply Qmult_inj_r in S; [|lra]. rewrite <- S, iZ_mult, <- power_Z in L by lia. pose proof (power_pos 2 80 ltac:(lia)). assert (0 < inject_Z fp_unit)%Q by (unfold fp_unit; rewrite <- power_Z by lia; apply power_pos; lia). nra. }
    pose proof (Z.mod_pos_bound d (2 ^ 63) ltac:(lia)) as MB. destruct (Z.eq_dec (d mod 2 ^ 63) 0) as [Z0|Z0]; [|lia]. exfalso. apply (not_whole d 0 F W L). rewrite Z0. reflexivity. }
  assert (B : b = false).
  { destruct b; [|reflexivity]. exfalso. destruct (WH eq_refl N0) as (m & M & Q). destruct L as [L|L]; [|pose proof (large_value d q m F L NR Q); lia]. apply (not_whole d m F W L). apply (nearest_int _ q m); auto; [destruct F; lia|lia|]. now apply small_value. }
  subst b. rewrite ET. split; [|eapply parts_js; exact NP]. destruct (parts_numchar t q false NP) as [NC (c & r & TC & DC)]. unfold prints_well. rewrite ET. split; [|split; [|split; [|split]]].
  - apply Forall_app. split; [|exact NC]. destruct (negative d); [constructor; [right; cbn; tauto|constructor]|constructor].
  - destruct (negative d); [exists 45, t; split; [reflexivity|now right]|exists c, r; split; [exact TC|now left]].
  - intros [D|(s & Es & D)].
    + destruct (negative d); [destruct D as [_ D]; inversion D as [|? ? H _]; unfold is_digit in H; lia|]. now apply (parts_not_digits t q NP).
    + destruct (negative d); [injection Es as ->; now apply (parts_not_digits s q NP)|]. rewrite TC in Es. cbn in Es. injection Es as -> ->. unfold is_digit in DC. lia.
  - rewrite zlen_app. destruct (negative d); [change (zlen [45]) with 1|change (zlen (@nil Z)) with 0]; lia.
  - rewrite (R _ (negative d) q (d mod 2 ^ 63)); [f_equal; now apply sign_bits|eapply parts_decimal; exact NP| |exact NR].
    destruct F as [_ FF]. pose proof (Z.mod_pos_bound d (2 ^ 63) ltac:(lia)). lia.
Qed.
