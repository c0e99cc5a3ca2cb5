(** Numbers pasted into float, double and long double. *)
From Coq Require Import ZArith List Bool Lia ZifyBool ZifyNat.
From Verif Require Import Base Lemmas M_Types M_Conv M_TpTools S_Round M_LongDouble P_Float P_Paste P_Round.
Import ListNotations.
Open Scope Z_scope.

Lemma paste_int_fp x t n : int_or_bool t -> in_range t n -> paste_num x TFP64 (val_int t n) = Ok (f64_of_int n) /\ paste_num x TFP32 (val_int t n) = Ok (f32_of_int n).
Proof.
  intros Ht Hr. destruct (in_range_64 t n Ht Hr) as (B & Bs & Bu).
  assert (X : forall n', n' = n -> (f64_of_int n' = f64_of_int n /\ f32_of_int n' = f32_of_int n)) by (intros n' ->; split; reflexivity).
  unfold int_or_bool in Ht. repeat destruct Ht as [<-|Ht]; try destruct Ht; unfold paste_num, apply_or_throw, apply_type;
    cbn [v_type val_int ty_eqb ty_num is_scalar negb andb orb Z.eqb Pos.eqb Z.ltb Z.compare Pos.compare Pos.compare_cont signed_ty overflows_i64 overflows_u64 is_fp rbind];
    cbn [signed_ty] in Bs, Bu;
    try (rewrite v_i64_val_int by (unfold_words; cbn in Hr; lia)); try (rewrite raw_val_int by (unfold_words; lia)); try (split; reflexivity).
  unfold in_range in Hr. cbn in Hr. rewrite v_i64_val_int by (unfold_words; lia). split; reflexivity.
Qed.
Lemma int_nearest x t n : int_or_bool t -> in_range t n ->
  (exists r, paste_num x TFP64 (val_int t n) = Ok r /\ nearest64 (n * 2 ^ 1074) r) /\ (exists r, paste_num x TFP32 (val_int t n) = Ok r /\ nearest32 (n * 2 ^ 1074) r).
Proof.
  intros Ht Hr. destruct (in_range_64 t n Ht Hr) as (B & _). destruct (paste_int_fp x t n Ht Hr) as [A C]. assert (Z.abs n <= 2 ^ 64) by (change (2 ^ 64) with two64; unfold_words; lia).
  split; [exists (f64_of_int n)|exists (f32_of_int n)]; (split; [assumption|]); [now apply f64_of_int_near|now apply f32_of_int_near].
Qed.
(** nearest and representable: equal *)
Lemma nearest64_exact z r y : nearest64 z r -> finite64 y -> f64_scaled y = z -> f64_scaled r = z.
Proof. intros [_ N] Y E. destruct (N y Y) as [H _]. lia. Qed.
Lemma nearest32_exact z r y : nearest32 z r -> finite32 y -> f32_scaled y = z -> f32_scaled r = z.
Proof. intros [_ N] Y E. destruct (N y Y) as [H _]. lia. Qed.
Lemma int64_exact n : Z.abs n <= 2 ^ 53 -> f64_scaled (f64_of_int n) = n * 2 ^ 1074.
Proof.
  intros Hn. unfold f64_of_int, fp_of_int. destruct (n =? 0) eqn:N0; [replace n with 0 by lia; reflexivity|].
  cbv zeta. set (a := Z.abs n) in *. set (k := Z.log2 a). assert (Ha : 0 < a) by lia. pose proof (Z.log2_spec a Ha) as [L1 L2]. fold k in L1, L2.
  assert (K : 0 <= k <= 53). { split; [apply Z.log2_nonneg|]. change 53 with (Z.log2 (2 ^ 53)). apply Z.log2_le_mono. lia. }
  assert (R : rne_shift a (k - 53 + 1) * 2 ^ k = a * 2 ^ 52 /\ 2 ^ 52 <= rne_shift a (k - 53 + 1) <= 2 ^ 53).
  { destruct (Z.eq_dec k 53) as [K53|K53].
    - assert (a = 2 ^ 53) by (rewrite K53 in L1; lia). rewrite K53, H. vm_compute. repeat split; discriminate.
    - unfold rne_shift. replace (k - 53 + 1 <=? 0) with true by lia. rewrite <- Z.mul_assoc, <- Z.pow_add_r by lia. replace (- (k - 53 + 1) + k) with 52 by lia. split; [reflexivity|].
      pose proof (pow_pos (- (k - 53 + 1)) ltac:(lia)). split.
      + apply Z.le_trans with (2 ^ k * 2 ^ (- (k - 53 + 1))); [rewrite <- Z.pow_add_r by lia; apply Z.pow_le_mono_r; lia|apply Z.mul_le_mono_nonneg_r; lia].
      + apply Z.le_trans with (2 ^ Z.succ k * 2 ^ (- (k - 53 + 1))); [apply Z.mul_le_mono_nonneg_r; lia|rewrite <- Z.pow_add_r by lia; apply Z.pow_le_mono_r; lia]. }
  destruct R as [R1 R2]. set (q := rne_shift a (k - 53 + 1)) in *.
  destruct (make64 (n <? 0) (k + 1023) q ltac:(lia) R2) as (A & B & C).
  replace ((if n <? 0 then two63 else 0) + (k + 1023) * 2 ^ (53 - 1) + q - 2 ^ (53 - 1)) with ((if n <? 0 then two63 else 0) + (k + 1023 - 1) * 2 ^ 52 + q) by (change (53 - 1) with 52; lia).
  rewrite C. replace (k + 1023 - 1) with (k + 1022) by lia.
  assert (E : q * 2 ^ (k + 1022) = a * 2 ^ 1074). { rewrite Z.pow_add_r, Z.mul_assoc, R1, <- Z.mul_assoc, <- Z.pow_add_r by lia. reflexivity. }
  rewrite E. unfold a. destruct (Z.ltb_spec n 0); [rewrite Z.abs_neq by lia; ring|rewrite Z.abs_eq by lia; reflexivity].
Qed.
Lemma small_ints x t n : int_or_bool t -> in_range t n -> Z.abs n <= 2 ^ 53 -> exists r, paste_num x TFP64 (val_int t n) = Ok r /\ finite64 r /\ f64_scaled r = n * 2 ^ 1074.
Proof.
  intros Ht Hr Hn. destruct (paste_int_fp x t n Ht Hr) as [A _]. exists (f64_of_int n). split; [exact A|]. split; [|now apply int64_exact].
  apply f64_of_int_near. apply Z.le_trans with (2 ^ 53); [exact Hn|discriminate].
Qed.
Lemma fp_paste x t v : v_type v = TFP32 \/ v_type v = TFP64 -> paste_num x t v = apply_or_throw t v.
Proof. intros [E|E]; unfold paste_num; rewrite E; reflexivity. Qed.
Lemma double_to_float x d : 0 <= d < 2 ^ 64 ->
  paste_num x TFP32 (mkValue TFP64 d [] EUnknown) =
  (if (if f64_exp d =? 2047 then f64_man d =? 0 else float_max <? Z.abs (f64_scaled d)) then Err else Ok (f32_of_f64 d)).
Proof.
  intros Hd. rewrite fp_paste by now right. unfold apply_or_throw, apply_type. cbn [v_type v_raw]. change (v_double _) with d.
  change (negb (ty_eqb TFP32 TFP64) && negb (ty_eqb TFP32 TFP64)) with true. cbn [andb]. unfold f64_lt_Z, f64_gt_Z.
  change (fp_bound_min TFP32) with (- ((2 ^ 24 - 1) * 2 ^ 104)). change (fp_bound_max TFP32) with ((2 ^ 24 - 1) * 2 ^ 104).
  destruct (f64_exp d =? 2047).
  - destruct (f64_man d =? 0); cbn [andb]; [destruct (f64_sign d); reflexivity|reflexivity].
  - change ((2 ^ 24 - 1) * 2 ^ 104 * fp_unit) with float_max. rewrite Z.mul_opp_l. change ((2 ^ 24 - 1) * 2 ^ 104 * fp_unit) with float_max.
    set (F := float_max). set (y := f64_scaled d). assert (HF : 0 <= F) by (unfold F, float_max; discriminate). clearbody F y.
    replace ((y <? - F) || (F <? y)) with (F <? Z.abs y) by lia. destruct (F <? Z.abs y); reflexivity.
Qed.
Lemma double_float_nearest x d : 0 <= d < 2 ^ 64 ->
  (finite64 d -> Z.abs (f64_scaled d) <= float_max -> exists r, paste_num x TFP32 (mkValue TFP64 d [] EUnknown) = Ok r /\ nearest32 (f64_scaled d) r /\ f32_sign r = f64_sign d) /\
  (finite64 d -> float_max < Z.abs (f64_scaled d) -> paste_num x TFP32 (mkValue TFP64 d [] EUnknown) = Err) /\
  (f64_isinf d = true -> paste_num x TFP32 (mkValue TFP64 d [] EUnknown) = Err) /\
  (f64_isnan d = true -> exists r, paste_num x TFP32 (mkValue TFP64 d [] EUnknown) = Ok r /\ f32_isnan r = true).
Proof.
  intros Hd. rewrite (double_to_float x d Hd). split; [|split; [|split]].
  - intros FI L. destruct FI as [R E]. replace (f64_exp d =? 2047) with false by lia. replace (float_max <? Z.abs (f64_scaled d)) with false by (symmetry; now apply Z.ltb_ge).
    exists (f32_of_f64 d). split; [reflexivity|]. apply f32_of_f64_near; [split; assumption|exact L].
  - intros [_ E] L. replace (f64_exp d =? 2047) with false by lia. now replace (float_max <? Z.abs (f64_scaled d)) with true by (symmetry; now apply Z.ltb_lt).
  - unfold f64_isinf. intros H. apply andb_prop in H. destruct H as [-> ->]. reflexivity.
  - unfold f64_isnan. intros H. apply andb_prop in H. destruct H as [E1 E2]. rewrite E1. apply negb_true_iff in E2. rewrite E2. exists (f32_of_f64 d). split; [reflexivity|].
    unfold f32_of_f64. rewrite E1, E2. destruct (f64_sign d); vm_compute; reflexivity.
Qed.
(** floats to floats and to doubles; doubles to doubles *)
Lemma paste_double x v : fp_value v -> paste_num x TFP64 v = Ok (v_double v).
Proof.
  intros Hv. assert (T : v_type v = TFP32 \/ v_type v = TFP64) by (destruct Hv as [[? _]|[? _]]; auto). rewrite fp_paste by exact T.
  unfold apply_or_throw, apply_type. destruct T as [-> | ->]; reflexivity.
Qed.
Lemma paste_float_float x f : 0 <= f < 2 ^ 32 -> paste_num x TFP32 (mkValue TFP32 f [] EUnknown) = Ok f.
Proof.
  intros Hf. rewrite fp_paste by now left. unfold apply_or_throw, apply_type. cbn [v_type]. change (ty_eqb TFP32 TFP32) with true. cbn [negb andb].
  unfold fp_cast. cbn [v_type]. change (ty_eqb TFP32 TFP32) with true. unfold v_fp32. cbn [v_raw]. change two32 with (2 ^ 32). now rewrite Z.mod_small.
Qed.

(** long double *)
Definition ld_bound : Z := (2 ^ 53 - 1) * 2 ^ 971 * 2 ^ 16445.
Lemma ld_bound_eq : ld_bound = (2 ^ 53 - 1) * 2 ^ 17416.
Proof. unfold ld_bound. rewrite <- Z.mul_assoc, <- Z.pow_add_r by lia. reflexivity. Qed.
Opaque ld_bound.
Lemma finite_ld (s : bool) a : 0 <= a -> a <= ld_bound -> let d := ld_to_f64 (LdFin s a) in
  finite64 d /\ f64_sign d = s /\ forall y, finite64 y -> as_near (if s then - a else a) (f64_scaled d * 2 ^ 15371) (f64_scaled y * 2 ^ 15371).
Proof.
  intros Ha Hb. unfold ld_to_f64. set (g := Z.max (Z.log2 a - 52) 15371). cbv zeta.
  set (q := rne_shift a g). assert (Q0 : 0 <= q) by (apply rne_ge; unfold g; lia).
  assert (G : 15371 <= g) by (unfold g; lia).
  assert (Q2 : q <= 2 ^ 53).
  { apply rne_le; [exact Ha|lia|]. destruct (Z.eq_dec a 0) as [->|N]; [apply Z.mul_nonneg_nonneg; [discriminate|apply Z.pow_nonneg; lia]|]. pose proof (Z.log2_spec a ltac:(lia)) as [_ L].
    apply Z.le_trans with (2 ^ Z.succ (Z.log2 a)); [lia|]. rewrite <- Z.pow_add_r by lia. apply Z.pow_le_mono_r; unfold g; lia. }
  assert (GR : g = 15371 \/ 2 ^ (53 - 1 + g) <= a).
  { unfold g. destruct (Z.max_spec (Z.log2 a - 52) 15371) as [[_ ->]|[L ->]]; [now left|right]. replace (53 - 1 + (Z.log2 a - 52)) with (Z.log2 a) by lia.
    apply Z.log2_spec. destruct (Z.eq_dec a 0) as [->|]; [cbn in L; lia|lia]. }
  assert (GM : g <= 17416).
  { destruct GR as [->|GR]; [lia|]. assert (X : 2 ^ (53 - 1 + g) < 2 ^ (52 + 17417)).
    { apply Z.le_lt_trans with a; [exact GR|]. apply Z.le_lt_trans with ld_bound; [exact Hb|]. rewrite ld_bound_eq.
      change (52 + 17417) with (53 + 17416). rewrite (Z.pow_add_r 2 53 17416) by (clear; lia). apply Z.mul_lt_mono_pos_r; [apply pow_pos; lia|reflexivity]. }
    apply (proj2 (Z.pow_lt_mono_r_iff 2 _ (52 + 17417) eq_refl ltac:(discriminate))) in X. clear -X. lia. }
  assert (QT : g = 17416 -> q <= 2 ^ 53 - 1).
  { intros E. apply rne_le; [exact Ha|lia|]. rewrite E. rewrite ld_bound_eq in Hb. exact Hb. }
  assert (QL : g <> 15371 -> 2 ^ 52 <= q).
  { intros N. destruct GR as [E|GR]; [contradiction|]. apply rne_ge; [exact Ha|lia|]. rewrite <- Z.pow_add_r by lia. exact GR. }
  assert (BB : 2047 * 2 ^ 52 <=? (g - 15371) * 2 ^ 52 + q = false).
  { apply Z.leb_gt. change (2 ^ 53) with (2 * 2 ^ 52) in *. destruct (Z.eq_dec g 17416) as [E|E]; [specialize (QT E); subst g; lia|lia]. }
  rewrite BB.
  assert (D : let d := (if s then two63 else 0) + ((g - 15371) * 2 ^ 52 + q) in finite64 d /\ f64_sign d = s /\ f64_scaled d = (if s then - (q * 2 ^ (g - 15371)) else q * 2 ^ (g - 15371))).
  { cbv zeta. destruct (Z.lt_ge_cases q (2 ^ 52)) as [L|L].
    - assert (E : g = 15371) by (destruct (Z.eq_dec g 15371) as [E|N]; [exact E|specialize (QL N); lia]). rewrite E.
      destruct (f64_fields s 0 q ltac:(lia) ltac:(lia)) as (A & B & C & D). replace ((if s then two63 else 0) + ((15371 - 15371) * 2 ^ 52 + q)) with ((if s then two63 else 0) + 0 * 2 ^ 52 + q) by lia.
      split; [split; [exact D|rewrite B; discriminate]|]. split; [exact A|]. unfold f64_scaled. rewrite A, B, C. cbn [Z.eqb]. change (15371 - 15371) with 0. rewrite Z.pow_0_r, Z.mul_1_r. reflexivity.
    - destruct (Z.eq_dec g 17416) as [E|E].
      + specialize (QT E). rewrite E. destruct (f64_fields s 2046 (q - 2 ^ 52) ltac:(lia) ltac:(change (2 ^ 53) with (2 * 2 ^ 52) in *; lia)) as (A & B & C & D).
        replace ((if s then two63 else 0) + ((17416 - 15371) * 2 ^ 52 + q)) with ((if s then two63 else 0) + 2046 * 2 ^ 52 + (q - 2 ^ 52)) by lia.
        split; [split; [exact D|rewrite B; discriminate]|]. split; [exact A|]. unfold f64_scaled. rewrite A, B, C. replace (2 ^ 52 + (q - 2 ^ 52)) with q by lia. change (2046 =? 0) with false. change (2046 - 1) with (17416 - 15371). reflexivity.
      + destruct (make64 s (g - 15370) q ltac:(lia) ltac:(lia)) as (A & B & C).
        replace ((if s then two63 else 0) + ((g - 15371) * 2 ^ 52 + q)) with ((if s then two63 else 0) + (g - 15370 - 1) * 2 ^ 52 + q) by lia.
        split; [exact A|]. split; [exact B|]. rewrite C. replace (g - 15370 - 1) with (g - 15371) by lia. reflexivity. }
  cbv zeta in D. destruct D as (D1 & D2 & D3). split; [exact D1|]. split; [exact D2|]. intros y Y. rewrite D3.
  replace ((if s then - (q * 2 ^ (g - 15371)) else q * 2 ^ (g - 15371)) * 2 ^ 15371) with (if s then - (q * 2 ^ g) else q * 2 ^ g).
  - apply as_near_signed with 53 15371; [lia|lia|exact Ha|exact GR|]. destruct (finite64_bits y Y) as (M & k & A & B & ->). exists M, (k + 15371). split; [exact A|]. split; [lia|]. rewrite Z.pow_add_r by lia. apply eq_sym, Z.mul_assoc.
  - replace (2 ^ g) with (2 ^ (g - 15371) * 2 ^ 15371) by (rewrite <- Z.pow_add_r by lia; f_equal; lia). set (U := 2 ^ 15371). set (V := 2 ^ (g - 15371)). clearbody U V. clear. destruct s; ring.
Qed.
Lemma ld_range l : (match l with LdFin _ a => 0 <= a | _ => True end) -> 0 <= ld_to_f64 l < two64.
Proof.
  destruct l as [s a|s|]; cbn [ld_to_f64]; intros H; [|destruct s; unfold_words; lia|unfold_words; lia].
  set (g := Z.max (Z.log2 a - 52) 15371). assert (0 <= rne_shift a g) by (apply rne_ge; unfold g; lia). assert (15371 <= g) by (unfold g; lia).
  destruct (2047 * 2 ^ 52 <=? (g - 15371) * 2 ^ 52 + rne_shift a g) eqn:E; destruct s; unfold_words; lia.
Qed.
Lemma ld_back x l : (match l with LdFin _ a => 0 <= a | _ => True end) -> paste_ld x (insert_ld l) = Ok (f64_to_ld (ld_to_f64 l)).
Proof.
  intros H. pose proof (ld_range l H) as R. unfold paste_ld, insert_ld. rewrite paste_double.
  - now rewrite val_f64_roundtrip.
  - unfold val_f64. destruct (narrow64 (ld_to_f64 l)) as [f|] eqn:E; [left|right]; (split; [reflexivity|]); cbn [v_raw]; [|exact R]. now destruct (narrow64_sound _ _ R E) as (_ & ? & _).
Qed.
(** the same with a smaller mantissa *)
Lemma ld_scaled s m c : 0 < m -> 0 <= c -> ld_to_f64 (LdFin s (m * 2 ^ c)) =
  let g := Z.max (Z.log2 m + c - 52) 15371 in let b := (g - 15371) * 2 ^ 52 + rne_shift m (g - c) in (if s then two63 else 0) + (if 2047 * 2 ^ 52 <=? b then 2047 * 2 ^ 52 else b).
Proof.
  intros Hm Hc. unfold ld_to_f64. rewrite Z.log2_mul_pow2 by lia. rewrite (Z.add_comm c). cbv zeta. set (g := Z.max (Z.log2 m + c - 52) 15371).
  replace (rne_shift (m * 2 ^ c) g) with (rne_shift m (g - c)); [reflexivity|]. rewrite <- (rne_scale m (g - c) c Hc). f_equal. lia.
Qed.
Lemma ld_bound_def : ld_bound = (2 ^ 53 - 1) * 2 ^ 971 * 2 ^ 16445.
Proof. rewrite ld_bound_eq, <- Z.mul_assoc, <- Z.pow_add_r by lia. reflexivity. Qed.
Lemma ld_differ s a b u : u <> 0 -> a <> b -> LdFin s (a * u) <> LdFin s (b * u).
Proof. intros U D H. injection H as H. apply D. now apply (Z.mul_cancel_r _ _ u U). Qed.
Lemma ld_one_more x : paste_ld x (insert_ld (LdFin false ((2 ^ 63 + 1) * 2 ^ 16382))) = Ok (LdFin false (2 ^ 63 * 2 ^ 16382)).
Proof.
  rewrite ld_back by (apply Z.mul_nonneg_nonneg; [discriminate|apply Z.pow_nonneg; discriminate]). rewrite ld_scaled by (clear; lia).
  assert (E : forall d u v, d = 1023 * 2 ^ 52 -> 2 ^ 1074 * 2 ^ 15371 = u -> v = LdFin false u -> Ok (f64_to_ld d) = Ok v).
  { intros d u v -> <- ->. reflexivity. }
  apply E with (2 ^ 63 * 2 ^ 16382); [vm_compute; reflexivity| |reflexivity]. rewrite <- !Z.pow_add_r by (clear; lia). reflexivity.
Qed.
