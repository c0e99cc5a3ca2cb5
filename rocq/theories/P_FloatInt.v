(** Whole numbers that went through an integer are the same floating point numbers again. *)
From Coq Require Import ZArith List Bool Lia ZifyBool ZifyNat.
From Verif Require Import Base Lemmas M_Types M_Conv M_TpTools S_Doc S_Json P_Float P_Paste.
Import ListNotations.
Open Scope Z_scope.

Lemma fp_of_int_exact p bias sb n E m : 2 <= p -> 0 <= m < 2 ^ (p - 1) -> n <> 0 -> 0 <= E - bias ->
  Z.abs n * 2 ^ (p - 1) = (2 ^ (p - 1) + m) * 2 ^ (E - bias) -> fp_of_int p bias sb n = (if n <? 0 then sb else 0) + E * 2 ^ (p - 1) + m.
Proof.
  intros Hp Hm Hn Hk H. unfold fp_of_int. replace (n =? 0) with false by lia. set (a := Z.abs n) in *. set (k := E - bias) in *. assert (a > 0) by lia.
  set (P := 2 ^ (p - 1)) in *. assert (HP : 0 < P) by (apply Z.pow_pos_nonneg; lia). assert (HK : 0 < 2 ^ k) by (apply Z.pow_pos_nonneg; lia).
  assert (L : Z.log2 a = k).
  { apply Z.log2_unique; [exact Hk|]. rewrite Z.pow_succ_r by exact Hk. nia. }
  cbv zeta. rewrite L.
  assert (R : rne_shift a (k - p + 1) = P + m).
  { unfold rne_shift. destruct (k - p + 1 <=? 0) eqn:C.
    - assert (X : P = 2 ^ (- (k - p + 1)) * 2 ^ k). { unfold P. rewrite <- Z.pow_add_r by lia. f_equal. lia. }
      rewrite X in H at 1. nia.
    - assert (X : 2 ^ k = 2 ^ (k - p + 1) * P). { unfold P. rewrite <- Z.pow_add_r by lia. f_equal. lia. }
      set (Q := 2 ^ (k - p + 1)) in *. assert (0 < Q) by (apply Z.pow_pos_nonneg; lia). assert (EA : a = (P + m) * Q) by nia.
      rewrite EA, Z.div_mul, Z_mod_mult by lia. assert (0 < 2 ^ (k - p + 1 - 1)) by (apply Z.pow_pos_nonneg; lia). now replace (0 <? 2 ^ (k - p + 1 - 1)) with true by lia. }
  rewrite R. unfold k. lia.
Qed.

Lemma whole_spec d n : whole d = Some n -> f64_scaled d = n * fp_unit /\ f64_exp d <> 2047.
Proof.
  unfold whole. destruct (_ && _ && _) eqn:E; [|discriminate]. intros H. injection H as <-. apply andb_prop in E. destruct E as [E _]. apply andb_prop in E. destruct E as [E1 E2].
  split; [|lia]. pose proof (Z.div_mod (f64_scaled d) fp_unit ltac:(pose proof fp_unit_pos; lia)). lia.
Qed.
Lemma pow_le_lt M e : 0 < M < 2 ^ 53 -> 0 <= e -> 2 ^ 1074 <= M * 2 ^ e -> 1022 <= e.
Proof.
  intros HM He H. destruct (Z.lt_ge_cases e 1022) as [L|L]; [exfalso|lia]. assert (2 ^ e <= 2 ^ 1021) by (apply Z.pow_le_mono_r; lia).
  assert (X : 2 ^ 1074 = 2 ^ 53 * 2 ^ 1021) by (rewrite <- Z.pow_add_r by lia; reflexivity). rewrite X in H.
  assert (0 < 2 ^ 1021) by (apply Z.pow_pos_nonneg; lia). assert (0 < 2 ^ e) by (apply Z.pow_pos_nonneg; lia).
  assert (M * 2 ^ e <= M * 2 ^ 1021) by (apply Z.mul_le_mono_nonneg_l; lia). assert (M * 2 ^ 1021 < 2 ^ 53 * 2 ^ 1021) by (apply Z.mul_lt_mono_pos_r; lia). lia.
Qed.
Lemma f64_whole d n : 0 <= d < two64 -> d <> two63 -> whole d = Some n -> f64_of_int n = d.
Proof.
  intros Hd Nz W. apply whole_spec in W. destruct W as [W _]. destruct (f64_split d Hd) as (Ed & He & Hm). unfold f64_scaled in W. unfold f64_of_int.
  set (s := f64_sign d) in *. set (e := f64_exp d) in *. set (m := f64_man d) in *. unfold fp_unit in W.
  destruct (Z.eq_dec n 0) as [->|Nn].
  - unfold fp_of_int. cbn. rewrite Z.mul_0_l in W. destruct (e =? 0) eqn:E0.
    + assert (m = 0) by (destruct s; lia). assert (e = 0) by lia. destruct s; unfold_words; lia.
    + exfalso. assert (0 < 2 ^ (e - 1)) by (apply Z.pow_pos_nonneg; lia). assert (0 < 2 ^ 52) by lia. destruct s; nia.
  - destruct (e =? 0) eqn:E0.
    + exfalso. assert (B : 2 ^ 52 < 2 ^ 1074) by (apply Z.pow_lt_mono_r; lia). destruct s; nia.
    + set (M := 2 ^ 52 + m) in *. assert (HM : 0 < M < 2 ^ 53) by (unfold M; change (2 ^ 53) with (2 * 2 ^ 52); lia).
      assert (A : Z.abs n * 2 ^ 1074 = M * 2 ^ (e - 1)).
      { assert (0 < 2 ^ (e - 1)) by (apply Z.pow_pos_nonneg; lia). assert (0 < 2 ^ 1074) by (apply Z.pow_pos_nonneg; lia). destruct s.
        - assert (n < 0) by nia. rewrite Z.abs_neq by lia. nia.
        - assert (0 < n) by nia. rewrite Z.abs_eq by lia. nia. }
      assert (0 < 2 ^ 1074) by (apply Z.pow_pos_nonneg; lia).
      assert (EE : 1022 <= e - 1). { apply (pow_le_lt M); [exact HM|lia|]. rewrite <- A. nia. }
      rewrite (fp_of_int_exact 53 1023 two63 n e m); [|lia|exact Hm|exact Nn|lia|].
      * replace (n <? 0) with s; [change (53 - 1) with 52; lia|]. assert (0 < 2 ^ (e - 1)) by (apply Z.pow_pos_nonneg; lia). destruct s; symmetry; [apply Z.ltb_lt|apply Z.ltb_ge]; nia.
      * change (53 - 1) with 52. fold M. apply (Z.mul_cancel_r _ _ (2 ^ 1022)); [apply Z.pow_nonzero; lia|].
        rewrite <- !Z.mul_assoc, <- !Z.pow_add_r by lia. replace (e - 1023 + 1022) with (e - 1) by lia. change (52 + 1022) with 1074. exact A.
Qed.
Lemma f32_whole f n : 0 <= f < two32 -> f <> two31 -> whole (f32_to_f64 f) = Some n -> f32_of_int n = f.
Proof.
  intros Hf Nz W. apply whole_spec in W. destruct W as [W E2047]. destruct (f32_split f Hf) as (Ed & He & Hm). unfold f32_of_int.
  assert (NX : f32_exp f <> 255).
  { intros X. destruct (f32_to_f64_fields f Hf) as (e & m & He' & Hm' & E & C). destruct (f64_fields (f32_sign f) e m He' Hm') as (_ & XE & _). rewrite <- E in XE.
    rewrite XE in E2047. destruct C as [C|[C|[C|C]]]; lia. }
  destruct (f32_to_f64_value f Hf) as (_ & _ & V & _). destruct (V NX) as [_ V2]. rewrite V2 in W. clear V V2 E2047. unfold f32_scaled in W.
  set (s := f32_sign f) in *. set (e := f32_exp f) in *. set (m := f32_man f) in *. unfold fp_unit in W.
  assert (P925 : 0 < 2 ^ 925) by (apply Z.pow_pos_nonneg; lia).
  assert (X : 2 ^ 1074 = 2 ^ 149 * 2 ^ 925) by (rewrite <- Z.pow_add_r by lia; reflexivity). rewrite X, Z.mul_assoc in W. apply Z.mul_reg_r in W; [|lia]. clear X P925.
  destruct (Z.eq_dec n 0) as [->|Nn].
  - unfold fp_of_int. cbn. rewrite Z.mul_0_l in W. destruct (e =? 0) eqn:E0.
    + assert (m = 0) by (destruct s; lia). assert (e = 0) by lia. destruct s; unfold_words; lia.
    + exfalso. assert (0 < 2 ^ (e - 1)) by (apply Z.pow_pos_nonneg; lia). assert (0 < 2 ^ 23) by lia. destruct s; nia.
  - destruct (e =? 0) eqn:E0.
    + exfalso. assert (B : 2 ^ 23 < 2 ^ 149) by (apply Z.pow_lt_mono_r; lia). destruct s; nia.
    + set (M := 2 ^ 23 + m) in *. assert (HM : 0 < M < 2 ^ 24) by (unfold M; change (2 ^ 24) with (2 * 2 ^ 23); lia).
      assert (0 < 2 ^ (e - 1)) by (apply Z.pow_pos_nonneg; lia). assert (0 < 2 ^ 149) by (apply Z.pow_pos_nonneg; lia).
      assert (A : Z.abs n * 2 ^ 149 = M * 2 ^ (e - 1)).
      { destruct s; [assert (n < 0) by nia; rewrite Z.abs_neq by lia|assert (0 < n) by nia; rewrite Z.abs_eq by lia]; nia. }
      assert (EE : 126 <= e - 1).
      { destruct (Z.lt_ge_cases (e - 1) 126) as [L|L]; [exfalso|lia]. assert (2 ^ (e - 1) <= 2 ^ 125) by (apply Z.pow_le_mono_r; lia).
        assert (Y : 2 ^ 149 = 2 ^ 24 * 2 ^ 125) by (rewrite <- Z.pow_add_r by lia; reflexivity). assert (0 < 2 ^ 125) by lia.
        assert (M * 2 ^ (e - 1) <= M * 2 ^ 125) by (apply Z.mul_le_mono_nonneg_l; lia). assert (M * 2 ^ 125 < 2 ^ 24 * 2 ^ 125) by (apply Z.mul_lt_mono_pos_r; lia). nia. }
      rewrite (fp_of_int_exact 24 127 two31 n e m); [|lia|exact Hm|exact Nn|lia|].
      * replace (n <? 0) with s; [change (24 - 1) with 23; lia|]. destruct s; symmetry; [apply Z.ltb_lt|apply Z.ltb_ge]; nia.
      * change (24 - 1) with 23. fold M. apply (Z.mul_cancel_r _ _ (2 ^ 126)); [apply Z.pow_nonzero; lia|].
        rewrite <- !Z.mul_assoc, <- !Z.pow_add_r by lia. replace (e - 127 + 126) with (e - 1) by lia. change (23 + 126) with 149. exact A.
Qed.
