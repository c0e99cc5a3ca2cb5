(** Proofs about pasting numbers (M_TpTools.v) and printing doubles *)
From Coq Require Import ZArith List Bool Lia ZifyBool ZifyNat.
From Verif Require Import Base Lemmas M_Types M_Conv M_TpTools S_Conv P_Conv P_Text P_Float.
Import ListNotations.
Open Scope Z_scope.

(** * integers into integers *)
Definition int_or_bool (t : ty) : Prop := In t [TBool; TI8; TUI8; TI16; TUI16; TI32; TUI32; TI64; TUI64].

Lemma in_range_64 s n : int_or_bool s -> in_range s n -> - two63 <= n < two64 /\ (signed_ty s = true -> n < two63) /\ (signed_ty s = false -> 0 <= n).
Proof.
  unfold int_or_bool, in_range. intros Hs Hr.
  repeat destruct Hs as [<-|Hs]; try destruct Hs; cbn in *; unfold_words; repeat split; intros; try discriminate; lia.
Qed.
Lemma v_i64_val_int s n : - two63 <= n < two63 -> v_i64 (val_int s n) = n.
Proof. intros. unfold v_i64, val_int. cbn [v_raw]. now apply s64_u64. Qed.
Lemma raw_val_int s n : 0 <= n < two64 -> v_raw (val_int s n) = n.
Proof. intros. unfold val_int. cbn [v_raw]. unfold u64. now rewrite Z.mod_small. Qed.

Lemma overflow_i64_range t n : int_or_bool t -> - two63 <= n < two63 ->
  (negb (signed_ty t) && (n <? 0)) || overflows_i64 t n = negb ((int_min t <=? n) && (n <=? int_max t)).
Proof.
  unfold int_or_bool. intros Ht B. unfold overflows_i64.
  repeat destruct Ht as [<-|Ht]; try destruct Ht; cbn [signed_ty is_fp ty_eqb ty_num orb Z.eqb Pos.eqb ty_size Z.ltb Z.compare Pos.compare Pos.compare_cont int_min int_max negb andb];
    unfold_words; lia.
Qed.
Lemma overflow_u64_range t n : int_or_bool t -> 0 <= n < two64 ->
  overflows_u64 t n = negb ((int_min t <=? n) && (n <=? int_max t)).
Proof.
  unfold int_or_bool. intros Ht B. unfold overflows_u64. change ((two64 - 1) / 2) with (two63 - 1).
  repeat destruct Ht as [<-|Ht]; try destruct Ht; cbn [signed_ty is_fp ty_eqb ty_num orb Z.eqb Pos.eqb ty_size Z.ltb Z.compare Pos.compare Pos.compare_cont int_min int_max negb andb];
    unfold_words; lia.
Qed.
Lemma paste_int x s t n : int_or_bool s -> int_or_bool t -> in_range s n ->
  (in_range t n -> paste_num x t (val_int s n) = Ok n) /\
  (~ in_range t n -> paste_num x t (val_int s n) = Err).
Proof.
  intros Hs Ht Hr. destruct (in_range_64 s n Hs Hr) as (B & Bs & Bu).
  assert (D: forall (r : res Z), r = (if (int_min t <=? n) && (n <=? int_max t) then Ok n else Err) ->
     (in_range t n -> r = Ok n) /\ (~ in_range t n -> r = Err)).
  { intros r ->. unfold in_range. destruct ((int_min t <=? n) && (n <=? int_max t)) eqn:E; split; intros; auto; lia. }
  apply D. clear D.
  assert (NF: forall a b : Z, match t with TFP64 => a | TFP32 => b | _ => n end = n)
    by (intros; unfold int_or_bool in Ht; repeat destruct Ht as [<-|Ht]; try destruct Ht; reflexivity).
  assert (SRC: paste_num x t (val_int s n) = apply_or_throw t (val_int s n)).
  { unfold paste_num, int_or_bool in *. repeat destruct Hs as [<-|Hs]; try destruct Hs; reflexivity. }
  rewrite SRC. clear SRC. unfold apply_or_throw, apply_type.
  change (v_type (val_int s n)) with s.
  destruct (signed_ty s) eqn:SG.
  - specialize (Bs eq_refl). rewrite v_i64_val_int by lia. cbv zeta. rewrite NF, overflow_i64_range by (auto; lia).
    unfold int_or_bool in Hs; repeat destruct Hs as [<-|Hs]; try destruct Hs; try discriminate SG;
      destruct (_ && _); reflexivity.
  - specialize (Bu eq_refl). cbv zeta. rewrite raw_val_int by lia.
    destruct (ty_eqb s TBool) eqn:SB.
    + assert (s = TBool) by (unfold int_or_bool in Hs; repeat destruct Hs as [<-|Hs]; try destruct Hs; try discriminate SB; auto).
      subst s. unfold in_range in Hr. cbn in Hr. rewrite v_i64_val_int by (unfold_words; lia). rewrite NF. cbn [rbind].
      assert (T: (int_min t <=? n) && (n <=? int_max t) = true).
      { unfold int_or_bool in Ht; repeat destruct Ht as [<-|Ht]; try destruct Ht; cbn [int_min int_max]; unfold_words; lia. }
      now rewrite T.
    + rewrite NF, overflow_u64_range by (auto; lia).
      unfold int_or_bool in Hs; repeat destruct Hs as [<-|Hs]; try destruct Hs; try discriminate SG; try discriminate SB;
      destruct (_ && _); reflexivity.
Qed.

(** * floating point into integers *)
Definition fp_value (v : value) : Prop :=
  (v_type v = TFP32 /\ 0 <= v_raw v < two32) \/ (v_type v = TFP64 /\ 0 <= v_raw v < two64).
Lemma v_double_range v : fp_value v -> 0 <= v_double v < two64.
Proof.
  unfold v_double, v_fp32. intros [[E R]|[E R]]; rewrite E; cbn.
  - rewrite Z.mod_small by auto. now apply f32_to_f64_value.
  - auto.
Qed.

Lemma fp_unit_pos : 0 < fp_unit.
Proof. unfold fp_unit. apply Z.pow_pos_nonneg; lia. Qed.

(** no double lies strictly between 2^63-1 and 2^63, nor between 2^64-1 and 2^64 *)
Lemma no_gap d N : 0 <= d < two64 -> 53 <= N <= 64 ->
  (2 ^ N - 1) * fp_unit < f64_scaled d -> f64_exp d <> 2047 -> 2 ^ N * fp_unit <= f64_scaled d.
Proof.
  intros H HN L E. destruct (f64_split d H) as (_ & He & Hm).
  pose proof fp_unit_pos as FU.
  assert (P: 1 <= 2 ^ N - 1).
  { assert (2 ^ 1 <= 2 ^ N) by (apply Z.pow_le_mono_r; lia). lia. }
  unfold f64_scaled in *. destruct (f64_sign d).
  - exfalso. assert (0 <= (if f64_exp d =? 0 then f64_man d else (2 ^ 52 + f64_man d) * 2 ^ (f64_exp d - 1))).
    { destruct (f64_exp d =? 0) eqn:E0; [lia|]. assert (0 < 2 ^ (f64_exp d - 1)) by (apply Z.pow_pos_nonneg; lia).
      assert (0 < 2 ^ 52) by (apply Z.pow_pos_nonneg; lia). nia. }
    nia.
  - destruct (Z.eqb_spec (f64_exp d) 0) as [E0|E0].
    + exfalso. assert (2 ^ 52 < fp_unit) by (unfold fp_unit; apply Z.pow_lt_mono_r; lia). nia.
    + destruct (Z.le_gt_cases (f64_exp d - 1) (N - 53 + 1074)) as [C|C].
      * exfalso.
        assert (PW: 2 ^ (f64_exp d - 1) <= 2 ^ (N - 53) * fp_unit).
        { unfold fp_unit. rewrite <- Z.pow_add_r by lia. apply Z.pow_le_mono_r; lia. }
        assert (Q: 0 < 2 ^ (N - 53)) by (apply Z.pow_pos_nonneg; lia).
        assert (T: (2 ^ 52 + f64_man d) * 2 ^ (f64_exp d - 1) <= (2 ^ 53 - 1) * (2 ^ (N - 53) * fp_unit)).
        { assert (0 < 2 ^ (f64_exp d - 1)) by (apply Z.pow_pos_nonneg; lia).
          change (2 ^ 53) with (2 ^ 52 + 2 ^ 52). apply Z.mul_le_mono_nonneg; try lia. }
        assert (EQ: (2 ^ 53 - 1) * (2 ^ (N - 53) * fp_unit) = (2 ^ N - 2 ^ (N - 53)) * fp_unit).
        { replace (2 ^ N) with (2 ^ 53 * 2 ^ (N - 53)) by (rewrite <- Z.pow_add_r by lia; f_equal; lia). ring. }
        nia.
      * assert (PW: 2 ^ (N - 52) * fp_unit <= 2 ^ (f64_exp d - 1)).
        { unfold fp_unit. rewrite <- Z.pow_add_r by lia. apply Z.pow_le_mono_r; lia. }
        assert (EQ: 2 ^ N * fp_unit = 2 ^ 52 * (2 ^ (N - 52) * fp_unit)).
        { replace (2 ^ N) with (2 ^ 52 * 2 ^ (N - 52)) by (rewrite <- Z.pow_add_r by lia; f_equal; lia). ring. }
        rewrite EQ. assert (0 < 2 ^ (N - 52)) by (apply Z.pow_pos_nonneg; lia). nia.
Qed.

Lemma quot_range lo hi s : lo * fp_unit <= s <= hi * fp_unit -> lo <= Z.quot s fp_unit <= hi.
Proof.
  intros H. pose proof fp_unit_pos.
  split.
  - rewrite <- (Z.quot_mul lo fp_unit) by lia. apply Z.quot_le_mono; lia.
  - rewrite <- (Z.quot_mul hi fp_unit) by lia. apply Z.quot_le_mono; lia.
Qed.

Definition int_ty (t : ty) : Prop := In t [TI8; TUI8; TI16; TUI16; TI32; TUI32; TI64; TUI64].

Lemma apply_type_fp t v : v_type v = TFP32 \/ v_type v = TFP64 ->
  apply_type t v =
  if negb (ty_eqb t (v_type v)) && negb (ty_eqb t TFP64) &&
     (f64_lt_Z (v_double v) (fp_bound_min t) || f64_gt_Z (v_double v) (fp_bound_max t))
  then Ok None
  else let* r := fp_cast t v in Ok (Some r).
Proof. unfold apply_type. intros [->| ->]; reflexivity. Qed.

Lemma paste_fp_int x t v : fp_value v -> int_ty t ->
  f64_isnan (v_double v) = false ->
  ~ (t = TI64 /\ f64_isinf (v_double v) = false /\ f64_scaled (v_double v) = two63 * fp_unit) ->
  ~ (t = TUI64 /\ f64_isinf (v_double v) = false /\ f64_scaled (v_double v) = two64 * fp_unit) ->
  (f64_isinf (v_double v) = false /\ int_min t * fp_unit <= f64_scaled (v_double v) <= int_max t * fp_unit ->
     paste_num x t v = Ok (Z.quot (f64_scaled (v_double v)) fp_unit)) /\
  (f64_isinf (v_double v) = true \/ ~ (int_min t * fp_unit <= f64_scaled (v_double v) <= int_max t * fp_unit) ->
     paste_num x t v = Err).
Proof.
  intros Hv Ht Hnan N63 N64.
  pose proof (v_double_range v Hv) as R.
  unfold paste_num, apply_or_throw.
  assert (TY: v_type v = TFP32 \/ v_type v = TFP64) by (destruct Hv as [[? _]|[? _]]; auto).
  assert (A1: ty_eqb (v_type v) TString = false) by (destruct TY as [->| ->]; reflexivity).
  assert (A2: is_scalar (v_type v) = true) by (destruct TY as [->| ->]; reflexivity).
  rewrite A1, A2. cbn [negb andb].
  assert (G: (int_or_bool t /\ ty_eqb t (v_type v) = false) /\ ty_eqb t TFP64 = false /\ fp_bound_min t = int_min t).
  { unfold int_ty in Ht. unfold int_or_bool. destruct TY as [->| ->]; repeat destruct Ht as [<-|Ht]; try destruct Ht; cbn; tauto. }
  destruct G as [[G0 G1] [G2 G3]].
  set (d := v_double v) in *.
  assert (CORE: (let* o := (if negb (ty_eqb t (v_type v)) && negb (ty_eqb t TFP64) &&
         (f64_lt_Z d (fp_bound_min t) || f64_gt_Z d (fp_bound_max t))
      then Ok None
      else let* r := fp_cast t v in Ok (Some r)) in match o with Some n => Ok n | None => Err end) = 
      if f64_isinf d then Err else if (int_min t * fp_unit <=? f64_scaled d) && (f64_scaled d <=? int_max t * fp_unit)
      then Ok (Z.quot (f64_scaled d) fp_unit) else Err).
  { rewrite G1, G2, G3. cbn [negb andb].
    unfold f64_isnan, f64_isinf in *.
    destruct (Z.eqb_spec (f64_exp d) 2047) as [E|E].
    - cbn [andb] in *. assert (f64_man d = 0) by lia.
      replace (f64_man d =? 0) with true by lia.
      unfold f64_lt_Z, f64_gt_Z. rewrite E. cbn [Z.eqb Pos.eqb andb]. replace (f64_man d =? 0) with true by lia.
      destruct (f64_sign d); reflexivity.
    - cbn [andb] in *. unfold f64_lt_Z, f64_gt_Z. replace (f64_exp d =? 2047) with false by lia.
      assert (FC: int_min t * fp_unit <= f64_scaled d <= int_max t * fp_unit -> fp_cast t v = Ok (Z.quot (f64_scaled d) fp_unit)).
      { intros RG. pose proof (quot_range _ _ _ RG) as QR. unfold fp_cast. fold d.
        replace (f64_exp d =? 2047) with false by lia.
        unfold int_ty in Ht. repeat destruct Ht as [<-|Ht]; try destruct Ht;
          match goal with |- (if ?b then _ else _) = _ => replace b with true by lia end; reflexivity. }
      assert (FB: fp_bound_max t = int_max t \/ (t = TI64 /\ fp_bound_max t = two63) \/ (t = TUI64 /\ fp_bound_max t = two64)).
      { unfold int_ty in Ht. repeat destruct Ht as [<-|Ht]; try destruct Ht; cbn; tauto. }
      destruct ((int_min t * fp_unit <=? f64_scaled d) && (f64_scaled d <=? int_max t * fp_unit)) eqn:RG.
      + pose proof fp_unit_pos.
        replace (f64_scaled d <? int_min t * fp_unit) with false by lia.
        replace (fp_bound_max t * fp_unit <? f64_scaled d) with false.
        2:{ destruct FB as [->|[[-> ->]|[-> ->]]]; try lia; cbn [int_max] in RG; nia. }
        cbn [orb]. rewrite FC by lia. reflexivity.
      + replace ((f64_scaled d <? int_min t * fp_unit) || (fp_bound_max t * fp_unit <? f64_scaled d)) with true; [reflexivity|].
        destruct (Z.ltb_spec (f64_scaled d) (int_min t * fp_unit)); [reflexivity|]. cbn [orb].
        assert (GT: int_max t * fp_unit < f64_scaled d) by lia.
        destruct FB as [->|[[-> ->]|[-> ->]]]; [lia| |].
        * cbn [int_max] in GT. pose proof (no_gap d 63 R ltac:(lia)) as NG. change (2 ^ 63) with two63 in NG.
          specialize (NG GT E). assert (f64_scaled d <> two63 * fp_unit) by (intros EQ; apply N63; auto). lia.
        * cbn [int_max] in GT. pose proof (no_gap d 64 R ltac:(lia)) as NG. change (2 ^ 64) with two64 in NG.
          specialize (NG GT E). assert (f64_scaled d <> two64 * fp_unit) by (intros EQ; apply N64; auto). lia. }
  rewrite apply_type_fp by auto. fold d. rewrite CORE. split.
  - intros [I RG]. rewrite I. match goal with |- (if ?b then _ else _) = _ => replace b with true by lia end. reflexivity.
  - intros [I|RG]; [now rewrite I|]. destruct (f64_isinf d); auto.
    match goal with |- (if ?b then _ else _) = _ => replace b with false by lia end. reflexivity.
Qed.

(** * printing doubles *)
Lemma scaled_div d n : f64_scaled d = n * fp_unit -> f64_scaled d / fp_unit = n /\ f64_scaled d mod fp_unit = 0.
Proof. intros ->. pose proof fp_unit_pos. rewrite Z.div_mul, Z.mod_mul by lia. auto. Qed.

Lemma type_to_str_fp x v : v_type v = TFP32 \/ v_type v = TFP64 -> type_to_str x v = conv_type_fp x v.
Proof. unfold type_to_str. intros [->| ->]; reflexivity. Qed.

Lemma print_fp_defined x v : fp_value v ->
  ~ (f64_exp (v_double v) <> 2047 /\ (f64_scaled (v_double v) = two63 * fp_unit \/ f64_scaled (v_double v) = - two63 * fp_unit)) ->
  exists s, type_to_str x v = Ok s.
Proof.
  intros Hv N. rewrite type_to_str_fp by (destruct Hv as [[? _]|[? _]]; auto).
  unfold conv_type_fp. destruct (fp_prints_as_int (v_double v)) eqn:E; [|eauto].
  unfold fp_prints_as_int in E. pose proof fp_unit_pos as FU.
  rewrite !andb_true_iff in E. destruct E as [[[E1 E2] E3] E4].
  set (d := v_double v) in *.
  pose proof (Z.div_mod (f64_scaled d) fp_unit ltac:(lia)) as DM.
  set (n := f64_scaled d / fp_unit) in *.
  assert (SD: f64_scaled d = fp_unit * n) by lia.
  destruct (Z.eqb_spec n two63) as [EQ|NE].
  { exfalso. apply N. split; [lia|]. left. rewrite SD, EQ. ring. }
  assert (n <> - two63).
  { intros EQ. apply N. split; [lia|]. right. rewrite SD, EQ. ring. }
  destruct (conv_type_int_spec TI64 n) as (s & Hs & _); auto.
  - unfold in_range. cbn [int_min int_max]. nia.
  - exists s. exact Hs.
Qed.

Lemma print_fp_integral x v n : fp_value v -> f64_exp (v_double v) <> 2047 ->
  f64_scaled (v_double v) = n * fp_unit -> - two63 < n < two63 ->
  exists s, type_to_str x v = Ok s /\ dec_text n s.
Proof.
  intros Hv E SD R. rewrite type_to_str_fp by (destruct Hv as [[? _]|[? _]]; auto).
  unfold conv_type_fp. set (d := v_double v) in *. pose proof fp_unit_pos as FU.
  destruct (scaled_div d n SD) as [D M].
  assert (P: fp_prints_as_int d = true).
  { unfold fp_prints_as_int. rewrite M, SD. replace (f64_exp d =? 2047) with false by lia. cbn [negb Z.eqb andb].
    apply andb_true_iff. split; apply Z.leb_le; nia. }
  rewrite P, D. replace (n =? two63) with false by lia.
  apply conv_type_int_spec; auto; [|lia].
  unfold in_range. cbn [int_min int_max]. lia.
Qed.

(** reading the number printed for an integral double gives the same double back *)
Lemma scalar_roundtrip x hint t n : int_ty t -> is_fp hint = false -> in_range t n -> n <> - two63 ->
  exists s, type_to_str x (val_int t n) = Ok s /\ dec_text n s /\
            str_to_type x s hint = Some (val_int (if n <? 0 then TI64 else TUI64) n).
Proof.
  intros Ht Hh Hr Hn.
  assert (IT: is_int_ty t = true) by (unfold int_ty in Ht; repeat destruct Ht as [<-|Ht]; try destruct Ht; reflexivity).
  destruct (conv_type_int_spec t n IT Hr Hn) as (s & Hs & Hd).
  exists s. split; [|split; auto].
  - rewrite <- Hs. unfold int_ty in Ht. repeat destruct Ht as [<-|Ht]; try destruct Ht; reflexivity.
  - apply parse_dec_text; auto. destruct (ty_bounds t n IT Hr) as (_ & _ & B & _). lia.
Qed.
