(** Properties C01-C10, C28: byte/text/number conversions. *)
From Coq Require Import ZArith List Bool Lia ZifyBool ZifyNat.
From Verif Require Import Base Lemmas M_Types M_Conv M_TpTools S_Conv P_Conv P_Text P_Float P_Paste.
Import ListNotations.
Open Scope Z_scope.

Ltac digs := cbn; repeat (apply Forall_cons; [unfold is_digit; lia|]); apply Forall_nil.

(** * C01 base64 round trip, length, and agreement with an independent RFC 4648 decoder *)
Theorem C01_base64_roundtrip : forall bs, wf_bytes bs -> base64_to_bytes (bytes_to_base64 bs) = Ok bs.
Proof. exact base64_roundtrip. Qed.
Theorem C01_base64_is_rfc4648 : forall bs, wf_bytes bs -> b64_ref (bytes_to_base64 bs) = Some bs.
Proof. exact base64_encode_wellformed. Qed.
Theorem C01_base64_length : forall bs, length (bytes_to_base64 bs) = (4 * ((length bs + 2) / 3))%nat.
Proof. exact base64_length. Qed.
Print Assumptions C01_base64_roundtrip.
Print Assumptions C01_base64_is_rfc4648.
Print Assumptions C01_base64_length.
Example C01_ex : wf_bytes [0; 255; 17; 200] /\ bytes_to_base64 [0; 255; 17; 200] = $"AP8RyA==" /\
  base64_to_bytes ($"AP8RyA==") = Ok [0; 255; 17; 200].
Proof. split; [apply wf_bytesb_spec; reflexivity|split; reflexivity]. Qed.

(** * C02 base64 decoding of malformed text.
    Full statement: [forall s, ~ b64_wellformed s -> base64_to_bytes s = Err].  False in two ways: *)
Theorem C02_base64_rejects_malformed_refuted :
  exists s d, ~ b64_wellformed s /\ base64_to_bytes s = Ok d.
Proof.
  exists ($"=AAA"), [248; 0; 0]. split; [|reflexivity]. intros [d H]. discriminate H.
Qed.
Theorem C02_base64_defined_refuted : exists s u, wf_bytes s /\ base64_to_bytes s = UB u.
Proof. exists [65; 65; 65; 200], UbOob. split; [apply wf_bytesb_spec; reflexivity|reflexivity]. Qed.
(** What holds: well-formed texts decode to what the RFC says; a 7 bit text is accepted iff its length is a
    multiple of four and all characters are in the alphabet or '='; otherwise an exception is thrown.
    Missing for the full statement: '=' in the wrong place and bytes >= 0x80. *)
Theorem C02_base64_accepts_wellformed : forall s d, b64_ref s = Some d -> base64_to_bytes s = Ok d.
Proof. exact base64_wellformed. Qed.
Theorem C02_base64_rejects_malformed_partial : forall s, Forall (fun c => 0 <= c < 128) s ->
  ((length s mod 4 = 0)%nat /\ Forall (fun c => b64_val c <> None \/ c = 61) s /\ exists d, base64_to_bytes s = Ok d) \/
  (~ ((length s mod 4 = 0)%nat /\ Forall (fun c => b64_val c <> None \/ c = 61) s) /\ base64_to_bytes s = Err).
Proof. exact base64_ascii. Qed.
Print Assumptions C02_base64_rejects_malformed_refuted.
Print Assumptions C02_base64_defined_refuted.
Print Assumptions C02_base64_accepts_wellformed.
Print Assumptions C02_base64_rejects_malformed_partial.
Example C02_ex : base64_to_bytes ($"QUJD") = Ok ($"ABC") /\ base64_to_bytes ($"QUJ*") = Err /\ base64_to_bytes ($"QUJDR") = Err
  /\ Forall (fun c => 0 <= c < 128) ($"QUJ*").
Proof. repeat split; try reflexivity. repeat constructor; lia. Qed.

(** * C03 hex *)
Theorem C03_hex_roundtrip : forall bs, wf_bytes bs -> hex_to_bytes (bytes_to_hex bs) = Ok bs.
Proof. exact hex_roundtrip. Qed.
(** with a caller supplied destination of n bytes: exactly the hex texts that fit are accepted, all else throws *)
Theorem C03_hex_decode_exact : forall n s,
  hex_to_bytes_dest n s =
  match hex_ref s with
  | Some d => if Nat.leb (length s / 2) n then Ok d else Err
  | None => Err
  end.
Proof. exact hex_to_bytes_dest_ref. Qed.
Theorem C03_hex_decode_exact_alloc : forall s, hex_to_bytes s = match hex_ref s with Some d => Ok d | None => Err end.
Proof. exact hex_to_bytes_ref. Qed.
Print Assumptions C03_hex_roundtrip.
Print Assumptions C03_hex_decode_exact.
Print Assumptions C03_hex_decode_exact_alloc.
Example C03_ex : bytes_to_hex [171; 0; 15] = $"AB000F" /\ hex_to_bytes ($"aB000f") = Ok [171; 0; 15] /\
  hex_to_bytes ($"AB0") = Err /\ hex_to_bytes ($"0g") = Err /\ hex_to_bytes_dest 2 ($"AB000F") = Err.
Proof. repeat split. Qed.

(** * C04 integer texts within 64 bit are parsed exactly *)
Theorem C04_parse_unsigned : forall x hint ws s ws', is_fp hint = false -> Forall white ws -> Forall white ws' ->
  digits s -> dec_value s < 2 ^ 64 ->
  str_to_type x (ws ++ s ++ ws') hint = Some (val_int TUI64 (dec_value s)).
Proof. exact parse_nat. Qed.
Theorem C04_parse_negative : forall x hint ws s ws', is_fp hint = false -> Forall white ws -> Forall white ws' ->
  digits s -> dec_value s < 2 ^ 63 ->
  str_to_type x (ws ++ (45 :: s) ++ ws') hint = Some (val_int TI64 (- dec_value s)).
Proof. exact parse_neg. Qed.
Print Assumptions C04_parse_unsigned.
Print Assumptions C04_parse_negative.
Definition no_fp : fp_text := mkFpText (fun _ => None) (fun _ => []).
Example C04_ex : digits ($"00018446744073709551615") /\ dec_value ($"00018446744073709551615") < 2 ^ 64 /\
  str_to_type no_fp ([32; 9] ++ $"00018446744073709551615" ++ [10]) TNull = Some (val_int TUI64 18446744073709551615) /\
  str_to_type no_fp ($" -9223372036854775807") TNull = Some (val_int TI64 (-9223372036854775807)).
Proof.
  split; [split; [discriminate|digs]|]. split; [vm_compute; reflexivity|]. split; vm_compute; reflexivity.
Qed.

(** * C05 overflowing integer texts.
    Full statement: [digits s -> 2^64 <= dec_value s -> str_to_int does not succeed].  False: *)
Theorem C05_overflow_never_wraps_refuted :
  exists s n, digits s /\ 2 ^ 64 <= dec_value s /\ n <> dec_value s /\
  forall x, str_to_type x s TNull = Some (val_int TUI64 n).
Proof.
  exists ($"30000000000000000000"), 11553255926290448384.
  split; [split; [discriminate|digs]|]. split; [vm_compute; discriminate|]. split; [vm_compute; discriminate|].
  intros x. vm_compute. reflexivity.
Qed.
(** What holds: overflow is caught when the first too large prefix N satisfies N - 2^64 < N/10, i.e. up to
    20496382304121724017 for twenty digit numbers.  Missing: all larger numbers. *)
Theorem C05_overflow_never_wraps_partial : forall p c q, Forall is_digit p -> is_digit c ->
  dec_value p < 2 ^ 64 -> 2 ^ 64 <= dec_value (p ++ [c]) -> 9 * dec_value p + (c - 48) < 2 ^ 64 ->
  str_to_int (p ++ c :: q) = (dec_value p, false, false).
Proof. exact overflow_caught. Qed.
Print Assumptions C05_overflow_never_wraps_refuted.
Print Assumptions C05_overflow_never_wraps_partial.
Example C05_ex : Forall is_digit ($"1844674407370955161") /\ dec_value ($"1844674407370955161") < 2 ^ 64 /\
   2 ^ 64 <= dec_value ($"1844674407370955161" ++ [54]) /\ 9 * dec_value ($"1844674407370955161") + (54 - 48) < 2 ^ 64 /\
   str_to_type no_fp ($"18446744073709551616") TNull = None.
Proof.
  split; [digs|]. split; [vm_compute; reflexivity|]. split; [vm_compute; discriminate|].
  split; vm_compute; reflexivity.
Qed.

(** * C06 scalar text round trip.
    Full statement includes n = -2^63 for int64_t, which is false of the code: *)
Theorem C06_scalar_text_roundtrip_refuted :
  exists t n, In t [TI8; TUI8; TI16; TUI16; TI32; TUI32; TI64; TUI64] /\ in_range t n /\
  forall x, type_to_str x (val_int t n) = UB UbSigned.
Proof. exists TI64, (- 2 ^ 63). repeat split; cbn; auto 10; unfold_words; try lia. Qed.
(** every other integer of every width: the text is its decimal notation (and fits the stack buffer, since the
    model has no out of bounds store) and reads back as the same number *)
Theorem C06_scalar_text_roundtrip_partial : forall x hint t n,
  In t [TI8; TUI8; TI16; TUI16; TI32; TUI32; TI64; TUI64] -> is_fp hint = false -> in_range t n -> n <> - 2 ^ 63 ->
  exists s, type_to_str x (val_int t n) = Ok s /\
    ((0 <= n /\ digits s /\ dec_value s = n) \/ (n < 0 /\ exists s', s = 45 :: s' /\ digits s' /\ dec_value s' = - n)) /\
    str_to_type x s hint = Some (val_int (if n <? 0 then TI64 else TUI64) n).
Proof. exact scalar_roundtrip. Qed.
Theorem C06_bool_null_text_roundtrip : forall x hint,
  (forall b, exists s, type_to_str x (val_bool b) = Ok s /\ str_to_type x s hint = Some (val_bool b)) /\
  (exists s, type_to_str x (val_type TNull) = Ok s /\ str_to_type x s hint = Some (val_type TNull)).
Proof.
  intros. split; [intros [|]|]; eexists; split; reflexivity.
Qed.
Print Assumptions C06_scalar_text_roundtrip_refuted.
Print Assumptions C06_scalar_text_roundtrip_partial.
Print Assumptions C06_bool_null_text_roundtrip.
Example C06_ex : in_range TI64 (-9223372036854775807) /\
  type_to_str no_fp (val_int TI64 (-9223372036854775807)) = Ok ($"-9223372036854775807") /\
  type_to_str no_fp (val_int TUI64 18446744073709551615) = Ok ($"18446744073709551615").
Proof. repeat split; try reflexivity; cbn; unfold_words; lia. Qed.

(** * C07 FNV-1a *)
Theorem C07_hash_is_fnv1a : forall bs, fnv1a bs = Ok (fnv1a_ref bs).
Proof. exact fnv1a_correct. Qed.
Print Assumptions C07_hash_is_fnv1a.
(** published test vectors of the FNV-1a 64 bit hash *)
Example C07_ex : fnv1a [] = Ok 14695981039346656037 /\ fnv1a ($"a") = Ok 12638187200555641996 /\
  fnv1a ($"foobar") = Ok 9625390261332436968 /\ is_ok (fnv1a ($"seventeen chars..")) = true.
Proof. repeat split; reflexivity. Qed.

(** * C08 integer into integer *)
Theorem C08_paste_int_exact_or_throws : forall x s t n,
  In s [TBool; TI8; TUI8; TI16; TUI16; TI32; TUI32; TI64; TUI64] ->
  In t [TBool; TI8; TUI8; TI16; TUI16; TI32; TUI32; TI64; TUI64] ->
  in_range s n ->
  (in_range t n -> paste_num x t (val_int s n) = Ok n) /\
  (~ in_range t n -> paste_num x t (val_int s n) = Err).
Proof. exact paste_int. Qed.
Print Assumptions C08_paste_int_exact_or_throws.
Example C08_ex : in_range TI64 (-129) /\ ~ in_range TI8 (-129) /\
  paste_num no_fp TI8 (val_int TI64 (-129)) = Err /\ paste_num no_fp TI8 (val_int TI64 (-128)) = Ok (-128) /\
  paste_num no_fp TUI64 (val_int TI8 (-1)) = Err /\ paste_num no_fp TI64 (val_int TUI64 (2 ^ 63)) = Err /\
  paste_num no_fp TBool (val_int TUI8 2) = Err.
Proof. unfold in_range; cbn; unfold_words. repeat split; try lia; reflexivity. Qed.

(** * C09 floating point into integer.
    Full statement: defined for every float/double; Ok of the truncation if that is in range, else Err. *)
Theorem C09_paste_fp_defined_refuted :
  exists t v, In t [TI8; TUI8; TI16; TUI16; TI32; TUI32; TI64; TUI64] /\ v_type v = TFP64 /\ f64_isnan (v_raw v) = true /\
  forall x, paste_num x t v = UB UbCast.
Proof. exists TI32, (mkValue TFP64 (2047 * 2 ^ 52 + 1) [] EUnknown). repeat split; cbn; auto 10. Qed.
Theorem C09_paste_fp_bound_refuted :
  exists t v, In t [TI8; TUI8; TI16; TUI16; TI32; TUI32; TI64; TUI64] /\ v_type v = TFP32 /\
   f64_scaled (v_double v) = 2 ^ 63 * 2 ^ 1074 /\ forall x, paste_num x t v = UB UbCast.
Proof. exists TI64, (mkValue TFP32 ((127 + 63) * 2 ^ 23) [] EUnknown). split; [cbn; auto 10|]. split; [reflexivity|]. split; [vm_compute; reflexivity|]. intros x. vm_compute. reflexivity. Qed.
(** 255.5 has the representable truncation 255 but is rejected *)
Theorem C09_paste_fp_truncates_refuted :
  exists t v n, v_type v = TFP32 /\ in_range t n /\ Z.quot (f64_scaled (v_double v)) (2 ^ 1074) = n /\
    forall x, paste_num x t v = Err.
Proof.
  exists TUI8, (mkValue TFP32 (134 * 2 ^ 23 + (511 * 2 ^ 15 - 2 ^ 23)) [] EUnknown), 255.
  split; [reflexivity|]. split; [split; vm_compute; discriminate|]. split; [vm_compute; reflexivity|]. intros; vm_compute; reflexivity.
Qed.
(** What holds: no NaN, not exactly 2^63 / 2^64 for the 64 bit targets: truncation if the number itself lies in
    [min, max] of the target, exception otherwise (infinities included).
    Missing: the excluded inputs (undefined) and numbers strictly between max and max+1 or min-1 and min. *)
Theorem C09_paste_fp_partial : forall x t v,
  (v_type v = TFP32 /\ 0 <= v_raw v < 2 ^ 32) \/ (v_type v = TFP64 /\ 0 <= v_raw v < 2 ^ 64) ->
  In t [TI8; TUI8; TI16; TUI16; TI32; TUI32; TI64; TUI64] ->
  f64_isnan (v_double v) = false ->
  ~ (t = TI64 /\ f64_isinf (v_double v) = false /\ f64_scaled (v_double v) = 2 ^ 63 * 2 ^ 1074) ->
  ~ (t = TUI64 /\ f64_isinf (v_double v) = false /\ f64_scaled (v_double v) = 2 ^ 64 * 2 ^ 1074) ->
  (f64_isinf (v_double v) = false /\ int_min t * 2 ^ 1074 <= f64_scaled (v_double v) <= int_max t * 2 ^ 1074 ->
     paste_num x t v = Ok (Z.quot (f64_scaled (v_double v)) (2 ^ 1074))) /\
  (f64_isinf (v_double v) = true \/ ~ (int_min t * 2 ^ 1074 <= f64_scaled (v_double v) <= int_max t * 2 ^ 1074) ->
     paste_num x t v = Err).
Proof. exact paste_fp_int. Qed.
Print Assumptions C09_paste_fp_defined_refuted.
Print Assumptions C09_paste_fp_bound_refuted.
Print Assumptions C09_paste_fp_truncates_refuted.
Print Assumptions C09_paste_fp_partial.
(** 3.75 -> 3, -3.75 -> -3, 1e300 (bits) -> exception *)
Example C09_ex : paste_num no_fp TI8 (mkValue TFP64 4615626668007751680 [] EUnknown) = Ok 3 /\
  paste_num no_fp TI8 (mkValue TFP64 (4615626668007751680 + 2 ^ 63) [] EUnknown) = Ok (-3) /\
  paste_num no_fp TI64 (mkValue TFP64 (2020 * 2 ^ 52 + 5) [] EUnknown) = Err.
Proof. repeat split; vm_compute; reflexivity. Qed.

(** * C10 narrowing of doubles *)
(** whatever double is stored, the stored value denotes exactly the same bit pattern when widened again *)
Theorem C10_narrowing_lossless : forall d, 0 <= d < 2 ^ 64 -> v_double (val_f64 d) = d.
Proof. exact val_f64_roundtrip. Qed.
(** it is stored as float iff some non-NaN float widens to it *)
Theorem C10_narrowed_iff_float_exists : forall d, 0 <= d < 2 ^ 64 ->
  (v_type (val_f64 d) = TFP32 <-> exists f, 0 <= f < 2 ^ 32 /\ f32_isnan f = false /\ f32_to_f64 f = d).
Proof. exact val_f64_type. Qed.
(** and widening is what IEEE says: same sign, same exact value, infinity to infinity *)
Theorem C10_widening_exact : forall f, 0 <= f < 2 ^ 32 ->
  f64_sign (f32_to_f64 f) = f32_sign f /\ 0 <= f32_to_f64 f < 2 ^ 64 /\
  (f32_exp f <> 255 -> f64_exp (f32_to_f64 f) <> 2047 /\ f64_scaled (f32_to_f64 f) = f32_scaled f) /\
  (f32_isinf f = f64_isinf (f32_to_f64 f)) /\ (f32_isnan f = f64_isnan (f32_to_f64 f)).
Proof. exact f32_to_f64_value. Qed.
Print Assumptions C10_narrowing_lossless.
Print Assumptions C10_narrowed_iff_float_exists.
Print Assumptions C10_widening_exact.
(** 0.5 is narrowed; 0.1 is not; the smallest denormal float is; a NaN is not *)
Example C10_ex : v_type (val_f64 4602678819172646912) = TFP32 /\ v_type (val_f64 4591870180066957722) = TFP64 /\
  val_f64 (874 * 2 ^ 52) = mkValue TFP32 1 [] EUnknown /\ v_type (val_f64 (2047 * 2 ^ 52 + 1)) = TFP64 /\
  val_f64 (2 ^ 63) = mkValue TFP32 (2 ^ 31) [] EUnknown.
Proof. repeat split; vm_compute; reflexivity. Qed.

(** * C28 printing a double is defined.  Full statement: for every double.  False for 2^63: *)
Theorem C28_print_double_defined_refuted : exists v, v_type v = TFP32 /\ f64_scaled (v_double v) = 2 ^ 63 * 2 ^ 1074 /\
  forall x, type_to_str x v = UB UbCast.
Proof.
  exists (mkValue TFP32 ((127 + 63) * 2 ^ 23) [] EUnknown). split; [reflexivity|].
  split; [vm_compute; reflexivity|]. intros; vm_compute; reflexivity.
Qed.
Theorem C28_print_double_defined_partial : forall x v,
  (v_type v = TFP32 /\ 0 <= v_raw v < 2 ^ 32) \/ (v_type v = TFP64 /\ 0 <= v_raw v < 2 ^ 64) ->
  ~ (f64_exp (v_double v) <> 2047 /\
     (f64_scaled (v_double v) = 2 ^ 63 * 2 ^ 1074 \/ f64_scaled (v_double v) = - 2 ^ 63 * 2 ^ 1074)) ->
  exists s, type_to_str x v = Ok s.
Proof. exact print_fp_defined. Qed.
Theorem C28_integral_double_prints_decimal : forall x v n,
  (v_type v = TFP32 /\ 0 <= v_raw v < 2 ^ 32) \/ (v_type v = TFP64 /\ 0 <= v_raw v < 2 ^ 64) ->
  f64_exp (v_double v) <> 2047 -> f64_scaled (v_double v) = n * 2 ^ 1074 -> - 2 ^ 63 < n < 2 ^ 63 ->
  exists s, type_to_str x v = Ok s /\
    ((0 <= n /\ digits s /\ dec_value s = n) \/ (n < 0 /\ exists s', s = 45 :: s' /\ digits s' /\ dec_value s' = - n)).
Proof. exact print_fp_integral. Qed.
Print Assumptions C28_print_double_defined_refuted.
Print Assumptions C28_print_double_defined_partial.
Print Assumptions C28_integral_double_prints_decimal.
Example C28_ex : type_to_str no_fp (val_f64 (1055 * 2 ^ 52 + 2 ^ 63)) = Ok ($"-4294967296").
Proof. vm_compute. reflexivity. Qed.
