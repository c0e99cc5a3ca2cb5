(** Model of the number conversions performed on paste: include/Srl/TpTools.h:59-184 and the numeric
    Switch of include/Srl/Resolve.hpp:283-341.  Definitions only. *)
From Coq Require Import ZArith List Bool.
From Verif Require Import Base M_Types M_Conv.
Import ListNotations.
Open Scope Z_scope.

(** C++ [is_signed<T>] of the real type behind the tag, Type.h:13-31 (bool is unsigned) *)
Definition signed_ty (t : ty) : bool :=
  match t with TI8 | TI16 | TI32 | TI64 | TFP32 | TFP64 => true | _ => false end.

(** [overflows<T, U>] with U = uint64_t, TpTools.h:69-104.  For a floating point T nothing overflows:
    max<float>() exceeds every 64 bit integer (TpTools.h:69-74) and double has the same size as U
    (TpTools.h:99-104). *)
Definition overflows_u64 (t : ty) (val : Z) : bool :=
  if is_fp t then false
  else if ty_size t <? 8 then int_max t <? val
  else if signed_ty t then (two64 - 1) / 2 <? val else false.

(** [overflows<T, U>] with U = int64_t *)
(** TpTools.h:69-104 *)
Definition overflows_i64 (t : ty) (val : Z) : bool :=
  if is_fp t then false
  else if ty_size t <? 8 then (int_max t <? val) || (val <? int_min t)
  else false.

(** integer shifted right by k bits, rounded to nearest, ties to even (IEEE 754 default rounding) *)
(** TpTools.h:117, 132: rounding in target = val *)
Definition rne_shift (m k : Z) : Z :=
  if k <=? 0 then m * 2 ^ (- k)
  else
    let q := m / 2 ^ k in
    let r := m mod 2 ^ k in
    let half := 2 ^ (k - 1) in
    if r <? half then q else if half <? r then q + 1 else if Z.even q then q else q + 1.

(** conversion of an integer to a floating point format with [p] bits precision and exponent bias [bias] *)
(** TpTools.h:117, 132: target = val *)
Definition fp_of_int (p bias sign_bit n : Z) : Z :=
  if n =? 0 then 0
  else
    let a := Z.abs n in
    let k := Z.log2 a in
    (if n <? 0 then sign_bit else 0) + (k + bias) * 2 ^ (p - 1) + rne_shift a (k - p + 1) - 2 ^ (p - 1).
(** TpTools.h:117, 132 *)
Definition f64_of_int (n : Z) : Z := fp_of_int 53 1023 two63 n.
(** TpTools.h:117, 132 *)
Definition f32_of_int (n : Z) : Z := fp_of_int 24 127 two31 n.

(** double -> float, rounding to nearest; used only for magnitudes up to FLT_MAX and NaN
    (TpTools.h:152-156 rejects the others) *)
Definition f32_of_f64 (d : Z) : Z :=
  let s := (if f64_sign d then two31 else 0) in
  let e := f64_exp d in
  let m := f64_man d in
  if e =? 2047 then (if m =? 0 then s + 255 * 2 ^ 23 else s + 255 * 2 ^ 23 + 2 ^ 22)
  else if e =? 0 then s
  else
    let E := e - 1023 in
    if -126 <=? E then s + (E + 126) * 2 ^ 23 + rne_shift (2 ^ 52 + m) 29
    else s + rne_shift (2 ^ 52 + m) (-97 - E).

(** comparisons of a double with an integer-valued bound *)
(** TpTools.h:153 *)
Definition f64_lt_Z (d : Z) (n : Z) : bool :=
  if f64_exp d =? 2047 then (f64_man d =? 0) && f64_sign d else f64_scaled d <? n * fp_unit.
(** TpTools.h:153 *)
Definition f64_gt_Z (d : Z) (n : Z) : bool :=
  if f64_exp d =? 2047 then (f64_man d =? 0) && negb (f64_sign d) else n * fp_unit <? f64_scaled d.

(** [(double)max<T>()] / [min<T>()] as integers: rounding to double turns 2^63-1 and 2^64-1 into 2^63 and
    2^64; FLT_MAX = (2^24-1)*2^104 *)
(** TpTools.h:63-64, 153 *)
Definition fp_bound_max (t : ty) : Z :=
  match t with
  | TI64 => two63 | TUI64 => two64 | TFP32 => (2 ^ 24 - 1) * 2 ^ 104 | _ => int_max t
  end.
(** TpTools.h:66-67, 153 *)
Definition fp_bound_min (t : ty) : Z :=
  match t with TFP32 => - ((2 ^ 24 - 1) * 2 ^ 104) | _ => int_min t end.

(** [(T)val] for a floating point val, TpTools.h:158: undefined if the truncated value does not fit; to bool
    the conversion is [val != 0] *)
Definition fp_cast (t : ty) (v : value) : res Z :=
  let d := v_double v in
  match t with
  | TFP64 => Ok d
  | TFP32 => Ok (if ty_eqb (v_type v) TFP32 then v_fp32 v else f32_of_f64 d)
  | TBool => Ok (if (f64_exp d =? 2047) || negb (f64_scaled d =? 0) then 1 else 0)
  | _ =>
      if f64_exp d =? 2047 then UB UbCast
      else
        let n := Z.quot (f64_scaled d) fp_unit in
        if (int_min t <=? n) && (n <=? int_max t) then Ok n else UB UbCast
  end.

(** [try_apply<T, TP>], TpTools.h:106-168.  [t] is the tag of the target type T (bool, integers, float, double);
    the result is the integer stored, or the bit pattern for float/double; None = returns false. *)
Definition apply_type (t : ty) (v : value) : res (option Z) :=
  match v_type v with
  | TBool =>
      let val := v_i64 v in
      Ok (Some (match t with TFP64 => f64_of_int val | TFP32 => f32_of_int val | _ => val end))
  | TI8 | TI16 | TI32 | TI64 =>
      let val := v_i64 v in
      if (negb (signed_ty t) && (val <? 0)) || overflows_i64 t val then Ok None
      else Ok (Some (match t with TFP64 => f64_of_int val | TFP32 => f32_of_int val | _ => val end))
  | TUI8 | TUI16 | TUI32 | TUI64 =>
      let val := v_raw v in
      if overflows_u64 t val then Ok None
      else Ok (Some (match t with TFP64 => f64_of_int val | TFP32 => f32_of_int val | _ => val end))
  | TFP32 | TFP64 =>
      let d := v_double v in
      if negb (ty_eqb t (v_type v)) && negb (ty_eqb t TFP64) &&
         (f64_lt_Z d (fp_bound_min t) || f64_gt_Z d (fp_bound_max t))
      then Ok None
      else let* r := fp_cast t v in Ok (Some r)
  | TNull => Ok (Some 0)
  | _ => Ok None   (* default: assert(false); return false *)
  end.

(** [Switch<T>::Apply], Resolve.hpp:330-340 *)
Definition apply_or_throw (t : ty) (v : value) : res Z :=
  let* o := apply_type t v in
  match o with Some n => Ok n | None => Err end.

(** [Switch<T>::Paste] for numeric T, Resolve.hpp:299-328 with check_type_value (Resolve.hpp:1020-1027).
    Simplification: the text of a String value is taken as UTF-8 (other encodings are first converted by
    conv_charset, ToolsStrConv.cpp:232-244). *)
Definition paste_num (x : fp_text) (t : ty) (v : value) : res Z :=
  if negb (ty_eqb (v_type v) TString) && negb (is_scalar (v_type v)) then Err
  else if ty_eqb (v_type v) TString then
    match str_to_type x (v_data v) TNull with
    | None => Err
    | Some v' => apply_or_throw t v'
    end
  else apply_or_throw t v.
