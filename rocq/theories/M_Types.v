(** Model of the type tags and of Srl::Value.  Definitions only. *)
From Coq Require Import ZArith List Bool.
From Verif Require Import Base.
Import ListNotations.
Open Scope Z_scope.

(** include/Srl/Type.h:13-36 [enum class Type] *)
Inductive ty : Type :=
| TBool | TI8 | TUI8 | TI16 | TUI16 | TI32 | TUI32 | TI64 | TUI64
| TFP32 | TFP64 | TNull | TString | TBinary | TObject | TArray | TScopeEnd.

(** numeric value of the enumerators, Type.h:13-31 *)
Definition ty_num (t : ty) : Z :=
  match t with
  | TBool => 0 | TI8 => 1 | TUI8 => 2 | TI16 => 3 | TUI16 => 4 | TI32 => 5 | TUI32 => 6
  | TI64 => 7 | TUI64 => 8 | TFP32 => 9 | TFP64 => 10 | TNull => 11 | TString => 12
  | TBinary => 13 | TObject => 14 | TArray => 15 | TScopeEnd => 16
  end.

Definition ty_eqb (a b : ty) : bool := ty_num a =? ty_num b.

(** include/Srl/TpTools.h:57 [get_size], sizes from Type.h:13-31 *)
Definition ty_size (t : ty) : Z :=
  match t with
  | TBool => 1 | TI8 => 1 | TUI8 => 1 | TI16 => 2 | TUI16 => 2 | TI32 => 4 | TUI32 => 4
  | TI64 => 8 | TUI64 => 8 | TFP32 => 4 | TFP64 => 8 | _ => 0
  end.

(** include/Srl/TpTools.h:50-55 *)
Definition is_scope (t : ty) : bool := ty_eqb t TObject || ty_eqb t TArray.
Definition is_scalar (t : ty) : bool := ty_num t <? ty_num TString.
Definition is_num (t : ty) : bool := (ty_num t <? ty_num TNull) && (ty_num TBool <? ty_num t).
Definition is_integral (t : ty) : bool := ty_num t <? ty_num TFP32.
Definition is_fp (t : ty) : bool := ty_eqb t TFP32 || ty_eqb t TFP64.
Definition is_signed (t : ty) : bool := is_fp t || (is_integral t && (ty_num t mod 2 =? 1)).

(** include/Srl/Enums.h:18-23 *)
Inductive enc : Type := EUnknown | EUTF8 | EUTF16 | EUTF32.
Definition enc_num (e : enc) : Z :=
  match e with EUnknown => 0 | EUTF8 => 1 | EUTF16 => 2 | EUTF32 => 3 end.
Definition enc_eqb (a b : enc) : bool := enc_num a =? enc_num b.

(** Srl::Value / Lib::PackedBlock (include/Srl/Value.h:16-51, include/Srl/Blocks.h:25-67).
    [v_raw]  : the union read as [ui64]; meaningful for values constructed from a number
               (for FP32 the four low bytes hold the float, the upper ones are zero, Blocks.h:28).
    [v_data] : the bytes [data()[0..size)] for String and Binary values (and for text-converted scalars).
    Simplification: whether the bytes are stored locally or externally is not represented,
    and the data is a copy instead of a pointer. *)
Record value : Type := mkValue {
  v_type : ty;
  v_raw  : Z;
  v_data : bytes;
  v_enc  : enc
}.

(** Blocks.h:30-31: [size(block.size)] converts size_t to uint32_t, so a block of 2^32 bytes or more
    is truncated to its size modulo 2^32. *)
Definition trunc_block (d : bytes) : bytes := firstn (Z.to_nat (u32 (zlen d))) d.

(** Value(Type), Value.h:24-25 *)
Definition val_type (t : ty) : value := mkValue t 0 [] EUnknown.
(** Value(MemBlock, Type), Value.h:27-28 *)
Definition val_block (d : bytes) (t : ty) : value := mkValue t 0 (trunc_block d) EUnknown.
(** Value(MemBlock, Encoding), Value.h:30-31 *)
Definition val_string (d : bytes) (e : enc) : value := mkValue TString 0 (trunc_block d) e.
(** Value(MemBlock, Type, Encoding), Value.h:33-34 *)
Definition val_block_enc (d : bytes) (t : ty) (e : enc) : value := mkValue t 0 (trunc_block d) e.

(** range of the integral types (std::numeric_limits min/max) *)
(** TpTools.h:66-67 *)
Definition int_min (t : ty) : Z :=
  match t with
  | TI8 => -128 | TI16 => -32768 | TI32 => - two31 | TI64 => - two63 | _ => 0
  end.
(** TpTools.h:63-64 *)
Definition int_max (t : ty) : Z :=
  match t with
  | TBool => 1 | TI8 => 127 | TUI8 => 255 | TI16 => 32767 | TUI16 => 65535
  | TI32 => two31 - 1 | TUI32 => two32 - 1 | TI64 => two63 - 1 | TUI64 => two64 - 1
  | _ => 0
  end.
(** TpTools.h:63-67 *)
Definition in_range (t : ty) (n : Z) : Prop := int_min t <= n <= int_max t.

(** Value(const T&) for an integral T, include/Srl/Value.hpp:12-40: the number is widened to 64 bit
    (sign extended for signed types). *)
Definition val_int (t : ty) (n : Z) : value := mkValue t (u64 n) [] EUnknown.
Definition val_bool (b : bool) : value := mkValue TBool (if b then 1 else 0) [] EUnknown.
(** Value(const float&): Value.hpp:29-30 *)
Definition val_f32 (bits : Z) : value := mkValue TFP32 bits [] EUnknown.

(** * Floating point numbers as bit patterns *)

(** Blocks.h:36-37: fp64, fp32 *)
Definition f32_sign (b : Z) : bool := two31 <=? b.
(** Blocks.h:36-37: fp64, fp32 *)
Definition f32_exp  (b : Z) : Z := (b / 2 ^ 23) mod 256.
(** Blocks.h:36-37: fp64, fp32 *)
Definition f32_man  (b : Z) : Z := b mod 2 ^ 23.
(** Blocks.h:36-37: fp64, fp32 *)
Definition f64_sign (b : Z) : bool := two63 <=? b.
(** Blocks.h:36-37: fp64, fp32 *)
Definition f64_exp  (b : Z) : Z := (b / 2 ^ 52) mod 2048.
(** Blocks.h:36-37: fp64, fp32 *)
Definition f64_man  (b : Z) : Z := b mod 2 ^ 52.

(** Blocks.h:36-37: fp64, fp32 *)
Definition f64_isnan (b : Z) : bool := (f64_exp b =? 2047) && negb (f64_man b =? 0).
(** Blocks.h:36-37: fp64, fp32 *)
Definition f64_isinf (b : Z) : bool := (f64_exp b =? 2047) && (f64_man b =? 0).
(** Blocks.h:36-37: fp64, fp32 *)
Definition f32_isnan (b : Z) : bool := (f32_exp b =? 255) && negb (f32_man b =? 0).
(** Blocks.h:36-37: fp64, fp32 *)
Definition f32_isinf (b : Z) : bool := (f32_exp b =? 255) && (f32_man b =? 0).

(** exact value of a finite double / float, as a multiple of 2^-1074 *)
(** Blocks.h:36-37: fp64, fp32 *)
Definition fp_unit : Z := 2 ^ 1074.
(** Blocks.h:36-37: fp64, fp32 *)
Definition f64_scaled (b : Z) : Z :=
  let m := if f64_exp b =? 0 then f64_man b
           else (2 ^ 52 + f64_man b) * 2 ^ (f64_exp b - 1) in
  if f64_sign b then - m else m.
(** Blocks.h:36-37: fp64, fp32 *)
Definition f32_scaled (b : Z) : Z :=
  let m := if f32_exp b =? 0 then f32_man b
           else (2 ^ 23 + f32_man b) * 2 ^ (f32_exp b - 1) in
  (if f32_sign b then - m else m) * 2 ^ 925.

(** float -> double conversion (exact; IEEE 754). The payload of a NaN is kept; quieting of signalling
    NaNs by the hardware is not modelled. *)
(** TpTools.h:150: a float assigned to a double *)
Definition f32_to_f64 (b : Z) : Z :=
  let s := (if f32_sign b then two63 else 0) in
  let e := f32_exp b in
  let m := f32_man b in
  if e =? 255 then s + 2047 * 2 ^ 52 + m * 2 ^ 29
  else if e =? 0 then
    if m =? 0 then s
    else let k := Z.log2 m in s + (k - 149 + 1023) * 2 ^ 52 + (m - 2 ^ k) * 2 ^ (52 - k)
  else s + (e - 127 + 1023) * 2 ^ 52 + m * 2 ^ 29.

(** [(float)val == val], include/Srl/Value.hpp:20: the float equal to the double, if there is one.
    Simplification: instead of rounding to nearest and comparing, exactness is tested on the bits
    (rounding gives an equal float iff one exists; cf. narrow64_sound and narrow64_complete in P_Float.v). *)
Definition narrow64 (b : Z) : option Z :=
  let s := (if f64_sign b then two31 else 0) in
  let e := f64_exp b in
  let m := f64_man b in
  if e =? 2047 then (if m =? 0 then Some (s + 255 * 2 ^ 23) else None)
  else if e =? 0 then (if m =? 0 then Some s else None)
  else
    let E := e - 1023 in
    if (-126 <=? E) && (E <=? 127) then
      if m mod 2 ^ 29 =? 0 then Some (s + (E + 127) * 2 ^ 23 + m / 2 ^ 29) else None
    else if (-149 <=? E) && (E <=? -127) then
      let sh := -97 - E in
      if (2 ^ 52 + m) mod 2 ^ sh =? 0 then Some (s + (2 ^ 52 + m) / 2 ^ sh) else None
    else None.

(** Value(const double&), include/Srl/Value.hpp:19-27 *)
Definition val_f64 (bits : Z) : value :=
  match narrow64 bits with
  | Some f => mkValue TFP32 f [] EUnknown
  | None => mkValue TFP64 bits [] EUnknown
  end.

(** [v.pblock().i64] *)
(** Blocks.h:33-40 *)
Definition v_i64 (v : value) : Z := s64 (v_raw v).
(** [v.pblock().fp32] as bits: the low four bytes of the union *)
(** Blocks.h:33-40 *)
Definition v_fp32 (v : value) : Z := v_raw v mod two32.
