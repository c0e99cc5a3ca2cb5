(** Model of Switch<long double> (include/Srl/Resolve.hpp:345-370).  Definitions only. *)
From Coq Require Import ZArith Bool.
From Verif Require Import Base M_Types M_Conv M_TpTools.
Open Scope Z_scope.

(** a long double (Resolve.hpp:345) with 15 bits of exponent and 64 of mantissa: sign and magnitude in units of 2^-16445, the
    smallest one; an infinity; or no number *)
Inductive ld : Type := LdFin (neg : bool) (a : Z) | LdInf (neg : bool) | LdNan.
(** [(double)ld], Resolve.hpp:358: rounded to nearest, ties to even; beyond the doubles it is infinite (IEC 60559; the C++ standard
    alone leaves it undefined).  Simplification: one NaN. *)
Definition ld_to_f64 (l : ld) : Z :=
  match l with
  | LdFin s a =>
      let g := Z.max (Z.log2 a - 52) 15371 in
      let b := (g - 15371) * 2 ^ 52 + rne_shift a g in
      (if s then two63 else 0) + (if 2047 * 2 ^ 52 <=? b then 2047 * 2 ^ 52 else b)
  | LdInf s => (if s then two63 else 0) + 2047 * 2 ^ 52
  | LdNan => 2047 * 2 ^ 52 + 2 ^ 51
  end.
(** [(long double)d], Resolve.hpp:368: exact *)
Definition f64_to_ld (d : Z) : ld :=
  if f64_exp d =? 2047 then (if f64_man d =? 0 then LdInf (f64_sign d) else LdNan)
  else LdFin (f64_sign d) (Z.abs (f64_scaled d) * 2 ^ 15371).
(** Switch<long double>::Insert, Resolve.hpp:356-359 *)
Definition insert_ld (l : ld) : value := val_f64 (ld_to_f64 l).
(** Switch<long double>::Paste, Resolve.hpp:361-369 *)
Definition paste_ld (x : fp_text) (v : value) : res ld := let* d := paste_num x TFP64 v in Ok (f64_to_ld d).
