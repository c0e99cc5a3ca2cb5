(** Documents with doubles, printed by the printer of the library and read by a reader that rounds correctly. *)
From Coq Require Import ZArith List Bool.
From Verif Require Import Base M_Types M_Conv M_Fpconv S_Conv S_Doc S_Json S_JsonText S_Fpconv S_FpRead.
Import ListNotations.
Open Scope Z_scope.

(** the functions on texts of doubles: fpconv_dtoa and a strtod that rounds correctly *)
Definition real_fp (x : fp_text) : Prop := (forall d, finite d -> fpconv_dtoa d = Ok (x_dtoa x d)) /\ reads_nearest (x_strtod x).
(** finite doubles but those between 2^63 and 2^80 *)
Definition moderate (d : Z) : Prop := finite d /\ (Z.abs (f64_scaled d) < 2 ^ 63 * fp_unit \/ 2 ^ 80 * fp_unit <= Z.abs (f64_scaled d)).
(** values that JSON can carry; the printer and the reader of doubles are not mentioned *)
Definition plain_value (v : value) : Prop :=
  match meaning_of v with
  | MeInt n => n <> - 2 ^ 63
  | MeFloat d => moderate d
  | MeStr _ => v_enc v = EUTF8
  | MeBin bs => zlen bs < 3 * 2 ^ 30 - 3
  | _ => True
  end.
(** strings without control characters other than those with an escape of their own *)
Definition rfc_string (v : value) : Prop := match meaning_of v with MeStr s => Forall rfc_char s | _ => True end.
(** the model of the printer with the reference reader *)
Definition the_fp : fp_text := {| x_strtod := ref_strtod; x_dtoa := fun d => match fpconv_dtoa d with Ok t => t | _ => [] end |}.
