(** What C96 says about numbers that go into floating point types, without reference to how they are converted.  Numbers are
    counted in units of 2^-1074, the smallest double. *)
From Coq Require Import ZArith.
From Verif Require Import Base M_Types.
Open Scope Z_scope.

(** bit patterns of finite doubles and floats *)
Definition finite64 (b : Z) : Prop := 0 <= b < 2 ^ 64 /\ f64_exp b <> 2047.
(** the same for floats *)
Definition finite32 (b : Z) : Prop := 0 <= b < 2 ^ 32 /\ f32_exp b <> 255.
(** [a] is as near to [z] as [b]; if both are equally near and different, [a] is an even multiple of their distance (ties to even) *)
Definition as_near (z a b : Z) : Prop :=
  Z.abs (a - z) <= Z.abs (b - z) /\ (Z.abs (a - z) = Z.abs (b - z) -> a <> b -> exists m, a = 2 * m * (b - a)).
(** of all finite doubles (floats), [r] is nearest to [z] *)
Definition nearest64 (z r : Z) : Prop := finite64 r /\ forall y, finite64 y -> as_near z (f64_scaled r) (f64_scaled y).
(** the same for floats *)
Definition nearest32 (z r : Z) : Prop := finite32 r /\ forall y, finite32 y -> as_near z (f32_scaled r) (f32_scaled y).
(** the greatest float, 3.4028235e38 *)
Definition float_max : Z := (2 ^ 24 - 1) * 2 ^ 104 * 2 ^ 1074.
