(** What a double is, what a decimal number is, and what it means that a text stands for a double. *)
From Coq Require Import ZArith List Bool QArith Qabs.
From Verif Require Import Base S_Conv M_Conv.
Import ListNotations.
Open Scope Z_scope.

Definition power (b e : Z) : Q := Qpower (inject_Z b) e.
(** the value of the double with sign 0 and the remaining bits [n] (IEEE 754 binary64) *)
Definition double_value (n : Z) : Q :=
  if n / 2 ^ 52 =? 0 then inject_Z (n mod 2 ^ 52) * power 2 (-1074)
  else inject_Z (n mod 2 ^ 52 + 2 ^ 52) * power 2 (n / 2 ^ 52 - 1075).
(** [q] is nearer to the double [n] than to every other one, including the first one that is too large (2^1024) *)
Definition nearest (n : Z) (q : Q) : Prop :=
  forall m, 0 <= m <= 2047 * 2 ^ 52 -> m <> n -> (Qabs (q - double_value n) < Qabs (q - double_value m))%Q.
Definition finite (bits : Z) : Prop := 0 <= bits < 2 ^ 64 /\ bits mod 2 ^ 63 < 2047 * 2 ^ 52.
Definition negative (bits : Z) : bool := 2 ^ 63 <=? bits.

(** decimal numbers: digits, perhaps a point and digits, perhaps an exponent *)
Definition exponent (t : bytes) (e : Z) : Prop :=
  t = [] /\ e = 0 \/ exists s ds, t = 101 :: s ++ ds /\ digits ds /\ ((s = [] \/ s = [43]) /\ e = dec_value ds \/ s = [45] /\ e = - dec_value ds).
Definition fraction (t f : bytes) : Prop := t = [] /\ f = [] \/ t = 46 :: f /\ digits f.
Definition decimal_text (t : bytes) (neg : bool) (q : Q) : Prop :=
  exists i p f x e, t = (if neg then [45] else []) ++ i ++ p ++ x /\ digits i /\ fraction p f /\ exponent x e /\
    (q == inject_Z (dec_value (i ++ f)) * power 10 (e - zlen f))%Q.

(** a reader of doubles that rounds correctly: the text of a decimal number is read as the double nearest to it *)
Definition reads_nearest (strtod : bytes -> option Z) : Prop :=
  forall t neg q n, decimal_text t neg q -> 0 <= n < 2047 * 2 ^ 52 -> nearest n q -> strtod t = Some (if neg then 2 ^ 63 + n else n).
