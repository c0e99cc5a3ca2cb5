(** Character arrays: which text is in the memory of a [TChar[n]]. *)
From Coq Require Import ZArith List Bool.
From Verif Require Import Base M_Types M_Tree M_Object.
Import ListNotations.
Open Scope Z_scope.

(** the [i]-th character of [u] bytes *)
Definition char_at (u : Z) (mem : bytes) (i : Z) : bytes := firstn (Z.to_nat u) (skipn (Z.to_nat (i * u)) mem).
(** the first zero character is the [i]-th *)
Definition ends_at (u : Z) (mem : bytes) (i : Z) : Prop :=
  0 <= i /\ char_at u mem i = repeat 0 (Z.to_nat u) /\ forall j, 0 <= j < i -> char_at u mem j <> repeat 0 (Z.to_nat u).
(** an array of [n] characters *)
Definition array_of (e : enc) (n : Z) (mem : bytes) : Prop := 1 <= n /\ zlen mem = n * unit_size e.
(** the text in an array: what is before the first zero character *)
Definition holds_text (e : enc) (n : Z) (mem s : bytes) : Prop :=
  array_of e n mem /\ exists i, i < n /\ ends_at (unit_size e) mem i /\ s = firstn (Z.to_nat (i * unit_size e)) mem.
Definition unterminated (e : enc) (n : Z) (mem : bytes) : Prop :=
  array_of e n mem /\ forall i, 0 <= i < n -> char_at (unit_size e) mem i <> repeat 0 (Z.to_nat (unit_size e)).
(** a [char[n]] with the text [s] and zeros behind it *)
Definition padded (n : Z) (s mem : bytes) : Prop := mem = s ++ repeat 0 (Z.to_nat (n - zlen s)) /\ zlen s < n /\ ~ In 0 s.
