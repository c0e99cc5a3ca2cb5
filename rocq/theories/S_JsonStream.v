(** Specification for JSON read from a stream: numbers and constants are short. *)
From Coq Require Import ZArith List Bool.
From Verif Require Import Base.
Import ListNotations.
Open Scope Z_scope.

(** characters that numbers, true, false and null start with or consist of *)
Definition literal_char (c : Z) : Prop := 48 <= c <= 57 \/ In c [116; 114; 117; 101; 102; 97; 108; 115; 84; 70; 110; 78; 43; 46; 45; 69; 105].
(** what ends them: comma, space, closing brackets *)
Definition literal_end (c : Z) : Prop := In c [44; 32; 125; 93].
(** within 1000 bytes after the first character comes the end *)
Definition short_literals (src : bytes) : Prop :=
  forall pre c run post, src = pre ++ c :: run ++ post -> literal_char c -> length run = 1000%nat -> exists e, In e run /\ literal_end e.
