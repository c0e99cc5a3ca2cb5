(** Operations of a parser on its Lib::Out object (include/Srl/Out.h:28-39).  Definitions only.
    [OWrite bs]    : write / write_byte / write_times / write_substitute of one chunk (Out.hpp:31-40,68-112)
    [OReserve n]   : reserve(n); the k-th reservation of a document gets ticket number k (Out.hpp:59-66)
    [OPatch k o b] : write(ticket k, b, o, |b|) (Out.hpp:42-57). *)
From Coq Require Import ZArith List Bool.
From Verif Require Import Base.
Import ListNotations.
Open Scope Z_scope.

Inductive oop : Type :=
| OWrite (bs : bytes)
| OReserve (n : nat)
| OPatch (ticket off : nat) (bs : bytes).
