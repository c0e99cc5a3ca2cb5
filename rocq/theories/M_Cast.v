(** Model of the cast in Registrations::create (include/Srl/Registration.h:30-41) for the objects of M_Object.  Definitions only.

    [create<U>] is called with the class [U] of the pointer to restore (include/Srl/Resolve.hpp:449, 462).  The function
    registered under the id yields the address of a new object as [void*] (Registration.h:18, 23), which is cast to [U*].

    Simplifications: a class is described by the classes of the objects inside of its objects (itself, its bases and theirs) and
    their offsets; the cast object can be used if there is a [U] at offset 0.  (The standard promises less: it leaves the
    cast undefined unless the two objects are pointer-interconvertible.) *)
From Coq Require Import ZArith List Bool.
From Verif Require Import Base M_Types M_Conv M_Charset M_Tree M_Reg M_Object.
Import ListNotations.
Open Scope Z_scope.

(** the classes inside of a class and their offsets *)
(** Registration.h:39 *)
Definition layouts : Type := nat -> list (nat * Z).
(** Registration.h:39: there is a [u] at the address of a [c] *)
Definition at_start (lay : layouts) (c u : nat) : bool :=
  Nat.eqb c u || existsb (fun q => Nat.eqb (fst q) u && (snd q =? 0)) (lay c).
(** Registration.h:30-41 create<U>: nothing if the id is not registered (33-37) *)
Definition create_as (lay : layouts) (r : regs) (u : nat) (s : sstr) : res (option nat) :=
  let* o := reg_find r s in
  match o with
  | None => Ok None
  | Some c => if at_start lay c u then Ok (Some c) else UB UbCast
  end.
(** Registration.h:48: the classes of a program, registered in [r] *)
Definition with_regs (lay : layouts) (r : regs) (w : world) : world :=
  mkWorld (w_fp w) (w_cls w) (w_id w) (create_as lay r) (w_new w) (w_lt w).
