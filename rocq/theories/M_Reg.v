(** Model of the class registrations (include/Srl/Registration.h, src/lib/Registration.cpp).  Definitions only.

    Simplifications: a class is a number and its constructor function yields that number ([create] casts the void* to the type
    the caller asks for without a check, Registration.h:39: see M_Cast);
    ids are registered as char strings, that is in UTF-8 (Registration.h:56-62; they are not copied and must outlive the
    table). *)
From Coq Require Import ZArith List Bool.
From Verif Require Import Base M_Types M_Conv M_Charset M_HTable M_Tree.
Import ListNotations.
Open Scope Z_scope.

(** String.h:52-54 HashSrl<String>: the bytes as they are, in whatever encoding.  (The hash function never fails: C07.) *)
Definition id_hash (k : bytes) : Z := match fnv1a k with Ok h => h | _ => 0 end.
(** Registration.h:44; the load factor is 1 (Hash.h:47) *)
Definition regs : Type := htab bytes nat.
Definition regs_new : regs := ht_new 16.
(** Registration.h:20-28, Registration.cpp:15-21: true if it throws *)
Definition reg_add (r : regs) (id : bytes) (c : nat) : res (bool * regs) :=
  let* (o, r') := ht_insert bytes_eqb id_hash (fun n => n) r id c in Ok (fst o, r').
(** Registration.cpp:23-26.  Hash.hpp:103-110 compares entries with the same hash by String::operator==, which converts the
    id asked for to UTF-8 and does not throw (String.hpp:16-34).  Simplification: it is converted once and not at every such
    entry. *)
Definition reg_find (r : regs) (s : sstr) : res (option nat) :=
  let* id := if enc_eqb (snd s) EUTF8 then Ok (fst s) else conv_charset_vec EUTF8 (snd s) (fst s) false in
  ht_get bytes_eqb (fun _ => id_hash (fst s)) r id.
(** Registration.h:30-41 *)
Definition reg_create (r : regs) (s : sstr) : res nat :=
  let* o := reg_find r s in match o with Some c => Ok c | None => Err end.
