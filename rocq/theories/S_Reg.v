(** Registering classes: what a program sees of it. *)
From Coq Require Import ZArith List Bool.
From Verif Require Import Base M_Types M_HTable M_Reg.
Import ListNotations.

Inductive rop : Type := RAdd (id : bytes) (c : nat) | RCreate (id : bytes).
Inductive rout : Type := Added | Made (c : nat) | Thrown.

(** the class that was registered first under an id *)
Fixpoint registered (past : list rop) (id : bytes) : option nat :=
  match past with
  | [] => None
  | RAdd i c :: r => if bytes_eqb i id then Some c else registered r id
  | RCreate _ :: r => registered r id
  end.
Definition expected (past : list rop) (op : rop) : rout :=
  match op with
  | RAdd id _ => match registered past id with None => Added | Some _ => Thrown end
  | RCreate id => match registered past id with None => Thrown | Some c => Made c end
  end.

(** the code *)
Definition reg_step (r : regs) (op : rop) : res (rout * regs) :=
  match op with
  | RAdd id c => let* (t, r') := reg_add r id c in Ok (if t : bool then Thrown else Added, r')
  | RCreate id => match reg_create r (id, EUTF8) with Ok c => Ok (Made c, r) | Err => Ok (Thrown, r) | UB u => UB u | Fuel => Fuel end
  end.
Fixpoint reg_run (r : regs) (ops : list rop) : res (list rout * regs) :=
  match ops with
  | [] => Ok ([], r)
  | op :: l => let* (o, r1) := reg_step r op in let* (os, r2) := reg_run r1 l in Ok (o :: os, r2)
  end.
