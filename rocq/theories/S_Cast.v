(** Pointers to polymorphic classes: which objects they may point to. *)
From Coq Require Import ZArith List Bool.
From Verif Require Import Base Lemmas M_Types M_HTable S_Doc M_Tree M_Reg S_Reg M_Object S_ObjSafe M_Cast.
Import ListNotations.
Open Scope Z_scope.

(** an object of class [c] begins with an object of class [u] *)
Definition begins (lay : layouts) (c u : nat) : Prop := c = u \/ In (u, 0) (lay c).
(** the program has registered these classes *)
Definition registers (ops : list rop) (r : regs) : Prop := exists os, reg_run regs_new ops = Ok (os, r).
(** every class in the table may be made for every pointer inside the type *)
Definition all_fit (lay : layouts) (ops : list rop) (w : world) (t : ct) : Prop :=
  forall u id c, part w t (CPoly u) -> registered ops id = Some c -> begins lay c u.
(** the first value of a scope with the name of the type id *)
Fixpoint first_id (its : list doc) : option value :=
  match its with
  | [] => None
  | DVal k v :: l => if bytes_eqb k str_type_id then Some v else first_id l
  | _ :: l => first_id l
  end.
(** a text *)
Definition is_text (v : value) : Prop := v_type v = TString \/ v_type v = TBinary.
(** the causes in [mishap] that have nothing to do with the table of classes *)
Definition mishap_else (w : world) (t : ct) (vs : list value) (u : ub) : Prop :=
  (exists p v, part w t p /\ In v vs /\ danger (w_fp w) p v u) \/
  (u = UbCast /\ exists a b, a <> b /\ (part w t (CShared a) \/ part w t (CWeak a)) /\ (part w t (CShared b) \/ part w t (CWeak b))).
(** a type whose parts, pointers to polymorphic classes aside, are not in danger *)
Definition harmless_else (w : world) (t : ct) : Prop := forall p, part w t p ->
  match p with
  | CNum t => In t [TBool; TFP32; TFP64]
  | CStr _ | CBits | CChars _ _ | CShared _ | CWeak _ => False
  | _ => True
  end.
