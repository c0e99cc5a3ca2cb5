(** Specification vocabulary: documents and what they mean, independent of any format. *)
From Coq Require Import ZArith List Bool.
From Verif Require Import Base M_Types M_Conv.
Import ListNotations.
Open Scope Z_scope.

(** A document: a named value or a named scope (Object or Array) with its items in order. *)
Inductive doc : Type :=
| DVal (name : bytes) (v : value)
| DScope (name : bytes) (t : ty) (items : list doc).

(** What a parser is given / delivers: a sequence of (name, value) pairs, a scope being announced by a value of
    type Object/Array and closed by one of type Scope_End (Parser.h:14-22). *)
Definition event : Type := (bytes * value)%type.
Definition ev_end : event := ([], val_type TScopeEnd).

Fixpoint events (d : doc) : list event :=
  match d with
  | DVal n v => [(n, v)]
  | DScope n t its => (n, val_type t) :: flat_map events its ++ [ev_end]
  end.

(** the information carried by a value, whatever its storage type *)
Inductive meaning : Type :=
| MeNull | MeBool (b : bool) | MeInt (n : Z) | MeFloat (double_bits : Z)
| MeStr (bs : bytes) | MeBin (bs : bytes) | MeObj | MeArr | MeEnd.

Definition int_value (v : value) : Z := if is_signed (v_type v) then s64 (v_raw v) else v_raw v.

Definition meaning_of (v : value) : meaning :=
  match v_type v with
  | TNull => MeNull
  | TBool => MeBool (negb (v_raw v =? 0))
  | TFP32 | TFP64 => MeFloat (v_double v)
  | TString => MeStr (v_data v)
  | TBinary => MeBin (v_data v)
  | TObject => MeObj | TArray => MeArr | TScopeEnd => MeEnd
  | _ => MeInt (int_value v)
  end.

(** values that the constructors of Srl::Value produce *)
Definition wf_value (v : value) : Prop :=
  match v_type v with
  | TNull => True
  | TBool => v_raw v = 0 \/ v_raw v = 1
  | TFP32 => 0 <= v_raw v < 2 ^ 32
  | TFP64 => 0 <= v_raw v < 2 ^ 64
  | TString | TBinary => wf_bytes (v_data v) /\ zlen (v_data v) < 2 ^ 32
  | TObject | TArray | TScopeEnd => False
  | t => exists n, in_range t n /\ v_raw v = u64 n
  end.

(** names and strings are byte strings of less than 2^32 bytes, scopes are Objects or Arrays *)
Definition wf_name (n : bytes) : Prop := wf_bytes n /\ zlen n < 2 ^ 32.
Fixpoint wf_doc (d : doc) : Prop :=
  match d with
  | DVal n v => wf_name n /\ wf_value v
  | DScope n t its => wf_name n /\ (t = TObject \/ t = TArray) /\
      (fix all (l : list doc) : Prop := match l with [] => True | x :: l' => wf_doc x /\ all l' end) its
  end.

(** A document up to storage types; items of an Array and the root carry no name. *)
Inductive mdoc : Type :=
| MVal (name : bytes) (m : meaning)
| MScope (name : bytes) (t : ty) (items : list mdoc).

Fixpoint denote (named : bool) (d : doc) : mdoc :=
  match d with
  | DVal n v => MVal (if named then n else []) (meaning_of v)
  | DScope n t its => MScope (if named then n else []) t (map (denote (ty_eqb t TObject)) its)
  end.

(** all names kept *)
Fixpoint mdoc_of (d : doc) : mdoc :=
  match d with
  | DVal n v => MVal n (meaning_of v)
  | DScope n t its => MScope n t (map mdoc_of its)
  end.

(** nesting depth *)
Fixpoint depth (d : doc) : nat :=
  match d with
  | DVal _ _ => 0%nat
  | DScope _ _ its => S (fold_right (fun x m => Nat.max (depth x) m) 0%nat its)
  end.

(** every value of a document satisfies P / every (name, value) inside *)
Fixpoint all_vals (P : bytes -> value -> Prop) (d : doc) : Prop :=
  match d with
  | DVal n v => P n v
  | DScope n t its => (fix all (l : list doc) : Prop := match l with [] => True | x :: l' => all_vals P x /\ all l' end) its
  end.
