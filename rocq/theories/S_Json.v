(** What a document means once it has been through JSON, and which documents JSON can carry.  Independent of PJson. *)
From Coq Require Import ZArith List Bool.
From Verif Require Import Base M_Types M_Conv S_Conv S_Doc.
Import ListNotations.
Open Scope Z_scope.

(** RFC 4648 base64 of a byte string *)
Definition b64_char (n : Z) : Z := nth (Z.to_nat n) b64_alphabet 0.
Fixpoint b64_text (bs : bytes) : bytes :=
  match bs with
  | [] => []
  | [a] => [b64_char (a / 4); b64_char (a mod 4 * 16); 61; 61]
  | [a; b] => [b64_char (a / 4); b64_char (a mod 4 * 16 + b / 16); b64_char (b mod 16 * 4); 61]
  | a :: b :: c :: r =>
      b64_char (a / 4) :: b64_char (a mod 4 * 16 + b / 16) :: b64_char (b mod 16 * 4 + c / 64) :: b64_char (c mod 64) :: b64_text r
  end.

(** the integer a double is equal to, if it is one between -2^63 and 2^63 *)
Definition whole (d : Z) : option Z :=
  if negb (f64_exp d =? 2047) && (f64_scaled d mod fp_unit =? 0) && (Z.abs (f64_scaled d / fp_unit) <=? two63)
  then Some (f64_scaled d / fp_unit) else None.

(** JSON has no binary type and does not distinguish integers from floating point numbers *)
Definition json_meaning (m : meaning) : meaning :=
  match m with
  | MeBin bs => MeStr (b64_text bs)
  | MeFloat d => match whole d with Some n => MeInt n | None => m end
  | _ => m
  end.
Fixpoint json_denote (named : bool) (d : doc) : mdoc :=
  match d with
  | DVal n v => MVal (if named then n else []) (json_meaning (meaning_of v))
  | DScope n t its => MScope (if named then n else []) t (map (json_denote (ty_eqb t TObject)) its)
  end.

(** [s] is the decimal notation of an integer *)
Definition plain_int (s : bytes) : Prop := digits s \/ exists s', s = 45 :: s' /\ digits s'.
(** The printer of doubles has done its work on [d]: a short text of number characters, not a plain integer, which the
    reader of doubles reads back. *)
Definition number_char (c : Z) : Prop := is_digit c \/ In c [43; 45; 46; 69; 101].
Definition prints_well (x : fp_text) (d : Z) : Prop :=
  let s := x_dtoa x d in
  Forall number_char s /\ (exists c r, s = c :: r /\ (is_digit c \/ c = 45)) /\ ~ plain_int s /\ zlen s < 800
  /\ x_strtod x s = Some d.

(** values that JSON can carry *)
Definition json_value (x : fp_text) (v : value) : Prop :=
  match meaning_of v with
  | MeInt n => n <> - two63
  | MeFloat d => match whole d with Some n => Z.abs n <> two63 | None => prints_well x d end
  | MeStr _ => v_enc v = EUTF8
  | MeBin bs => zlen bs < 3 * 2 ^ 30 - 3
  | _ => True
  end.

(** the names of the fields of Objects are free of quotes and backslashes *)
Definition json_name (n : bytes) : Prop := ~ In 34 n /\ ~ In 92 n.
Fixpoint json_names (named : bool) (d : doc) : Prop :=
  match d with
  | DVal n _ => named = true -> json_name n
  | DScope n t its => (named = true -> json_name n) /\
      (fix all (l : list doc) : Prop := match l with [] => True | x :: l' => json_names (ty_eqb t TObject) x /\ all l' end) its
  end.
Definition is_scope_doc (d : doc) : Prop := match d with DScope _ _ _ => True | DVal _ _ => False end.
