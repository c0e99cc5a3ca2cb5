(** What the texts of exceptions should say. *)
From Coq Require Import ZArith List Bool.
From Verif Require Import Base M_Types M_Conv M_Tree M_Object.
Import ListNotations.
Open Scope Z_scope.

(** the names of the types by their numbers *)
Definition type_names : list bytes :=
  [$"Bool"; $"I8"; $"UI8"; $"I16"; $"UI16"; $"I32"; $"UI32"; $"I64"; $"UI64"; $"FP32"; $"FP64"; $"Null"; $"String"; $"Binary"; $"Object"; $"Array"; $"Scope_End"].
Definition called (t : ty) : bytes := nth (Z.to_nat (ty_num t)) type_names [].
Definition literal (t : ty) : Prop := ty_num t < ty_num TString.
(** types of values that may be too large: neither Bool nor Null *)
Definition amount (t : ty) : Prop := ty_num TBool < ty_num t < ty_num TNull.
(** why a value cannot become a number of type [t] *)
Inductive reason (t : ty) (v : value) : bytes -> Prop :=
| NotALiteral : v_type v <> TString -> ~ literal (v_type v) -> reason t v ($"Type mismatch, expected: string or literal, got: " ++ called (v_type v) ++ $".")
| NotInRange : amount (v_type v) -> reason t v ($"Cannot cast type " ++ called (v_type v) ++ $" to " ++ called t ++ $". Overflow detected.")
| NotANumber : v_type v = TString -> reason t v ($"Cannot convert string '" ++ v_data v ++ $"' to numeric type " ++ called t ++ $".")
| TextNotInRange : forall found, v_type v = TString -> amount found -> reason t v ($"Cannot cast type " ++ called found ++ $" to " ++ called t ++ $". Overflow detected.").
(** a text without zeros *)
Definition printable (m : bytes) : Prop := ~ In 0 m.
Definition set_text (k r : bytes) : bytes := $"Srl error: Unable to set field " ++ k ++ $". " ++ r.
Definition absent_text (k node_name : bytes) : bytes := $"Srl error: Field <" ++ k ++ $"> in <" ++ node_name ++ $"> not found.".
(** the first value of that name *)
Definition value_of (k : bytes) (n : node) : option value :=
  match find (fun q => bytes_eqb (fst q) k) (n_values n) with Some (_, v) => Some v | None => None end.
(** what is seen of a text that ends at its first zero *)
Definition shown (whole seen : bytes) : Prop := exists rest, whole = seen ++ rest /\ printable seen /\ (rest = [] \/ exists more, rest = 0 :: more).
(** positions in decimal, without zeros in front *)
Definition number_of (ds : bytes) : Z := fold_left (fun a d => 10 * a + (d - 48)) ds 0.
Definition decimal (i : Z) (ds : bytes) : Prop := number_of ds = i /\ Forall (fun d => 48 <= d <= 57) ds /\ (ds = [48] \/ exists d r, ds = d :: r /\ d <> 48).
(** the text about member number [i]: by its name, or by its number if it has none *)
Inductive says_set (i : nat) (f : field) (r : bytes) : bytes -> Prop :=
| SetNamed : f_name f <> [] -> says_set i f r (set_text (f_name f) r)
| SetNumbered : forall ds, f_name f = [] -> decimal (Z.of_nat i) ds -> says_set i f r ($"Srl error: Unable to set field at pos : " ++ ds ++ $". " ++ r).
Inductive says_absent (i : nat) (f : field) (node_name : bytes) : bytes -> Prop :=
| AbsentNamed : f_name f <> [] -> says_absent i f node_name (absent_text (f_name f) node_name)
| AbsentNumbered : forall ds, f_name f = [] -> decimal (Z.of_nat i) ds -> says_absent i f node_name ($"Srl error: Cannot access <Value> at index <" ++ ds ++ $">, index out of bounds.").
(** the value for member number [i] *)
Definition value_for (i : nat) (f : field) (n : node) : option value :=
  match f_name f with [] => option_map snd (nth_error (n_values n) i) | _ => value_of (f_name f) n end.
(** members that are numbers and not optional *)
Definition plain_number (f : field) : Prop := f_opt f = false /\ exists t, f_type f = CNum t /\ scoped (CNum t) = false.
(** the value of a member can be set *)
Definition good_member (w : world) (n : node) (i : nat) (g : field) : Prop := exists v z t, value_for i g n = Some v /\ f_type g = CNum t /\ paste_number (w_fp w) t v = Ok z.
(** why a value cannot become a string, an array of characters or a character; texts in the encoding of the object *)
Inductive text_reason (v : value) : ct -> bytes -> Prop :=
| NotForString : forall e, v_type v <> TString -> ~ literal (v_type v) -> text_reason v (CStr e) ($"Type mismatch, expected: string or literal, got: " ++ called (v_type v) ++ $".")
| NotForArray : forall e n, v_type v <> TString -> v_type v <> TBinary -> text_reason v (CChars e n) ($"Type mismatch, expected: string or binary, got: " ++ called (v_type v) ++ $".")
| NotForChar : forall e, v_type v <> TString -> v_type v <> TBinary -> text_reason v (CChar e) ($"Type mismatch, expected: string or binary, got: " ++ called (v_type v) ++ $".")
| TooLong : forall n, v_type v = TString \/ v_type v = TBinary -> (n - 1) * unit_size (v_enc v) < zlen (v_data v) -> text_reason v (CChars (v_enc v) n) ($"Size mismatch.")
| NotOne : v_type v = TString \/ v_type v = TBinary -> zlen (v_data v) <> unit_size (v_enc v) -> text_reason v (CChar (v_enc v)) ($"Size mismatch.").
