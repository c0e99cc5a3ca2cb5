(** The texts PJson takes for documents, beside JSON itself (S_Json, S_JsonText).  Independent of PJson. *)
From Coq Require Import ZArith List Bool.
From Verif Require Import Base M_Types M_Conv S_Doc S_JsonQuoted S_JsonStream.
Import ListNotations.
Open Scope Z_scope.

(** quote, colon, brackets and slash *)
Definition significant (c : Z) : Prop := In c [34; 58; 123; 91; 125; 93; 47].
(** every other character is passed over, unless a value is expected ([v]) and it may begin a number or a constant *)
Definition ignored (v : bool) (c : Z) : Prop := ~ significant c /\ (v = true -> ~ literal_char c).

(** from the slash that closes a block comment on *)
Fixpoint closing_slash (t : bytes) : option bytes :=
  match t with
  | [] => None
  | c :: r => match r with d :: _ => if (c =? 42) && (d =? 47) then Some r else closing_slash r | [] => None end
  end.
(** behind the end of the line *)
Fixpoint next_line (t : bytes) : option bytes :=
  match t with [] => None | c :: r => if (c =? 10) || (c =? 13) then Some r else next_line r end.

(** what is passed over: a character, a comment, or a slash that begins none.  The slash that closes a block comment
    is not passed over with it: with the character behind it it may begin another comment. *)
Inductive passed (v : bool) : bytes -> bytes -> Prop :=
| PSchar c t : ignored v c -> passed v (c :: t) t
| PSslash c t : c <> 42 -> c <> 47 -> passed v (47 :: c :: t) (c :: t)
| PSline t u : next_line t = Some u -> passed v (47 :: 47 :: t) u
| PSblock t u : closing_slash (42 :: t) = Some u -> passed v (47 :: 42 :: t) u.

(** a value is expected in Arrays and behind the colon *)
Definition expects (sc : ty) (colon : bool) : bool := colon || ty_eqb sc TArray.
Definition named (k : option bytes) : bytes := match k with Some s => s | None => [] end.
(** numbers and constants, as the conversion of Srl takes them; a dot makes a number a double *)
Definition literal_value (x : fp_text) (s : bytes) (v : value) : Prop :=
  str_to_type x s (if existsb (Z.eqb 46) s then TFP64 else TNull) = Some v.
(** comma and space that end a number are passed over with it *)
Definition behind_literal (d : Z) (r : bytes) : bytes := if (d =? 125) || (d =? 93) then d :: r else r.

(** the next item inside a scope of type [sc] (Null outside of the root), the name and the colon in front of it having
    been read or not; what is behind it *)
Inductive item (x : fp_text) (sc : ty) : option bytes -> bool -> bytes -> event -> bytes -> Prop :=
| ITpass k c t u e r : passed (expects sc c) t u -> item x sc k c u e r -> item x sc k c t e r
| ITcolon k t e r : item x sc k true t e r -> item x sc k false (58 :: t) e r
| ITname c t s u e r : expects sc c = false -> sc <> TNull -> unquote t = Text s (34 :: u) ->
    item x sc (Some s) c u e r -> item x sc None c (34 :: t) e r
| ITstring k c t s u : expects sc c = true -> sc <> TNull -> unquote t = Text s (34 :: u) ->
    item x sc k c (34 :: t) (named k, val_string s EUTF8) u
| ITobject k c t : item x sc k c (123 :: t) (named k, val_type TObject) t
| ITarray k c t : item x sc k c (91 :: t) (named k, val_type TArray) t
| ITclose k c b t : b = 125 \/ b = 93 -> sc <> TNull -> item x sc k c (b :: t) (named k, val_type TScopeEnd) t
| ITliteral k c a s d r v : expects sc c = true -> literal_char a -> Forall (fun b => ~ literal_end b) (a :: s) -> literal_end d ->
    literal_value x (a :: s) v -> item x sc k c (a :: s ++ d :: r) (named k, v) (behind_literal d r).

(** the items of a scope up to its end, and what is behind it *)
Inductive items_of (x : fp_text) (sc : ty) : list doc -> bytes -> bytes -> Prop :=
| ISend k t r : item x sc None false t (k, val_type TScopeEnd) r -> items_of x sc [] t r
| ISvalue k v its t u r : item x sc None false t (k, v) u -> is_scope (v_type v) = false -> v_type v <> TScopeEnd ->
    items_of x sc its u r -> items_of x sc (DVal k v :: its) t r
| ISscope k sub sc1 its t u w r : item x sc None false t (k, val_type sc1) u -> is_scope sc1 = true ->
    items_of x sc1 sub u w -> items_of x sc its w r -> items_of x sc (DScope k sc1 sub :: its) t r.
(** a whole document, and what is behind it *)
Inductive text_of (x : fp_text) : doc -> bytes -> bytes -> Prop :=
| TXroot sc its t u r : item x TNull None false t ([], val_type sc) u -> is_scope sc = true -> items_of x sc its u r ->
    text_of x (DScope [] sc its) t r.
