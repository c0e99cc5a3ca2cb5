(** Specification of MessagePack, written from https://github.com/msgpack/msgpack/blob/master/spec.md,
    independently of the model of PMsgPack. *)
From Coq Require Import ZArith List Bool.
From Verif Require Import Base M_Types M_Conv S_Doc.
Import ListNotations.
Open Scope Z_scope.

(** n bytes of x, most significant first *)
Fixpoint be (n : nat) (x : Z) : bytes :=
  match n with O => [] | S n' => (x / 256 ^ Z.of_nat n') mod 256 :: be n' x end.

(** Strings.  [wide = false] excludes the forms with a length of 16 or 32 bits; the specification is [wide = true]. *)
Inductive mp_str (wide : bool) : bytes -> bytes -> Prop :=
| MPfixstr s : zlen s < 32 -> mp_str wide s ((160 + zlen s) :: s)
| MPstr8  s : zlen s < 2 ^ 8 -> mp_str wide s (217 :: be 1 (zlen s) ++ s)
| MPstr16 s : wide = true -> zlen s < 2 ^ 16 -> mp_str wide s (218 :: be 2 (zlen s) ++ s)
| MPstr32 s : wide = true -> zlen s < 2 ^ 32 -> mp_str wide s (219 :: be 4 (zlen s) ++ s).

(** the encodings of a value *)
Inductive mp_value (wide : bool) : meaning -> bytes -> Prop :=
| MPnil : mp_value wide MeNull [192]
| MPfalse : mp_value wide (MeBool false) [194]
| MPtrue : mp_value wide (MeBool true) [195]
| MPpfix n : 0 <= n < 128 -> mp_value wide (MeInt n) [n]
| MPnfix n : -32 <= n < 0 -> mp_value wide (MeInt n) [256 + n]
| MPu8  n : 0 <= n < 2 ^ 8 -> mp_value wide (MeInt n) (204 :: be 1 n)
| MPu16 n : 0 <= n < 2 ^ 16 -> mp_value wide (MeInt n) (205 :: be 2 n)
| MPu32 n : 0 <= n < 2 ^ 32 -> mp_value wide (MeInt n) (206 :: be 4 n)
| MPu64 n : 0 <= n < 2 ^ 64 -> mp_value wide (MeInt n) (207 :: be 8 n)
| MPi8  n : - 2 ^ 7 <= n < 2 ^ 7 -> mp_value wide (MeInt n) (208 :: be 1 (n mod 2 ^ 8))
| MPi16 n : - 2 ^ 15 <= n < 2 ^ 15 -> mp_value wide (MeInt n) (209 :: be 2 (n mod 2 ^ 16))
| MPi32 n : - 2 ^ 31 <= n < 2 ^ 31 -> mp_value wide (MeInt n) (210 :: be 4 (n mod 2 ^ 32))
| MPi64 n : - 2 ^ 63 <= n < 2 ^ 63 -> mp_value wide (MeInt n) (211 :: be 8 (n mod 2 ^ 64))
| MPf32 b : 0 <= b < 2 ^ 32 -> mp_value wide (MeFloat (f32_to_f64 b)) (202 :: be 4 b)
| MPf64 b : 0 <= b < 2 ^ 64 -> mp_value wide (MeFloat b) (203 :: be 8 b)
| MPstr s b : mp_str wide s b -> mp_value wide (MeStr s) b
| MPbin8  s : zlen s < 2 ^ 8 -> mp_value wide (MeBin s) (196 :: be 1 (zlen s) ++ s)
| MPbin16 s : wide = true -> zlen s < 2 ^ 16 -> mp_value wide (MeBin s) (197 :: be 2 (zlen s) ++ s)
| MPbin32 s : wide = true -> zlen s < 2 ^ 32 -> mp_value wide (MeBin s) (198 :: be 4 (zlen s) ++ s).

(** containers: prefix and number of elements *)
Inductive mp_head : ty -> Z -> bytes -> Prop :=
| MPfixmap n : 0 <= n < 16 -> mp_head TObject n [128 + n]
| MPmap16 n : 0 <= n < 2 ^ 16 -> mp_head TObject n (222 :: be 2 n)
| MPmap32 n : 0 <= n < 2 ^ 32 -> mp_head TObject n (223 :: be 4 n)
| MPfixarray n : 0 <= n < 16 -> mp_head TArray n [144 + n]
| MParray16 n : 0 <= n < 2 ^ 16 -> mp_head TArray n (220 :: be 2 n)
| MParray32 n : 0 <= n < 2 ^ 32 -> mp_head TArray n (221 :: be 4 n).

(** a document: items of an Object are written as key (string) and value; other items have no name *)
Definition mname (d : mdoc) : bytes := match d with MVal n _ | MScope n _ _ => n end.
Inductive mp_doc (wide : bool) : mdoc -> bytes -> Prop :=
| MPval n m b : mp_value wide m b -> mp_doc wide (MVal n m) b
| MPscope n t its h bs : mp_head t (zlen its) h -> mp_items wide t its bs -> mp_doc wide (MScope n t its) (h ++ bs)
with mp_items (wide : bool) : ty -> list mdoc -> bytes -> Prop :=
| MPnone t : mp_items wide t [] []
| MPfield d its k b bs : mp_str wide (mname d) k -> mp_doc wide d b -> mp_items wide TObject its bs ->
    mp_items wide TObject (d :: its) (k ++ b ++ bs)
| MPitem d its b bs : mname d = [] -> mp_doc wide d b -> mp_items wide TArray its bs ->
    mp_items wide TArray (d :: its) (b ++ bs).

(** the number of elements of a container is a 32 bit number *)
Fixpoint small_scopes (d : doc) : Prop :=
  match d with
  | DVal _ _ => True
  | DScope _ _ its => zlen its < 2 ^ 32 /\
      (fix all (l : list doc) : Prop := match l with [] => True | x :: l' => small_scopes x /\ all l' end) its
  end.

(** strings, binary data and names of less than 255 bytes *)
Fixpoint short_doc (d : doc) : Prop :=
  match d with
  | DVal n v => zlen n < 255 /\ zlen (v_data v) < 255
  | DScope n t its => zlen n < 255 /\
      (fix all (l : list doc) : Prop := match l with [] => True | x :: l' => short_doc x /\ all l' end) its
  end.
