(** Common vocabulary of the model: outcomes, bytes, machine words. *)
From Coq Require Import ZArith List Bool Lia ZifyBool ZifyNat.
Import ListNotations.
Open Scope Z_scope.

(** Outcome of running a piece of the C++ code.
    [Ok r]  : returns r;
    [Err]   : throws Srl::Exception;
    [UB u]  : performs an operation with undefined behaviour, of kind [u];
    [Fuel]  : the step bound of the Coq function was exhausted (not an outcome of the C++ code). *)
Inductive ub : Type :=
| UbEnd       (* reads the byte directly behind the input *)
| UbOob       (* any other out of bounds read or write *)
| UbPtr       (* pointer arithmetic that leaves the address space *)
| UbShift     (* shift by at least the width of the operand *)
| UbSigned    (* signed integer overflow *)
| UbCast      (* floating point to integer conversion out of range *)
| UbNull      (* null dereference *)
| UbDangling  (* access to an object after its lifetime *)
| UbHeap.     (* write behind the end of a vector *)

Inductive res (A : Type) : Type :=
| Ok (a : A)
| Err
| UB (u : ub)
| Fuel.
Arguments Ok {A} a.
Arguments Err {A}.
Arguments UB {A} u.
Arguments Fuel {A}.

Definition rbind {A B} (r : res A) (f : A -> res B) : res B :=
  match r with
  | Ok a => f a
  | Err => Err
  | UB u => UB u
  | Fuel => Fuel
  end.

Definition rmap {A B} (f : A -> B) (r : res A) : res B :=
  rbind r (fun a => Ok (f a)).

Notation "'let*' x ':=' r 'in' k" := (rbind r (fun x => k))
  (at level 200, x pattern, r at level 100, k at level 200, right associativity).

Definition is_ok {A} (r : res A) : bool :=
  match r with Ok _ => true | _ => false end.

(** Bytes are integers in [0,256). *)
Definition bytes := list Z.
Definition is_byte (b : Z) : Prop := 0 <= b < 256.
Definition wf_bytes (l : bytes) : Prop := Forall is_byte l.
Definition is_byteb (b : Z) : bool := (0 <=? b) && (b <? 256).
Definition wf_bytesb (l : bytes) : bool := forallb is_byteb l.

(** length as Z *)
Definition zlen {A} (l : list A) : Z := Z.of_nat (length l).

Definition two8  : Z := 256.
Definition two16 : Z := 65536.
Definition two31 : Z := 2147483648.
Definition two32 : Z := 4294967296.
Definition two63 : Z := 9223372036854775808.
Definition two64 : Z := 18446744073709551616.

(** conversion to uint8_t / uint32_t / uint64_t *)
Definition u8  (x : Z) : Z := x mod two8.
Definition u32 (x : Z) : Z := x mod two32.
Definition u64 (x : Z) : Z := x mod two64.
(** reinterpretation of a uint64_t as int64_t (two's complement) *)
Definition s64 (x : Z) : Z := if x <? two63 then x else x - two64.
(** reinterpretation of an int64_t as uint64_t *)
Definition s8 (x : Z) : Z := if x <? 128 then x else x - 256.

(** n bytes of x, least significant first (the in-memory representation on the little endian host) *)
Fixpoint le (n : nat) (x : Z) : bytes :=
  match n with
  | O => []
  | S n' => x mod 256 :: le n' (x / 256)
  end.

(** value of a byte string, least significant byte first *)
Fixpoint unle (l : bytes) : Z :=
  match l with
  | [] => 0
  | b :: l' => b + 256 * unle l'
  end.

Definition bytes_eqb (a b : bytes) : bool :=
  if list_eq_dec Z.eq_dec a b then true else false.

(** ASCII helper for readable examples *)
From Coq Require Import Ascii String.
Export StringSyntax.
Fixpoint bytes_of_string (s : string) : bytes :=
  match s with
  | EmptyString => []
  | String c s' => Z.of_nat (nat_of_ascii c) :: bytes_of_string s'
  end.
Notation "'$' s" := (bytes_of_string s%string) (at level 1, format "'$' s").
