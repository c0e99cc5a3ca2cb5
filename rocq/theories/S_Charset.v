(** The Unicode encoding forms (RFC 3629, Unicode 3.9), independent of the code. *)
From Coq Require Import ZArith List Bool.
From Verif Require Import Base M_Types.
Import ListNotations.
Open Scope Z_scope.

(** a Unicode scalar value *)
Definition scalar (c : Z) : Prop := 0 <= c < 55296 \/ 57344 <= c <= 1114111.
Definition scalarb (c : Z) : bool := ((0 <=? c) && (c <? 55296)) || ((57344 <=? c) && (c <=? 1114111)).

Definition utf8 (c : Z) : bytes :=
  if c <? 128 then [c]
  else if c <? 2048 then [192 + c / 64; 128 + c mod 64]
  else if c <? 65536 then [224 + c / 4096; 128 + c / 64 mod 64; 128 + c mod 64]
  else [240 + c / 262144; 128 + c / 4096 mod 64; 128 + c / 64 mod 64; 128 + c mod 64].
Definition utf16le (c : Z) : bytes :=
  if c <? 65536 then le 2 c
  else le 2 (55296 + (c - 65536) / 1024) ++ le 2 (56320 + (c - 65536) mod 1024).
Definition utf32le (c : Z) : bytes := le 4 c.

(** a character in an encoding the library knows *)
Definition encode (e : enc) (c : Z) : bytes :=
  match e with EUTF8 => utf8 c | EUTF16 => utf16le c | EUTF32 => utf32le c | EUnknown => [] end.
(** a text in an encoding *)
Definition text (e : enc) (cs : list Z) : bytes := flat_map (encode e) cs.
