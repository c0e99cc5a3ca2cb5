(** The byte sequences PMsgPack takes for documents, beside MessagePack itself (S_MsgPack). *)
From Coq Require Import ZArith List Bool.
From Verif Require Import Base M_Types M_Conv S_Doc S_MsgPack.
Import ListNotations.
Open Scope Z_scope.

(** strings: a length of 16 or 32 bits is taken least significant byte first *)
Inductive pk_str : bytes -> bytes -> Prop :=
| PKfixstr s : zlen s < 32 -> pk_str s ((160 + zlen s) :: s)
| PKstr8  s : zlen s < 2 ^ 8 -> pk_str s (217 :: [zlen s] ++ s)
| PKstr16 s : zlen s < 2 ^ 16 -> pk_str s (218 :: rev (be 2 (zlen s)) ++ s)
| PKstr32 s : zlen s < 2 ^ 32 -> pk_str s (219 :: rev (be 4 (zlen s)) ++ s).

(** values: as in MessagePack, and the byte 193, which MessagePack never uses *)
Inductive pk_value : meaning -> bytes -> Prop :=
| PKspec m b : mp_value false m b -> pk_value m b
| PKunused : pk_value (MeInt (-31)) [193]
| PKstr s b : pk_str s b -> pk_value (MeStr s) b
| PKbin16 s : zlen s < 2 ^ 16 -> pk_value (MeBin s) (197 :: rev (be 2 (zlen s)) ++ s)
| PKbin32 s : zlen s < 2 ^ 32 -> pk_value (MeBin s) (198 :: rev (be 4 (zlen s)) ++ s).

(** the first byte of a string *)
Definition str_byte (p : Z) : Prop := 160 <= p < 192 \/ 217 <= p < 220.
(** keys: strings, and any other single byte for the empty name *)
Inductive pk_key : bytes -> bytes -> Prop :=
| PKname s b : pk_str s b -> pk_key s b
| PKlost p : 0 <= p < 256 -> ~ str_byte p -> pk_key [] [p].

Inductive pk_doc : mdoc -> bytes -> Prop :=
| PKval n m b : pk_value m b -> pk_doc (MVal n m) b
| PKscope n t its h bs : mp_head t (zlen its) h -> pk_items t its bs -> pk_doc (MScope n t its) (h ++ bs)
with pk_items : ty -> list mdoc -> bytes -> Prop :=
| PKnone t : pk_items t [] []
| PKfield d its k b bs : pk_key (mname d) k -> pk_doc d b -> pk_items TObject its bs ->
    pk_items TObject (d :: its) (k ++ b ++ bs)
| PKitem d its b bs : mname d = [] -> pk_doc d b -> pk_items TArray its bs -> pk_items TArray (d :: its) (b ++ bs).

(** the root has no name and is an Object or an Array *)
Definition is_root (m : mdoc) : Prop := match m with MScope [] _ _ => True | _ => False end.
(** every member of an Object has a name *)
Inductive all_named : mdoc -> Prop :=
| ANval n m : all_named (MVal n m)
| ANscope n t its : Forall all_named its -> (t = TObject -> Forall (fun d => mname d <> []) its) -> all_named (MScope n t its).
(** the bytes behind which the deviations are *)
Definition deviant (p : Z) : Prop := In p [193; 197; 198; 218; 219].
