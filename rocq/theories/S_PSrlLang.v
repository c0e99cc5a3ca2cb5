(** The byte sequences PSrl takes for documents.  S_PSrl is the layout of what PSrl writes. *)
From Coq Require Import ZArith List Bool.
From Verif Require Import Base M_Types M_Conv S_Doc S_MsgPack S_MsgPackLang.
Import ListNotations.
Open Scope Z_scope.

(** numbers of any length to the base 128, least significant digit first, 128 added to all digits but the last *)
Inductive digits : Z -> bytes -> Prop :=
| DLast b : 0 <= b < 128 -> digits b [b]
| DMore b n bs : 128 <= b < 256 -> digits n bs -> digits (b - 128 + 128 * n) (b :: bs).
(** a number of 64 bits: ten digits at most, what exceeds 64 bits is lost *)
Definition ps_num (n : Z) (bs : bytes) : Prop := exists m, digits m bs /\ (length bs <= 10)%nat /\ n = m mod 2 ^ 64.
(** a length and that many bytes *)
Definition ps_block (s bs : bytes) : Prop := exists ls, ps_num (zlen s) ls /\ zlen s < 2 ^ 63 /\ bs = ls ++ s.
(** what remains of text or binary data *)
Definition ps_cut (s : bytes) : bytes := firstn (Z.to_nat (zlen s mod 2 ^ 32)) s.

(** a bit of the first byte of an item *)
Notation "f '#' k" := (Z.testbit f k) (at level 35).

(** names: nowhere but in Objects; new ones are kept in a table *)
Inductive ps_name (t : ty) (tab : list bytes) (f : Z) : bytes -> list bytes -> bytes -> Prop :=
| PSnone : t <> TObject \/ f # 1 = false -> ps_name t tab f [] tab []
| PSindex i n bs : t = TObject -> f # 1 = true -> f # 2 = true -> ps_num i bs -> nth_error tab (Z.to_nat i) = Some n -> ps_name t tab f n tab bs
| PSnew n bs : t = TObject -> f # 1 = true -> f # 2 = false -> ps_block n bs -> ps_name t tab f n (tab ++ [n]) bs.

Inductive ps_value (f : Z) : meaning -> bytes -> Prop :=
| PSbool : f # 0 = true -> f # 6 || f # 7 = true -> ps_value f (MeBool (f # 6)) []
| PSf32 x : f # 0 = true -> f # 6 || f # 7 = false -> f # 4 = true -> 0 <= x < 2 ^ 32 -> ps_value f (MeFloat (f32_to_f64 x)) (rev (be 4 x))
| PSf64 x : f # 0 = true -> f # 6 || f # 7 = false -> f # 4 = false -> f # 5 = true -> 0 <= x < 2 ^ 64 -> ps_value f (MeFloat x) (rev (be 8 x))
| PSnat n bs : f # 0 = true -> f # 6 || f # 7 = false -> f # 4 || f # 5 = false -> f # 3 = false -> ps_num n bs -> ps_value f (MeInt n) bs
| PSneg n bs : f # 0 = true -> f # 6 || f # 7 = false -> f # 4 || f # 5 = false -> f # 3 = true -> ps_num n bs -> n <> 2 ^ 63 ->
    ps_value f (MeInt (if n <? 2 ^ 63 then - n else 2 ^ 64 - n)) bs
| PSbin s bs : f # 0 = false -> f # 6 || f # 7 = false -> f # 4 = true -> ps_block s bs -> ps_value f (MeBin (ps_cut s)) bs
| PSstr s bs : f # 0 = false -> f # 6 || f # 7 = false -> f # 4 = false -> f # 5 = true -> ps_block s bs -> ps_value f (MeStr (ps_cut s)) bs
| PSnull : f # 0 = false -> f # 6 || f # 7 = false -> f # 4 || f # 5 = false -> f # 3 = true -> ps_value f MeNull [].

(** an item in a scope of type [t] ([TNull]: the root) after the names [tab] *)
Inductive ps_doc : ty -> list bytes -> mdoc -> list bytes -> bytes -> Prop :=
| PSval t tab f n m tab' ns bs : 0 <= f < 256 -> ps_name t tab f n tab' ns -> ps_value f m bs -> ps_doc t tab (MVal n m) tab' (f :: ns ++ bs)
| PSscope t tab f n its tab1 tab2 ns bs : 0 <= f < 256 -> f # 0 = false -> f # 6 || f # 7 = true -> ps_name t tab f n tab1 ns ->
    ps_items (if f # 6 then TObject else TArray) tab1 its tab2 bs ->
    ps_doc t tab (MScope n (if f # 6 then TObject else TArray) its) tab2 (f :: ns ++ bs ++ [0])
with ps_items : ty -> list bytes -> list mdoc -> list bytes -> bytes -> Prop :=
| PSend t tab : ps_items t tab [] tab []
| PSitem t tab d its tab1 tab2 b bs : ps_doc t tab d tab1 b -> ps_items t tab1 its tab2 bs -> ps_items t tab (d :: its) tab2 (b ++ bs).
