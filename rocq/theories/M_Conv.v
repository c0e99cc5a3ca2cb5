(** Model of src/lib/ToolsBtsConv.cpp, the integer/scalar part of src/lib/ToolsStrConv.cpp and
    src/lib/Hash.cpp.  Definitions only. *)
From Coq Require Import ZArith List Bool.
From Verif Require Import Base M_Types.
Import ListNotations.
Open Scope Z_scope.

(** * Base64 *)

(** Base64Table::encode, ToolsBtsConv.cpp:13-18 *)
Definition b64_encode_table : bytes :=
  $"ABCDEFGHIJKLMNOPQRSTUVWXYZabcdefghijklmnopqrstuvwxyz0123456789+/".
Definition b64_enc (i : Z) : Z := nth (Z.to_nat i) b64_encode_table 0.

Definition b64_invalid : Z := 255.   (** ToolsBtsConv.cpp:10 *)
Definition b64_fill    : Z := 254.   (** ToolsBtsConv.cpp:11 *)

(** position of c in l *)
(** ToolsBtsConv.cpp:21-30: the table that is the inverse of the one above *)
Fixpoint index_of (c : Z) (l : bytes) (i : Z) : option Z :=
  match l with
  | [] => None
  | x :: l' => if x =? c then Some i else index_of c l' (i + 1)
  end.

(** Base64Table::decode as filled by the constructor, ToolsBtsConv.cpp:22-31 (index 0..255) *)
Definition b64_dec (c : Z) : Z :=
  match index_of c b64_encode_table 0 with
  | Some i => i
  | None => if c =? 61 then b64_fill else b64_invalid
  end.

(** [table.decode[(size_t) str[i]]], ToolsBtsConv.cpp:116-119.  [str] is [const char*] with signed char:
    a byte >= 0x80 is negative and becomes a huge index: out of bounds.  [i] beyond the text is out of
    bounds as well. *)
Definition b64_lookup (str : bytes) (i : nat) : res Z :=
  match nth_error str i with
  | None => UB UbOob
  | Some c => if c <? 128 then Ok (b64_dec c) else UB UbOob
  end.

(** loop of bytes_to_base64, ToolsBtsConv.cpp:53-68: one group of four characters per three bytes,
    missing bytes read as 0 *)
Definition b64_group (b0 b1 b2 : Z) : bytes :=
  [ b64_enc (Z.shiftr b0 2);
    b64_enc (Z.land (Z.lor (Z.shiftl b0 4) (Z.shiftr b1 4)) 63);
    b64_enc (Z.land (Z.lor (Z.shiftl b1 2) (Z.shiftr b2 6)) 63);
    b64_enc (Z.land b2 63) ].

Fixpoint b64_encode_loop (bs : bytes) : bytes :=
  match bs with
  | [] => []
  | [b0] => b64_group b0 0 0
  | [b0; b1] => b64_group b0 b1 0
  | b0 :: b1 :: b2 :: bs' => b64_group b0 b1 b2 ++ b64_encode_loop bs'
  end.

(** out[i] = c *)
(** ToolsBtsConv.cpp:73, 76 *)
Fixpoint set_nth (i : nat) (c : Z) (l : bytes) : bytes :=
  match l, i with
  | [], _ => []
  | _ :: l', O => c :: l'
  | x :: l', S i' => x :: set_nth i' c l'
  end.

(** Tools::bytes_to_base64, ToolsBtsConv.cpp:34-80.  The vector overload that writes into a reused buffer
    returns the number of valid characters; the model returns these characters. *)
Definition bytes_to_base64 (bs : bytes) : bytes :=
  let n := length bs in
  let min_size := Nat.mul 4 (Nat.div (n + 2) 3) in
  let out := b64_encode_loop bs in
  let rem := Nat.modulo n 3 in
  let out := if Nat.ltb 0 rem then set_nth (min_size - 1) 61 out else out in
  let out := if Nat.eqb rem 1 then set_nth (min_size - 2) 61 out else out in
  out.

(** Tools::get_base64_decoded_size, ToolsBtsConv.cpp:82-92 *)
Definition get_base64_decoded_size (str : bytes) : nat :=
  let n := length str in
  if Nat.ltb n 4 then O
  else
    let r1 := if nth (n - 1) str 0 =? 61 then 1%nat else 0%nat in
    let r2 := if nth (n - 2) str 0 =? 61 then 1%nat else 0%nat in
    (Nat.div n 4 * 3 - (r1 + r2))%nat.

(** loop of base64_to_bytes, ToolsBtsConv.cpp:113-135; [todo] = dest_size - out_idx, [in_idx] as in the code.
    Recursion on [fuel] >= todo. *)
Fixpoint b64_decode_loop (fuel : nat) (str : bytes) (in_idx : nat) (todo : nat) : res bytes :=
  match fuel with
  | O => Ok []
  | S fuel' =>
    if Nat.eqb todo 0 then Ok []
    else
      let* b0 := b64_lookup str in_idx in
      let* b1 := b64_lookup str (in_idx + 1) in
      let* b2 := b64_lookup str (in_idx + 2) in
      let* b3 := b64_lookup str (in_idx + 3) in
      if (b0 =? b64_invalid) || (b1 =? b64_invalid) || (b2 =? b64_invalid) || (b3 =? b64_invalid)
      then Err
      else
        let d0 := u8 (Z.lor (Z.shiftl b0 2) (Z.shiftr b1 4)) in
        let d1 := u8 (Z.lor (Z.shiftl b1 4) (Z.shiftr b2 2)) in
        let d2 := u8 (Z.lor (Z.shiftl b2 6) b3) in
        let out := d0 :: (if Nat.ltb 1 todo then d1 :: (if Nat.ltb 2 todo then [d2] else []) else []) in
        let* rest := b64_decode_loop fuel' str (in_idx + 4) (todo - 3) in
        Ok (out ++ rest)
  end.

(** Tools::base64_to_bytes(dest, dest_size, str, str_len), ToolsBtsConv.cpp:104-138: the bytes written *)
Definition base64_to_bytes_dest (dest_size : nat) (str : bytes) : res bytes :=
  let n := length str in
  if Nat.ltb 0 n && negb (Nat.eqb (Nat.modulo n 4) 0) then Err
  else b64_decode_loop dest_size str 0 dest_size.

(** Tools::base64_to_bytes(str, str_len), ToolsBtsConv.cpp:94-102 *)
Definition base64_to_bytes (str : bytes) : res bytes :=
  base64_to_bytes_dest (get_base64_decoded_size str) str.

(** * Hex *)

(** hex_lk, ToolsBtsConv.cpp:142-144 *)
Definition hex_lk : bytes := $"0123456789ABCDEF".

(** Tools::bytes_to_hex, ToolsBtsConv.cpp:140-156 *)
Fixpoint bytes_to_hex (bs : bytes) : bytes :=
  match bs with
  | [] => []
  | b :: bs' =>
      nth (Z.to_nat (Z.land (Z.shiftr b 4) 15)) hex_lk 0 ::
      nth (Z.to_nat (Z.land b 15)) hex_lk 0 :: bytes_to_hex bs'
  end.

(** lambda conv, ToolsBtsConv.cpp:176-189 *)
Definition hex_conv (c : Z) : res Z :=
  if (48 <=? c) && (c <=? 57) then Ok (c - 48)
  else if (65 <=? c) && (c <=? 70) then Ok (c - 65 + 10)
  else if (97 <=? c) && (c <=? 102) then Ok (c - 97 + 10)
  else Err.

(** loop, ToolsBtsConv.cpp:194-205; the length is even here *)
Fixpoint hex_loop (str : bytes) : res bytes :=
  match str with
  | [] => Ok []
  | [_] => UB UbOob
  | h :: l :: str' =>
      let* hv := hex_conv h in
      let* lv := hex_conv l in
      let* rest := hex_loop str' in
      Ok (u8 (Z.lor (Z.shiftl hv 4) lv) :: rest)
  end.

(** Tools::hex_to_bytes(dest, dest_size, str, str_len), ToolsBtsConv.cpp:166-206 *)
Definition hex_to_bytes_dest (dest_size : nat) (str : bytes) : res bytes :=
  let n := length str in
  if negb (Nat.eqb (Nat.modulo n 2) 0) then Err
  else if Nat.ltb dest_size (Nat.div n 2) then Err
  else hex_loop str.

(** Tools::hex_to_bytes(str, str_len), ToolsBtsConv.cpp:158-164 *)
Definition hex_to_bytes (str : bytes) : res bytes :=
  hex_to_bytes_dest (Nat.div (length str) 2) str.

(** * Hash *)

Definition fnv1a_prime : Z := 1099511628211.          (** Hash.cpp:8,  0x100000001B3 *)
Definition fnv1a_base  : Z := 14695981039346656037.   (** Hash.cpp:9,  0xCBF29CE484222325 *)

(** fnv1a_unfold<N>, Hash.cpp:11-17 *)
Fixpoint fnv1a_unfold (n : nat) (bs : bytes) (hash : Z) : res Z :=
  match n with
  | O => Ok hash
  | S n' =>
      match bs with
      | [] => UB UbOob
      | b :: bs' => fnv1a_unfold n' bs' (u64 (Z.lxor hash b * fnv1a_prime))
      end
  end.

(** the unrolled loop, Hash.cpp:23-27 *)
Fixpoint fnv1a_loop (unroll : nat) (bs : bytes) (hash : Z) : res (bytes * Z) :=
  match unroll with
  | O => Ok (bs, hash)
  | S u =>
      let* h := fnv1a_unfold 8 bs hash in
      fnv1a_loop u (skipn 8 bs) h
  end.

(** fnv1a / Aux::hash_fnc, Hash.cpp:19-49; the switch over rem = 0..7 instantiates fnv1a_unfold<rem> *)
Definition fnv1a (bs : bytes) : res Z :=
  let n := length bs in
  let* bh := fnv1a_loop (Nat.div n 8) bs fnv1a_base in
  fnv1a_unfold (Nat.modulo n 8) (fst bh) (snd bh).

(** * Integers and scalars as text *)

(** loop of str_to_int, ToolsStrConv.cpp:61-75: returns the accumulated value and whether the whole text
    was consumed.  [c] is a (signed) char: bytes >= 0x80 are negative, hence smaller than '0'. *)
Fixpoint str_to_int_loop (str : bytes) (val : Z) : Z * bool :=
  match str with
  | [] => (val, true)
  | b :: str' =>
      let c := s8 b in
      if (c <? 48) || (57 <? c) then (val, false)
      else
        let tmp := u64 (val * 10 + c - 48) in
        if tmp <? val then (val, false) else str_to_int_loop str' tmp
  end.

(** str_to_int, ToolsStrConv.cpp:46-80: (val, is_signed, success) *)
Definition str_to_int (str : bytes) : Z * bool * bool :=
  match str with
  | 45 :: str' =>
      match str' with
      | [] => (0, false, false)
      | _ => let '(val, all) := str_to_int_loop str' 0 in (val, true, all && (val <=? two63 - 1))
      end
  | _ => let '(val, all) := str_to_int_loop str 0 in (val, false, all)
  end.

(** Tools::is_space, include/Srl/Tools.hpp:32-35 *)
Definition is_space (t : Z) : bool := (t =? 32) || ((9 <=? t) && (t <=? 13)).

(** Tools::trim_space, ToolsStrConv.cpp:174-188 *)
Fixpoint drop_space (l : bytes) : bytes :=
  match l with
  | [] => []
  | c :: l' => if is_space c then drop_space l' else l
  end.
Definition trim_space (l : bytes) : bytes := rev (drop_space (rev (drop_space l))).

Definition str_true  : bytes := $"true".   (** ToolsStrConv.cpp:17-19 *)
Definition str_false : bytes := $"false".
Definition str_null  : bytes := $"null".

(** cmp_str(str, str_len, to_compare, 1), ToolsStrConv.cpp:82-89: same length and equal from index 1 on *)
Definition cmp_str1 (str to_compare : bytes) : bool :=
  Nat.eqb (length str) (length to_compare) && bytes_eqb (skipn 1 str) (skipn 1 to_compare).

(** libc functions used for doubles, kept abstract: [x_strtod s] = Some bits iff strtod consumes all of [s]
    (ToolsStrConv.cpp:21-44); [x_dtoa bits] the characters written by fpconv_dtoa (modelled in M_Fpconv.v). *)
Record fp_text := mkFpText {
  x_strtod : bytes -> option Z;
  x_dtoa   : Z -> bytes
}.

(** Tools::str_to_type(str, str_len, hint), ToolsStrConv.cpp:190-230 *)
Definition str_to_type (x : fp_text) (str : bytes) (hint : ty) : option value :=
  let str := trim_space str in
  match str with
  | [] => None
  | c0 :: _ =>
      let big := Nat.leb 4 (length str) && (102 <=? c0) in
      if big && ((c0 =? 116) || (c0 =? 84)) && cmp_str1 str str_true then Some (val_bool true)
      else if big && ((c0 =? 102) || (c0 =? 70)) && cmp_str1 str str_false then Some (val_bool false)
      else if big && ((c0 =? 110) || (c0 =? 78)) && cmp_str1 str str_null then Some (val_type TNull)
      else
        let fp := match x_strtod x str with
                  | Some bits => Some (val_f64 bits)
                  | None => None
                  end in
        if is_fp hint then fp
        else
          let '(i, is_signed, success) := str_to_int str in
          if success then
            Some (if is_signed then val_int TI64 (- i) else val_int TUI64 i)
          else fp
  end.

(** std::numeric_limits<T>::digits10 *)
(** ToolsStrConv.cpp:96 *)
Definition digits10 (t : ty) : nat :=
  match t with
  | TI8 | TUI8 => 2 | TI16 | TUI16 => 4 | TI32 | TUI32 => 9 | TI64 => 18 | TUI64 => 19 | _ => 0
  end.

(** digit loop of conv_type, ToolsStrConv.cpp:113-117; [room] = cells of the stack buffer left *)
Fixpoint print_loop (room : nat) (val : Z) (acc : bytes) : res (bytes * nat) :=
  if val =? 0 then Ok (acc, room)
  else match room with
       | O => UB UbOob
       | S room' => print_loop room' (val / 10) (48 + val mod 10 :: acc)
       end.

(** conv_type<TP> for integral TP, ToolsStrConv.cpp:91-129.  [- i64] on INT64_MIN is a signed overflow. *)
Definition conv_type_int (t : ty) (raw : Z) : res bytes :=
  let buffer_size := (digits10 t + 1 + (if is_signed t then 1 else 0))%nat in
  let i64 := s64 raw in
  let negative := is_signed t && (i64 <? 0) in
  if negative && (i64 =? - two63) then UB UbSigned
  else
    let val := if negative then - i64 else raw in
    if val =? 0 then Ok [48]
    else
      let* (digits, room) := print_loop buffer_size val [] in
      if negative then (match room with O => UB UbOob | S _ => Ok (45 :: digits) end)
      else Ok digits.

(** exact value of the double [val] held by an FP32/FP64 value, ToolsStrConv.cpp:135 *)
Definition v_double (v : value) : Z :=
  if ty_eqb (v_type v) TFP64 then v_raw v else f32_to_f64 (v_fp32 v).

(** [floor(val) == val && val <= (double)INT64_MAX && val >= INT64_MIN], ToolsStrConv.cpp:137;
    (double)INT64_MAX is 2^63.  NaN and infinities fail one of the comparisons. *)
Definition fp_prints_as_int (d : Z) : bool :=
  negb (f64_exp d =? 2047) &&
  (f64_scaled d mod fp_unit =? 0) &&
  (f64_scaled d <=? two63 * fp_unit) && (- two63 * fp_unit <=? f64_scaled d).

(** conv_type for floating point types, ToolsStrConv.cpp:132-147.  [(int64_t)val] is undefined for 2^63. *)
Definition conv_type_fp (x : fp_text) (v : value) : res bytes :=
  let d := v_double v in
  if fp_prints_as_int d then
    let n := f64_scaled d / fp_unit in
    if n =? two63 then UB UbCast else conv_type_int TI64 (u64 n)
  else Ok (x_dtoa x d).

(** Tools::type_to_str, ToolsStrConv.cpp:149-166, 250-258 *)
Definition type_to_str (x : fp_text) (v : value) : res bytes :=
  match v_type v with
  | TBool => Ok (if v_raw v =? 0 then str_false else str_true)
  | TFP32 | TFP64 => conv_type_fp x v
  | TNull => Ok str_null
  | TI8 | TUI8 | TI16 | TUI16 | TI32 | TUI32 | TI64 | TUI64 => conv_type_int (v_type v) (v_raw v)
  | _ => Ok []
  end.
