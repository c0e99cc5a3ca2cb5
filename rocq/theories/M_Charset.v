(** Model of Tools::conv_charset (src/lib/ToolsStrConv.cpp:301-390).  Definitions only.

    iconv (glibc) is modelled as a strict transcoder that converts one character after the other, stops in front of
    the first character whose encoding does not fit the output (E2BIG), is incomplete (EINVAL) or is ill-formed
    (EILSEQ), and updates the four arguments accordingly.  The sizes are mathematical integers. *)
From Coq Require Import ZArith List Bool.
From Verif Require Import Base M_Types S_Charset.
Import ListNotations.
Open Scope Z_scope.

Inductive dstep : Type := DChar (c : Z) (n : nat) | DIncomplete | DInvalid.
Definition cont (b : Z) : bool := (128 <=? b) && (b <? 192).
Definition if_scalar (lo c : Z) (n : nat) : dstep := if (lo <=? c) && scalarb c then DChar c n else DInvalid.

(** the next character of a text *)
(** iconv called in ToolsStrConv.cpp:354: one character of UTF-8 *)
Definition utf8_dec (s : bytes) : dstep :=
  match s with
  | [] => DIncomplete
  | b :: r =>
      if b <? 128 then DChar b 1
      else if b <? 194 then DInvalid
      else if b <? 224 then
        match r with
        | c1 :: _ => if cont c1 then DChar ((b - 192) * 64 + (c1 - 128)) 2 else DInvalid
        | [] => DIncomplete
        end
      else if b <? 240 then
        match r with
        | c1 :: c2 :: _ => if cont c1 && cont c2 then if_scalar 2048 ((b - 224) * 4096 + (c1 - 128) * 64 + (c2 - 128)) 3 else DInvalid
        | [c1] => if cont c1 then DIncomplete else DInvalid
        | [] => DIncomplete
        end
      else if b <? 245 then
        match r with
        | c1 :: c2 :: c3 :: _ =>
            if cont c1 && cont c2 && cont c3
            then if_scalar 65536 ((b - 240) * 262144 + (c1 - 128) * 4096 + (c2 - 128) * 64 + (c3 - 128)) 4 else DInvalid
        | [c1; c2] => if cont c1 && cont c2 then DIncomplete else DInvalid
        | [c1] => if cont c1 then DIncomplete else DInvalid
        | [] => DIncomplete
        end
      else DInvalid
  end.
(** iconv called in ToolsStrConv.cpp:354: one character of UTF-16 *)
Definition utf16_dec (s : bytes) : dstep :=
  match s with
  | b0 :: b1 :: r =>
      let u := b0 + 256 * b1 in
      if (55296 <=? u) && (u <? 56320) then
        match r with
        | b2 :: b3 :: _ =>
            let w := b2 + 256 * b3 in
            if (56320 <=? w) && (w <? 57344) then DChar (65536 + (u - 55296) * 1024 + (w - 56320)) 4 else DInvalid
        | _ => DIncomplete
        end
      else if (56320 <=? u) && (u <? 57344) then DInvalid
      else DChar u 2
  | _ => DIncomplete
  end.
(** iconv called in ToolsStrConv.cpp:354: one character of UTF-32 *)
Definition utf32_dec (s : bytes) : dstep :=
  match s with
  | b0 :: b1 :: b2 :: b3 :: _ => if_scalar 0 (b0 + 256 * (b1 + 256 * (b2 + 256 * b3))) 4
  | _ => DIncomplete
  end.
(** the encoding named in ToolsStrConv.cpp:310-311 *)
Definition decode (e : enc) (s : bytes) : dstep :=
  match e with EUTF8 => utf8_dec s | EUTF16 => utf16_dec s | EUTF32 => utf32_dec s | EUnknown => DInvalid end.

(** outcomes of iconv, ToolsStrConv.cpp:354-389 *)
Inductive iconv_end : Type := IcDone | IcIncomplete | IcInvalid | IcTooBig.
(** bytes written, input left, output room left, how it ended *)
(** iconv, ToolsStrConv.cpp:354 *)
Fixpoint iconv (fuel : nat) (to from : enc) (src : bytes) (left_out : Z) : bytes * bytes * Z * iconv_end :=
  match fuel, src with
  | _, [] => ([], [], left_out, IcDone)
  | O, _ => ([], src, left_out, IcInvalid)
  | S f, _ =>
      match decode from src with
      | DChar c n =>
          let o := encode to c in
          if zlen o <=? left_out then
            let '(out, r, l, e) := iconv f to from (skipn n src) (left_out - zlen o) in (o ++ out, r, l, e)
          else ([], src, left_out, IcTooBig)
      | DIncomplete => ([], src, left_out, IcIncomplete)
      | DInvalid => ([], src, left_out, IcInvalid)
      end
  end.

(** storing bytes into a vector at an index (memcpy of line 318, the output of iconv).
    Forming the address alone is not counted as an access. *)
(** ToolsStrConv.cpp:318, 354 *)
Definition store (buf : bytes) (i : Z) (b : bytes) : res bytes :=
  match b with
  | [] => Ok buf
  | _ => if i + zlen b <=? zlen buf
         then Ok (firstn (Z.to_nat i) buf ++ b ++ skipn (Z.to_nat i + length b) buf) else UB UbHeap
  end.
(** vector::resize (lines 274, 316, 345, 381) *)
(** ToolsStrConv.cpp:274, 316, 345, 381 *)
Definition resize (buf : bytes) (n : Z) : bytes :=
  firstn (Z.to_nat n) buf ++ repeat 0 (Z.to_nat n - length buf).

(** ToolsStrConv.cpp:352-389, the conversion loop and the return value.  Lines 367, 375: the same outcome for
    EINVAL and EILSEQ. *)
Fixpoint conv_loop (fuel : nat) (to from : enc) (throw : bool) (idx converted : Z) (buf src : bytes) (left_out : Z)
  : res (Z * bytes) :=
  match fuel with
  | O => Fuel
  | S f =>
      let '(out, src', lo, e) := iconv (length src) to from src left_out in
      let* buf1 := store buf (idx + converted) out in
      match e with
      | IcDone => Ok (zlen buf1 - idx - lo, buf1)
      | IcIncomplete | IcInvalid => if throw then Err else Ok (0, buf1)
      | IcTooBig =>
          let current := zlen buf1 in
          let new_size := current + zlen src' * 4 in
          let converted := current - lo in
          conv_loop f to from throw idx converted (resize buf1 new_size) src' (new_size - converted)
      end
  end.

(** ToolsStrConv.cpp:301-390: the number of bytes written at [idx], and the buffer.
    Encoding enumerators are ordered Unknown < UTF8 < UTF16 < UTF32 (Enums.h:18-23). *)
Definition conv_charset (to from : enc) (data buf : bytes) (throw : bool) (idx : Z) : res (Z * bytes) :=
  match data with
  | [] => Ok (0, buf)
  | _ =>
      if enc_eqb to from then
        let seg := zlen data + idx in
        let buf1 := if zlen buf <? seg then resize buf seg else buf in
        let* buf2 := store buf1 idx data in Ok (zlen data, buf2)
      else if enc_eqb to EUnknown || enc_eqb from EUnknown then (if throw then Err else Ok (0, buf))
      else
        let reserve := zlen data * (if enc_num to <? enc_num from then 1 else if enc_eqb from EUTF16 then 2 else 4) in
        let buf1 := if zlen buf <? idx + reserve then resize buf (idx + reserve) else buf in
        conv_loop (S (length data)) to from throw idx 0 buf1 data (zlen buf1 - idx)
  end.

(** ToolsStrConv.cpp:270-277: the same into a vector of its own *)
Definition conv_charset_vec (to from : enc) (data : bytes) (throw : bool) : res bytes :=
  let* (n, buf) := conv_charset to from data [] throw 0 in Ok (resize buf n).
