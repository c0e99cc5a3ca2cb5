(** Model of the MessagePack format, src/lib/PMsgPack.cpp and include/Srl/PMsgPack.h.  Definitions only. *)
From Coq Require Import ZArith List Bool.
From Verif Require Import Base M_Types M_Conv M_In S_Doc M_OutOps.
Import ListNotations.
Open Scope Z_scope.

(** PMsgPack.cpp:15-29 [swap_bytes] of a number of n bytes, as the bytes that are then written *)
Definition swapped (n : nat) (x : Z) : bytes := rev (le n x).

(** width in bytes and prefix of the integral types, PMsgPack.cpp:58-67 *)
Definition int_bytes (t : ty) : nat :=
  match t with TI8 | TUI8 => 1 | TI16 | TUI16 => 2 | TI32 | TUI32 => 4 | _ => 8 end%nat.
Definition int_prefix (t : ty) : Z :=
  match t with
  | TI8 => 208 | TUI8 => 204 | TI16 => 209 | TUI16 => 205 | TI32 => 210 | TUI32 => 206 | TI64 => 211 | _ => 207
  end.
(** reinterpretation of n bytes as a signed number *)
(** PMsgPack.cpp:210-219 *)
Definition to_signed (n : nat) (x : Z) : Z := if x <? 256 ^ Z.of_nat n / 2 then x else x - 256 ^ Z.of_nat n.

(** PMsgPack.cpp:33-51, 53-93 [write_scalar] of integers: one out.write per chunk.
    [IntType i = val.pblock().i64] truncates to the width of the type. *)
Definition mp_write_int (t : ty) (raw : Z) : list oop :=
  let n := int_bytes t in
  let w := raw mod 256 ^ Z.of_nat n in
  if is_signed t then
    let i := to_signed n w in
    if (0 <=? i) && (i <=? 127) then [OWrite [i]]
    else if negb ((-1 <? i) || (i <? -31)) then [OWrite [Z.lor 224 (u8 i)]]
    else [OWrite [int_prefix t]; OWrite (swapped n w)]
  else if w <=? 127 then [OWrite [w]]
  else [OWrite [int_prefix t]; OWrite (swapped n w)].

(** PMsgPack.cpp:131-149 [write_bin]; out.write(sz) writes the size as it is in memory *)
Definition mp_write_bin (b : bytes) : list oop :=
  let size := zlen b in
  (if size <=? 255 then [OWrite [196]; OWrite [u8 size]]
   else if size <=? 65534 then [OWrite [197]; OWrite (le 2 size)]
   else [OWrite [198]; OWrite (le 4 (u32 size))]) ++ [OWrite b].

(** PMsgPack.cpp:155-176 [write_str] *)
Definition mp_write_str (b : bytes) : list oop :=
  let size := zlen b in
  (if size <=? 31 then [OWrite [Z.lor 160 size]]
   else if size <=? 254 then [OWrite [217]; OWrite [u8 size]]
   else if size <=? 65534 then [OWrite [218]; OWrite (le 2 size)]
   else [OWrite [219]; OWrite (le 4 (u32 size))]) ++ [OWrite b].

(** PMsgPack.cpp:95-126, 181-196 [srl_to_msgp]; the assertion for other types is UbOob *)
Definition srl_to_msgp (v : value) : res (list oop) :=
  match v_type v with
  | TFP32 => Ok [OWrite [202]; OWrite (swapped 4 (v_fp32 v))]
  | TFP64 => Ok [OWrite [203]; OWrite (swapped 8 (v_raw v))]
  | TBool => Ok [OWrite [if v_raw v =? 0 then 194 else 195]]
  | TNull => Ok [OWrite [192]]
  | TBinary => Ok (mp_write_bin (v_data v))
  | TString => Ok (mp_write_str (v_data v))
  | TObject | TArray | TScopeEnd => UB UbOob
  | t => Ok (mp_write_int t (v_raw v))
  end.

(** PMsgPack.h:25-31 [Scope]; the ticket is the ordinal number of the reservation, cf. M_OutOps *)
Record mscope : Type := mkScope { ms_type : ty; ms_elems : Z; ms_ticket : nat }.
(** PMsgPack.h:33-36.  [scope] is null exactly if the stack is empty.  [mp_next] counts the reservations made on
    the Out object (not a member of the class).  [buffer] only holds a copy of the name (streaming). *)
Record msgp : Type := mkMsgp { mp_stack : list mscope; mp_next : nat }.
Definition msgp_init : msgp := mkMsgp [] 0.
(** PMsgPack.cpp:471-475 *)
Definition msgp_clear (_ : msgp) : msgp := mkMsgp [] 0.

(** PMsgPack.cpp:371-412 [write], [write_scope] *)
Definition msgp_write (st : msgp) (e : event) : res (msgp * list oop) :=
  let '(name, v) := e in
  match v_type v with
  | TScopeEnd =>
      match mp_stack st with
      | [] => UB UbOob
      | s :: stack => Ok (mkMsgp stack (mp_next st), [OPatch (ms_ticket s) 0 (swapped 4 (ms_elems s))])
      end
  | t =>
      let '(stack, pre) :=
        match mp_stack st with
        | [] => ([], [])
        | s :: stack => (mkScope (ms_type s) (u32 (ms_elems s + 1)) (ms_ticket s) :: stack,
                         if ty_eqb (ms_type s) TObject then mp_write_str name else [])
        end in
      if is_scope t then
        Ok (mkMsgp (mkScope t 0 (mp_next st) :: stack) (S (mp_next st)),
            pre ++ [OWrite [if ty_eqb t TObject then 223 else 221]; OReserve 4])
      else
        let* ops := srl_to_msgp v in Ok (mkMsgp stack (mp_next st), pre ++ ops)
  end.

(** PMsgPack.cpp:200-208, 239-245, 322-325 *)
Definition prefix_is_bin (p : Z) : bool := (196 <=? p) && (p <=? 198).
Definition prefix_is_str (p : Z) : bool := ((160 <=? p) && (p <=? 191)) || ((217 <=? p) && (p <=? 219)).
Definition prefix_is_scalar (p : Z) : bool :=
  ((202 <=? p) && (p <=? 211)) || (p <=? 127) || (224 <=? p) || (p =? 194) || (p <=? 195) || (p =? 192).
Definition prefix_is_scope (p : Z) : bool := ((128 <=? p) && (p <=? 159)) || ((220 <=? p) && (p <=? 223)).

(** read_move<C> followed by swap_bytes: the bytes as a big endian number *)
(** PMsgPack.cpp:195-219, Aux.h:12-20 *)
Definition read_swapped (n : Z) : prog Z := let! bs := read_block n in Ret (unle (rev bs)).

(** PMsgPack.cpp:210-219 *)
Definition mp_read_int (t : ty) : prog value :=
  let! x := read_swapped (Z.of_nat (int_bytes t)) in
  Ret (val_int t (if is_signed t then to_signed (int_bytes t) x else x)).
(** PMsgPack.cpp:221-237 *)
Definition mp_read_num (p : Z) : prog value :=
  if p =? 202 then let! x := read_swapped 4 in Ret (val_f32 x)
  else if p =? 203 then let! x := read_swapped 8 in Ret (val_f64 x)
  else if p =? 204 then mp_read_int TUI8
  else if p =? 205 then mp_read_int TUI16
  else if p =? 206 then mp_read_int TUI32
  else if p =? 207 then mp_read_int TUI64
  else if p =? 208 then mp_read_int TI8
  else if p =? 209 then mp_read_int TI16
  else if p =? 210 then mp_read_int TI32
  else if p =? 211 then mp_read_int TI64
  else Throw.
(** PMsgPack.cpp:253-269 *)
Definition mp_read_fixnum (p : Z) : value :=
  val_int TI32 (if negb (Z.land 128 p =? 0) then Z.land 31 p - 32 else Z.land 127 p).
(** PMsgPack.cpp:247-251, 271-279 *)
Definition mp_read_scalar (p : Z) : prog value :=
  if (p =? 194) || (p =? 195) then Ret (val_bool (p =? 195))
  else if (202 <=? p) && (p <=? 211) then mp_read_num p
  else if p =? 192 then Ret (val_block [] TNull)
  else Ret (mp_read_fixnum p).
(** PMsgPack.cpp:281-298 *)
Definition mp_str_size (p : Z) : prog Z :=
  if (160 <=? p) && (p <=? 191) then Ret (Z.land p 31)
  else if p =? 217 then read_move 1 else if p =? 218 then read_move 2 else read_move 4.
Definition mp_bin_size (p : Z) : prog Z :=
  if p =? 196 then read_move 1 else if p =? 197 then read_move 2 else read_move 4.
(** PMsgPack.cpp:300-314 *)
Definition mp_read_str (p : Z) : prog value :=
  let! size := mp_str_size p in let! block := read_block size in Ret (val_block_enc block TString EUTF8).
Definition mp_read_bin (p : Z) : prog value :=
  let! size := mp_bin_size p in let! block := read_block size in Ret (val_block block TBinary).
(** PMsgPack.cpp:327-353 *)
Definition mp_scope_info (p : Z) : prog (ty * Z) :=
  if negb (Z.land p 64 =? 0) then
    let t := if negb (Z.land p 2 =? 0) then TObject else TArray in
    if negb (Z.land p 1 =? 0) then let! n := read_swapped 4 in Ret (t, n)
    else let! n := read_swapped 2 in Ret (t, n)
  else Ret (if negb (Z.land p 16 =? 0) then TArray else TObject, Z.land 15 p).
(** PMsgPack.cpp:355-368; the name is copied when streaming, so it survives the next read *)
Definition mp_read_name (p : Z) : prog bytes := let! v := mp_read_str p in Ret (v_data v).

(** PMsgPack.cpp:442-468, the value after its prefix *)
Definition mp_read_value (st : msgp) (name : bytes) (p : Z) : prog (msgp * event) :=
  if prefix_is_scope p then
    let! (t, n) := mp_scope_info p in
    Ret (mkMsgp (mkScope t (u32 n) 0 :: mp_stack st) (mp_next st), (name, val_type t))
  else if prefix_is_str p then let! v := mp_read_str p in Ret (st, (name, v))
  else if prefix_is_scalar p then let! v := mp_read_scalar p in Ret (st, (name, v))
  else if prefix_is_bin p then let! v := mp_read_bin p in Ret (st, (name, v))
  else Throw.

(** PMsgPack.cpp:414-469 [read] *)
Definition msgp_read (st : msgp) : prog (msgp * event) :=
  match mp_stack st with
  | s :: stack =>
      if ms_elems s <? 1 then Ret (mkMsgp stack (mp_next st), ([], val_type TScopeEnd))
      else
        let st := mkMsgp (mkScope (ms_type s) (ms_elems s - 1) (ms_ticket s) :: stack) (mp_next st) in
        let! p := read_move 1 in
        if ty_eqb (ms_type s) TObject then
          let! name := (if prefix_is_str p then mp_read_name p else Ret []) in
          let! p := read_move 1 in
          mp_read_value st name p
        else mp_read_value st [] p
  | [] => let! p := read_move 1 in mp_read_value st [] p
  end.
