(** Model of the Srl binary format, src/lib/PSrl.cpp and include/Srl/PSrl.h.  Definitions only. *)
From Coq Require Import ZArith List Bool.
From Verif Require Import Base M_Types M_Conv M_In S_Doc M_OutOps.
Import ListNotations.
Open Scope Z_scope.

(** PSrl.cpp:16-34 *)
Definition FNum : Z := 1.
Definition FNamed : Z := 2.
Definition FIndexed : Z := 4.
Definition FSigned : Z := 8.
Definition FFP32 : Z := 16.
Definition FFP64 : Z := 32.
Definition FTrue : Z := 64.
Definition FFalse : Z := 128.
Definition FNull : Z := 8.
Definition FBinary : Z := 16.
Definition FString : Z := 32.
Definition FObject : Z := 64.
Definition FArray : Z := 128.

Definition has (flag bits : Z) : bool := negb (Z.land flag bits =? 0).

(** PSrl.cpp:36 *)
Definition flag_is_scope (flag : Z) : bool := negb (has flag FNum) && has flag (Z.lor FObject FArray).

(** PSrl.cpp:38-67 *)
Definition build_flag (v : value) : Z :=
  let tp := v_type v in
  if is_num tp && is_integral tp then
    Z.lor FNum (if is_signed tp && (v_i64 v <? 0) then FSigned else 0)
  else if is_fp tp then Z.lor FNum (if ty_eqb tp TFP32 then FFP32 else FFP64)
  else if ty_eqb tp TString || ty_eqb tp TBinary then (if ty_eqb tp TString then FString else FBinary)
  else if is_scope tp then (if ty_eqb tp TArray then FArray else FObject)
  else if ty_eqb tp TBool then Z.lor FNum (if negb (v_i64 v =? 0) then FTrue else FFalse)
  else if ty_eqb tp TNull then FNull
  else 0.

(** PSrl.cpp:73-87 [encode_integer]; [room] is what is left of the local buffer of ten bytes. *)
Fixpoint encode_loop (room : nat) (n : Z) : res bytes :=
  match room with
  | O => UB UbOob
  | S room' =>
      if 128 <=? n then
        let* tl := encode_loop room' (Z.shiftr n 7) in Ok (u8 (Z.lor n 128) :: tl)
      else Ok [u8 n]
  end.
Definition encode_integer (n : Z) : res bytes := encode_loop 10 n.

(** PSrl.cpp:89-111 [decode_integer].  Shifting by 64 bits or more is undefined, so the loop ends after ten
    blocks; the fuel 11 is never exhausted. *)
Fixpoint decode_loop (fuel : nat) (block out shift : Z) : prog Z :=
  match fuel with
  | O => OutOfFuel
  | S f =>
      if has block 128 then
        Move 1 (Deref 0 (fun block' =>
          if 64 <=? shift then Undef UbShift
          else decode_loop f block' (Z.lor out (u64 (Z.shiftl (Z.land 127 block') shift))) (shift + 7)))
      else if 70 <? shift then Throw
      else Move 1 (Ret out)
  end.
Definition decode_integer : prog Z :=
  Deref 0 (fun block => decode_loop 11 block (Z.land 127 block) 7).

(** PSrl.h:33-38.  [ps_scope], [ps_stack]: scope, scope_stack.  [ps_indexed]: indexed_strings (reading).
    [ps_hashed]: hashed_strings (writing), the names in order of their index.
    Simplification: HTable<MemBlock, size_t> is represented by the list of its keys, the index of a key being
    its position (justified by C46); keys are copies of the name bytes.  string_buffer only holds copies. *)
Record psrl : Type := mkPsrl {
  ps_scope : ty; ps_stack : list ty; ps_indexed : list bytes; ps_hashed : list bytes }.

(** PSrl.cpp:305-313 [clear]; also the state of a new parser *)
Definition psrl_clear (_ : psrl) : psrl := mkPsrl TNull [] [] [].
Definition psrl_init : psrl := mkPsrl TNull [] [] [].

(** PSrl.cpp:291-295 *)
Definition psrl_push (st : psrl) (t : ty) : psrl := mkPsrl t (t :: ps_stack st) (ps_indexed st) (ps_hashed st).
(** PSrl.cpp:297-303; pop() of an empty std::stack is undefined *)
Definition psrl_pop (st : psrl) : res psrl :=
  match ps_stack st with
  | [] => UB UbOob
  | _ :: s => Ok (mkPsrl (match s with [] => TNull | t :: _ => t end) s (ps_indexed st) (ps_hashed st))
  end.

Fixpoint index_of (n : bytes) (l : list bytes) : option nat :=
  match l with
  | [] => None
  | x :: l' => if bytes_eqb x n then Some 0%nat else option_map S (index_of n l')
  end.

(** PSrl.cpp:119-142 [write_head] *)
Definition psrl_write_head (st : psrl) (flag : Z) (name : bytes) : res (psrl * list oop) :=
  if (zlen name <? 1) || ty_eqb (ps_scope st) TNull || ty_eqb (ps_scope st) TArray then
    Ok (st, [OWrite [flag]])
  else
    let flag := Z.lor flag FNamed in
    match index_of name (ps_hashed st) with
    | Some i =>
        let* e := encode_integer (Z.of_nat i) in
        Ok (st, [OWrite [Z.lor flag FIndexed]; OWrite e])
    | None =>
        let* e := encode_integer (zlen name) in
        Ok (mkPsrl (ps_scope st) (ps_stack st) (ps_indexed st) (ps_hashed st ++ [name]),
            [OWrite [flag]; OWrite e; OWrite name])
    end.

(** PSrl.cpp:174-221 [write]; an assertion failure (NDEBUG off) or pop of the empty stack is UbOob *)
Definition psrl_write (st : psrl) (e : event) : res (psrl * list oop) :=
  let '(name, v) := e in
  let flag := build_flag v in
  if flag =? 0 then
    let* st' := psrl_pop st in Ok (st', [OWrite [0]])
  else
    let* (st1, head) := psrl_write_head st flag name in
    let tp := v_type v in
    if is_scope tp then Ok (psrl_push st1 tp, head)
    else if ty_eqb tp TNull || ty_eqb tp TBool then Ok (st1, head)
    else if ty_eqb tp TFP32 then Ok (st1, head ++ [OWrite (le 4 (v_fp32 v))])
    else if ty_eqb tp TFP64 then Ok (st1, head ++ [OWrite (le 8 (v_raw v))])
    else if is_integral tp then
      let* n := (if is_signed tp && (v_i64 v <? 0)
                 then (if v_i64 v =? - two63 then UB UbSigned else Ok (u64 (- v_i64 v)))
                 else Ok (v_raw v)) in
      let* e := encode_integer n in
      Ok (st1, head ++ [OWrite e])
    else
      let* e := encode_integer (zlen (v_data v)) in
      Ok (st1, head ++ [OWrite e; OWrite (v_data v)]).

(** PSrl.cpp:144-172 [read_head] *)
Definition psrl_read_head (st : psrl) : prog (psrl * (Z * bytes)) :=
  let! flag := read_move 1 in
  if negb (has flag FNamed) || ty_eqb (ps_scope st) TNull || ty_eqb (ps_scope st) TArray then
    Ret (st, (flag, []))
  else if has flag FIndexed then
    let! i := decode_integer in
    if zlen (ps_indexed st) <=? i then Throw
    else match nth_error (ps_indexed st) (Z.to_nat i) with
         | Some n => Ret (st, (flag, n))
         | None => Undef UbOob
         end
  else
    let! size := decode_integer in
    let! block := read_block size in
    Ret (mkPsrl (ps_scope st) (ps_stack st) (ps_indexed st ++ [block]) (ps_hashed st), (flag, block)).

(** PSrl.cpp:267-289 [read_num] *)
Definition psrl_read_num (flag : Z) : prog value :=
  if has flag (Z.lor FTrue FFalse) then Ret (val_bool (has flag FTrue))
  else if has flag FFP32 then let! b := read_move 4 in Ret (val_f32 b)
  else if has flag FFP64 then let! b := read_move 8 in Ret (val_f64 b)
  else
    let! n := decode_integer in
    if has flag FSigned then
      if s64 n =? - two63 then Undef UbSigned else Ret (val_int TI64 (- s64 n))
    else Ret (val_int TUI64 n).

(** PSrl.cpp:223-265 [read] *)
Definition psrl_read (st : psrl) : prog (psrl * event) :=
  let! (st, (flag, name)) := psrl_read_head st in
  if flag =? 0 then
    match ps_stack st with
    | [] => Throw
    | _ :: _ => let! st' := lift (psrl_pop st) in Ret (st', ([], val_type TScopeEnd))
    end
  else if flag_is_scope flag then
    let tp := if has flag FObject then TObject else TArray in
    Ret (psrl_push st tp, (name, val_type tp))
  else if has flag FNum then
    let! v := psrl_read_num flag in Ret (st, (name, v))
  else if has flag (Z.lor FBinary FString) then
    let! size := decode_integer in
    let! block := read_block size in
    let type := if has flag FBinary then TBinary else TString in
    Ret (st, (name, val_block_enc block type EUTF8))
  else if has flag FNull then Ret (st, (name, val_type TNull))
  else Throw.
