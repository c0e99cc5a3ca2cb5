(** Model of Srl::BitWrap, Srl::VecWrap and Srl::Bytes (include/Srl/BitWrap.h, include/Srl/Resolve.hpp:838-917).  Definitions only. *)
From Coq Require Import ZArith List Bool.
From Verif Require Import Base M_Types M_Conv.
Import ListNotations.
Open Scope Z_scope.

(** Tools::base64_to_bytes(dest, dest_size, str, str_len), ToolsBtsConv.cpp:113-135, with what is written before the loop ends or
    throws; [todo] = dest_size - out_idx, recursion on [fuel] >= todo *)
Fixpoint b64_writes (fuel : nat) (str : bytes) (in_idx : nat) (todo : nat) : bytes * res unit :=
  match fuel with
  | O => ([], Ok tt)
  | S fuel' =>
    if Nat.eqb todo 0 then ([], Ok tt)
    else
      match b64_lookup str in_idx, b64_lookup str (in_idx + 1), b64_lookup str (in_idx + 2), b64_lookup str (in_idx + 3) with
      | Ok b0, Ok b1, Ok b2, Ok b3 =>
          if (b0 =? b64_invalid) || (b1 =? b64_invalid) || (b2 =? b64_invalid) || (b3 =? b64_invalid) then ([], Err)
          else
            let d0 := u8 (Z.lor (Z.shiftl b0 2) (Z.shiftr b1 4)) in
            let d1 := u8 (Z.lor (Z.shiftl b1 4) (Z.shiftr b2 2)) in
            let d2 := u8 (Z.lor (Z.shiftl b2 6) b3) in
            let out := d0 :: (if Nat.ltb 1 todo then d1 :: (if Nat.ltb 2 todo then [d2] else []) else []) in
            let (rest, r) := b64_writes fuel' str (in_idx + 4) (todo - 3) in (out ++ rest, r)
      | _, _, _, _ => ([], UB UbOob)    (* 116-119: an index outside of the table or of the text *)
      end
  end.
(** bytes written one after the other to memory of [room] bytes *)
(** the writes of Resolve.hpp:878-882 *)
Definition into (room : Z) (w : bytes * res unit) : bytes * res unit :=
  if room <? zlen (fst w) then (firstn (Z.to_nat room) (fst w), UB UbOob) else w.
(** Resolve.hpp:878-882: [size] bytes to memory of [room] bytes *)
Definition copy_bits (room : Z) (size : nat) (v : value) : bytes * res unit :=
  if ty_eqb (v_type v) TString then
    if Nat.ltb 0 (length (v_data v)) && negb (Nat.eqb (Nat.modulo (length (v_data v)) 4) 0) then ([], Err)     (* ToolsBtsConv.cpp:108-111 *)
    else into room (b64_writes size (v_data v) 0 size)
  else into room (v_data v, Ok tt).
(** Resolve.hpp:861-863 *)
Definition bits_size (v : value) : nat := if ty_eqb (v_type v) TString then get_base64_decoded_size (v_data v) else length (v_data v).
(** check_type_string (Resolve.hpp:1029-1036): text or a block *)
Definition bits_type (v : value) : bool := ty_eqb (v_type v) TString || ty_eqb (v_type v) TBinary.

(** Switch<BitWrap>::Paste (Resolve.hpp:854-883): the bytes written to the memory received from [alloc], and the outcome.
    [alloc]: [None] if it is not set; given a size it returns null ([None]) or memory with room for so many bytes *)
Definition bitwrap_paste (alloc : option (Z -> option Z)) (v : value) : bytes * res unit :=
  if negb (bits_type v) then ([], Err)
  else match alloc with
       | None => ([], Err)
       | Some f =>
           let m := f (Z.of_nat (bits_size v)) in
           if Nat.eqb (bits_size v) 0 then ([], Ok tt)
           else match m with None => ([], Err) | Some room => copy_bits room (bits_size v) v end
       end.
(** Switch<BitWrap>::Insert (Resolve.hpp:842-852): [data] is [None] if the pointer is null *)
Definition bitwrap_insert (data : option bytes) (size : Z) : res value :=
  match data with
  | None => if 0 <? size then Err else Ok (val_block [] TBinary)
  | Some bs => Ok (val_block bs TBinary)
  end.

(** std::vector<T>: the bytes of its elements and the size of its memory in bytes; [x_mem] = 0: the pointer is null *)
(** BitWrap.h:36-50: the vector that a VecWrap refers to *)
Record vec : Type := mkVec { x_data : bytes; x_mem : Z }.
(** BitWrap.h:36-50: a vector that was not used *)
Definition vec_new : vec := mkVec [] 0.
(** resize to [n] elements of [u] bytes; [grow]: memory allocated when [need] bytes do not fit into [mem] bytes *)
(** BitWrap.h:45: vec->resize *)
Definition vec_resize (grow : Z -> Z -> Z) (u n : Z) (x : vec) : vec :=
  let need := n * u in
  mkVec (firstn (Z.to_nat need) (x_data x) ++ repeat 0 (Z.to_nat need - length (x_data x))) (if need <=? x_mem x then x_mem x else grow (x_mem x) need).
(** the elements after writing to their memory from the start *)
(** Resolve.hpp:881: memcpy into the memory of the vector *)
Definition vec_write (x : vec) (bs : bytes) : vec := mkVec (firstn (length (x_data x)) bs ++ skipn (length bs) (x_data x)) (x_mem x).
(** Switch<VecWrap<T>>::Paste (Resolve.hpp:894-898) with the function given to BitWrap (BitWrap.h:40-50); [u] = sizeof(T): the
    vector afterwards and the outcome.  Simplification: whatever is behind the memory of the vector is not modelled, writing
    there is undefined. *)
Definition vecwrap_paste (grow : Z -> Z -> Z) (u : Z) (x : vec) (v : value) : vec * res unit :=
  if negb (bits_type v) then (x, Err)
  else
    let y := vec_resize grow u (Z.of_nat (bits_size v) / u) x in
    let (bs, r) := bitwrap_paste (Some (fun _ => if x_mem y =? 0 then None else Some (x_mem y))) v in (vec_write y bs, r).
(** Switch<VecWrap<T>>::Insert (Resolve.hpp:889-892, BitWrap.h:41) *)
Definition vecwrap_insert (x : vec) : res value := bitwrap_insert (if x_mem x =? 0 then None else Some (x_data x)) (zlen (x_data x)).
(** Switch<Bytes> (Resolve.hpp:901-917) *)
Definition bytes_paste (grow : Z -> Z -> Z) (x : vec) (v : value) : vec * res unit := vecwrap_paste grow 1 x v.
Definition bytes_insert (x : vec) : res value := vecwrap_insert x.
