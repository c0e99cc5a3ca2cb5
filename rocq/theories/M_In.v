(** Model of the input layer: Lib::In over a memory block and over an std::istream
    (include/Srl/In.h, include/Srl/In.hpp, src/lib/In.cpp).  Definitions only.

    A parser is modelled as a term of [prog]: the sequence of operations it performs on its [In] object.
    The same term is run by [run_block] (memory source) and [run_stream] (std::istream source).
    Simplifications: a MemBlock returned by read_block is represented by a copy of its bytes taken at that
    moment (the parsers copy what must survive the next fetch, PSrl.cpp:164-166, PMsgPack.cpp:360-365);
    memory is unlimited (no std::bad_alloc); the counter [steps] of move_until (In.hpp:49) does not wrap,
    i.e. tokens are shorter than 2^32 bytes. *)
From Coq Require Import ZArith List Bool.
From Verif Require Import Base.
Import ListNotations.
Open Scope Z_scope.

Inductive prog (R : Type) : Type :=
| Ret (r : R)
| Throw                             (* the parser calls error() / throws Srl::Exception *)
| Undef (u : ub)                    (* the parser itself does something undefined *)
| OutOfFuel                         (* Coq artefact: loop bound exhausted *)
| NotNull (k : prog R)              (* In.hpp:46-48: if(!pos) error() *)
| Move (n : Z) (k : prog R)         (* In.hpp:78-81 *)
| Peek (n : Z) (k : prog R)         (* In.hpp:83-89 *)
| TryPeek (n : Z) (k : bool -> prog R)   (* In.hpp:91-94 *)
| Deref (off : nat) (k : Z -> prog R)    (* reading pos[off] without any check *)
| Adv (n : nat) (k : prog R)        (* pos += n without any check, In.hpp:146,155 *)
| Anchor (b : bool) (k : prog R)    (* anchor = pos / anchor = nullptr, In.hpp:30,32,98,100 *)
| Back (n : Z) (k : bytes -> prog R)     (* the block { pos - n, n }, In.hpp:34,102 *)
| LeftM1 (k : Z -> prog R).         (* end - pos - 1 as size_t, In.hpp:126 *)
Arguments Ret {R} r.
Arguments Throw {R}.
Arguments Undef {R} u.
Arguments OutOfFuel {R}.
Arguments NotNull {R} k.
Arguments Move {R} n k.
Arguments Peek {R} n k.
Arguments TryPeek {R} n k.
Arguments Deref {R} off k.
Arguments Adv {R} n k.
Arguments Anchor {R} b k.
Arguments Back {R} n k.
Arguments LeftM1 {R} k.

(** sequencing of C++ statements *)
(** In.hpp:10-179: statements one after the other *)
Fixpoint pbind {A B} (p : prog A) (f : A -> prog B) : prog B :=
  match p with
  | Ret r => f r
  | Throw => Throw
  | Undef u => Undef u
  | OutOfFuel => OutOfFuel
  | NotNull k => NotNull (pbind k f)
  | Move n k => Move n (pbind k f)
  | Peek n k => Peek n (pbind k f)
  | TryPeek n k => TryPeek n (fun b => pbind (k b) f)
  | Deref o k => Deref o (fun c => pbind (k c) f)
  | Adv n k => Adv n (pbind k f)
  | Anchor b k => Anchor b (pbind k f)
  | Back n k => Back n (fun bs => pbind (k bs) f)
  | LeftM1 k => LeftM1 (fun z => pbind (k z) f)
  end.
Notation "'let!' x ':=' p 'in' k" := (pbind p (fun x => k))
  (at level 200, x pattern, p at level 100, k at level 200, right associativity).

(** result of a computation that does not touch the input (e.g. a conversion) *)
(** conversions called by the parsers, for example PJson.cpp:271-300 *)
Definition lift {A} (r : res A) : prog A :=
  match r with Ok a => Ret a | Err => Throw | UB u => Undef u | Fuel => OutOfFuel end.

(** * Memory source *)

(** bytes before pos (last one first) and bytes from pos on *)
(** In.h:84-88: start, pos and end *)
Record blk : Type := mkBlk { b_done : bytes; b_rest : bytes }.

(** In.cpp:18-22.  Note [end = start + size + 1].
    Simplification: the pointer of an empty source is null, as data() of a vector that never held memory. *)
Definition set_block (src : bytes) : blk := mkBlk [] src.

(** [pos + steps >= end] (In.hpp:85) fails to compare for sizes that leave the address space: UbPtr. *)
Fixpoint run_block {R} (p : prog R) (b : blk) : res (R * blk) :=
  match p with
  | Ret r => Ok (r, b)
  | Throw => Err
  | Undef u => UB u
  | OutOfFuel => Fuel
  | NotNull k => match b_done b, b_rest b with [], [] => Err | _, _ => run_block k b end
  | Move n k =>
      if two63 <=? n then UB UbPtr
      else if n <=? zlen (b_rest b)
      then run_block k (mkBlk (rev_append (firstn (Z.to_nat n) (b_rest b)) (b_done b)) (skipn (Z.to_nat n) (b_rest b)))
      else Err
  | Peek n k =>
      if two63 <=? n then UB UbPtr else if n <=? zlen (b_rest b) then run_block k b else Err
  | TryPeek n k => run_block (k (n <=? zlen (b_rest b))) b
  | Deref off k =>
      match nth_error (b_rest b) off with
      | Some c => run_block (k c) b
      | None => UB (if Nat.eqb off (length (b_rest b)) then UbEnd else UbOob)
      end
  | Adv n k =>
      if (n <=? length (b_rest b))%nat
      then run_block k (mkBlk (rev_append (firstn n (b_rest b)) (b_done b)) (skipn n (b_rest b)))
      else UB UbOob
  | Anchor _ k => run_block k b
  | Back n k =>
      if n <=? zlen (b_done b) then run_block (k (rev (firstn (Z.to_nat n) (b_done b)))) b else UB UbOob
  | LeftM1 k => run_block (k (zlen (b_rest b))) b
  end.

(** * Stream source *)

(** s_win : buffer[start..end), s_pos = pos - start, s_anchor = anchor - start (if not null),
    s_src : bytes the std::istream still holds, s_eof = eof_reached (In.h:84-94).
    Bytes of the buffer behind [end] are considered not readable. *)
Record strm : Type := mkStrm {
  s_win : bytes; s_pos : nat; s_anchor : option nat; s_src : bytes; s_eof : bool }.

(** In.cpp:32-92 [try_fetch_data] (streaming).  The margin of line 63 is min(preserve_pos, 32);
    line 80 sets the anchor when there was none and clears it when there was one. *)
Definition fetch (nbytes read_len : Z) (s : strm) : bool * strm :=
  if s_eof s then (false, s)
  else
    let left := (length (s_win s) - s_pos s)%nat in
    let rl := Z.max nbytes read_len - Z.of_nat left in
    let keep_pos := match s_anchor s with Some a => a | None => s_pos s end in
    let margin := Nat.min keep_pos 32 in
    let drop := (keep_pos - margin)%nat in
    let got := firstn (Z.to_nat rl) (s_src s) in
    let src' := skipn (Z.to_nat rl) (s_src s) in
    let fail := (zlen got + Z.of_nat left <? nbytes) in
    (negb fail,
     mkStrm (skipn drop (s_win s) ++ got) (s_pos s - drop)
            (match s_anchor s with Some _ => None | None => Some margin end) src' fail).

(** In.cpp:8-17 *)
Definition set_stream (src : bytes) : strm := snd (fetch 0 1 (mkStrm [] 0 None src false)).

(** In.hpp:83-94: is there a fetch, and does it succeed *)
Definition need (n : Z) (s : strm) : bool * strm :=
  if Z.of_nat (s_pos s) + n <? zlen (s_win s) then (true, s) else fetch n 1024 s.

Fixpoint run_stream {R} (p : prog R) (s : strm) : res (R * strm) :=
  match p with
  | Ret r => Ok (r, s)
  | Throw => Err
  | Undef u => UB u
  | OutOfFuel => Fuel
  | NotNull k => run_stream k s
  | Move n k =>
      if two63 <=? n then UB UbPtr
      else let (ok, s') := need n s in
           if ok then run_stream k (mkStrm (s_win s') (s_pos s' + Z.to_nat n) (s_anchor s') (s_src s') (s_eof s'))
           else Err
  | Peek n k =>
      if two63 <=? n then UB UbPtr
      else let (ok, s') := need n s in if ok then run_stream k s' else Err
  | TryPeek n k => let (ok, s') := need n s in run_stream (k ok) s'
  | Deref off k =>
      match nth_error (s_win s) (s_pos s + off) with
      | Some c => run_stream (k c) s
      | None => UB UbOob
      end
  | Adv n k =>
      if (s_pos s + n <=? length (s_win s))%nat
      then run_stream k (mkStrm (s_win s) (s_pos s + n) (s_anchor s) (s_src s) (s_eof s))
      else UB UbOob
  | Anchor true k => run_stream k (mkStrm (s_win s) (s_pos s) (Some (s_pos s)) (s_src s) (s_eof s))
  | Anchor false k => run_stream k (mkStrm (s_win s) (s_pos s) None (s_src s) (s_eof s))
  | Back n k =>
      if n <=? Z.of_nat (s_pos s)
      then run_stream (k (firstn (Z.to_nat n) (skipn (s_pos s - Z.to_nat n) (s_win s)))) s
      else UB UbOob
  | LeftM1 k => run_stream (k (u64 (zlen (s_win s) - Z.of_nat (s_pos s) - 1))) s
  end.

(** * Operations built from the primitive ones *)

(** In.hpp:96-103 *)
Definition read_block (n : Z) : prog bytes :=
  Anchor true (Move n (Anchor false (Back n (fun bs => Ret bs)))).
(** In.hpp:9-19, the bytes as a little endian number *)
Definition read_move (n : Z) : prog Z := let! bs := read_block n in Ret (unle bs).

(** tokens of move_until / move_while / read_block_until: a character, a two character sequence
    (std::array), or a Notify *)
(** In.h:37-45, In.hpp:21-76 *)
Inductive token : Type := TkChar (c : Z) | TkPair (a b : Z) | TkNotify (c : Z).

(** In.hpp:59-76 [is_at_token]; the second component is the note of the Notify token *)
Fixpoint is_at_token (ts : list token) (note : bool) : prog (bool * bool) :=
  match ts with
  | [] => Ret (false, note)
  | TkChar c :: ts' => Deref 0 (fun x => if x =? c then Ret (true, note) else is_at_token ts' note)
  | TkPair a b :: ts' =>
      TryPeek 2 (fun ok =>
        if ok then
          Deref 0 (fun x => if x =? a
                            then Deref 1 (fun y => if y =? b then Ret (true, note) else is_at_token ts' note)
                            else is_at_token ts' note)
        else is_at_token ts' note)
  | TkNotify c :: ts' => Deref 0 (fun x => is_at_token ts' (note || (x =? c)))
  end.

(** In.hpp:43-57, the loop; [neg] is the template argument Not *)
Fixpoint move_loop (fuel : nat) (neg : bool) (ts : list token) (steps : Z) (note : bool) : prog (Z * bool) :=
  match fuel with
  | O => OutOfFuel
  | S f =>
      let! (at_tok, note') := is_at_token ts note in
      if Bool.eqb neg at_tok then Move 1 (move_loop f neg ts (steps + 1) note') else Ret (steps, note')
  end.
Definition move_until_gen (fuel : nat) (neg : bool) (ts : list token) : prog (Z * bool) :=
  NotNull (move_loop fuel neg ts 0 false).
(** In.hpp:21-25 *)
Definition move_until (fuel : nat) (ts : list token) : prog (Z * bool) := move_until_gen fuel false ts.
(** In.hpp:37-41 *)
Definition move_while (fuel : nat) (ts : list token) : prog (Z * bool) := move_until_gen fuel true ts.
(** In.hpp:27-35 *)
Definition read_block_until (fuel : nat) (ts : list token) : prog (bytes * bool) :=
  Anchor true (let! (steps, note) := move_until fuel ts in
               Anchor false (Back steps (fun bs => Ret (bs, note)))).
