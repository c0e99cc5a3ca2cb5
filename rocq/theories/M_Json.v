(** Model of PJson (src/lib/PJson.cpp, include/Srl/PJson.h).  Definitions only.

    Simplifications: strings are shorter than 2^32 bytes (the counter [steps] of In.hpp:116 and the index of
    Out.hpp:93 do not wrap); reader and writer state are one record, as in the class. *)
From Coq Require Import ZArith List Bool.
From Verif Require Import Base M_Types M_Conv M_Charset M_In S_Doc M_OutOps M_Env.
Import ListNotations.
Open Scope Z_scope.

(** PJson.h:22-29 *)
Record pjson : Type := mkPjson {
  j_compact : bool; j_stack : list ty; j_type : ty; j_closed : bool; j_nbuf : bytes; j_vbuf : bytes }.

(** PJson.h:12, 22-29 *)
Definition json_init (compact : bool) : pjson := mkPjson compact [] TNull true [] [].
(** PJson.cpp:332-337 *)
Definition json_clear (st : pjson) : pjson := mkPjson (j_compact st) [] TNull true (j_nbuf st) (j_vbuf st).
Definition stack_top (s : list ty) : ty := match s with [] => TNull | t :: _ => t end.

(** * Writing *)

(** PJson.cpp:30-36 and Out.hpp:89-117 *)
Definition escape_char (c : Z) : bytes :=
  if c =? 34 then [92; 34] else if c =? 92 then [92; 92] else if c =? 47 then [92; 47]
  else if c =? 10 then [92; 110] else if c =? 9 then [92; 116] else if c =? 13 then [92; 114]
  else if c =? 8 then [92; 98] else if c =? 12 then [92; 102] else [c].
Definition write_escape (s : bytes) : list oop := map (fun c => OWrite (escape_char c)) s.

(** PJson.cpp:49-58 *)
Definition insert_in_quotes (txt : bytes) (escape : bool) : list oop :=
  OWrite [34] :: (if escape then write_escape txt else [OWrite txt]) ++ [OWrite [34]].

(** PJson.cpp:155-175 *)
Definition insert_spacing (st : pjson) (t : ty) : list oop :=
  (if negb (j_closed st) && negb (ty_eqb t TScopeEnd) then [OWrite [44]] else []) ++
  (if j_compact st then []
   else
     let depth := length (j_stack st) in
     let tabs := if ty_eqb t TScopeEnd && Nat.ltb 0 depth then (depth - 1)%nat else depth in
     (if Nat.ltb 0 depth then [OWrite [10]] else []) ++ [OWrite (repeat 9 tabs)]).

(** PJson.cpp:106-117 *)
Definition write_name (st : pjson) (t : ty) (name : bytes) : list oop :=
  if negb (ty_eqb (j_type st) TNull) && negb (ty_eqb (j_type st) TArray) && negb (ty_eqb t TScopeEnd)
  then insert_in_quotes name false ++ [OWrite [58]] ++ (if j_compact st then [] else [OWrite [32]])
  else [].

(** PJson.cpp:99-153; popping an empty stack is undefined (line 133 is an assert) *)
Definition json_write (st : pjson) (e : event) : res (pjson * list oop) :=
  let (name, v) := e in
  let t := v_type v in
  let head := insert_spacing st t ++ write_name st t name in
  if is_scope t then
    Ok (mkPjson (j_compact st) (t :: j_stack st) t true (j_nbuf st) (j_vbuf st),
        head ++ [OWrite [if ty_eqb t TArray then 91 else 123]])
  else if ty_eqb t TScopeEnd then
    match j_stack st with
    | [] => UB UbOob
    | _ :: s => Ok (mkPjson (j_compact st) s (stack_top s) false (j_nbuf st) (j_vbuf st),
                    head ++ [OWrite [if ty_eqb (j_type st) TArray then 93 else 125]])
    end
  else
    Ok (mkPjson (j_compact st) (j_stack st) (j_type st) false (j_nbuf st) (j_vbuf st),
        head ++ (if is_scalar t then [OWrite (v_data v)] else insert_in_quotes (v_data v) (negb (ty_eqb t TBinary)))).

(** one call of Environment::write with a PJson parser *)
(** Environment.cpp:145-148, 164-227, PJson.cpp:99-157 *)
Definition json_save (x : fp_text) (st : pjson) (e : event) : res (pjson * list oop) :=
  let* e' := env_event true x e in json_write st e'.

(** * Reading *)

(** PJson.cpp:40-43: the escapes with a fixed substitute, in the order of the code *)
Definition substitute_of (c : Z) : option Z :=
  if c =? 34 then Some 34 else if c =? 39 then Some 39 else if c =? 92 then Some 92 else if c =? 47 then Some 47
  else if c =? 110 then Some 10 else if c =? 116 then Some 9 else if c =? 114 then Some 13
  else if c =? 98 then Some 8 else if c =? 102 then Some 12 else None.

(** PJson.cpp:16-24 [uc_literal]: the two bytes are passed on as UTF-16 in the order of the digits *)
Definition uc_literal (buf : bytes) (idx : Z) : prog (Z * bytes) :=
  let! block := read_block 6 in
  let! hex := lift (hex_to_bytes_dest 2 (skipn 2 block)) in
  lift (conv_charset EUTF8 EUTF16 hex buf true idx).

(** In.hpp:144-148, 155-165: one byte is stored and [n] are passed over *)
Definition put (buf : bytes) (idx c : Z) (n : nat) : prog (Z * bytes) :=
  let! buf' := lift (store buf idx [c]) in Adv n (Ret (1, buf')).

(** In.hpp:133-148; the number of bytes added to the buffer *)
Definition substitute_token (buf : bytes) (idx left : Z) : prog (Z * bytes) :=
  if 2 <=? left then
    Deref 0 (fun a => Deref 1 (fun b =>
      if a =? 92 then
        match substitute_of b with
        | Some c => put buf idx c 2
        | None => if b =? 117 then uc_literal buf idx else put buf idx a 1
        end
      else put buf idx a 1))
  else Deref 0 (fun a => put buf idx a 1).

(** In.hpp:110-131; [bufsz] is the local copy of the buffer's size *)
Fixpoint read_substitute (fuel : nat) (delim : Z) (buf : bytes) (bufsz steps : Z) : prog (Z * bytes) :=
  match fuel with
  | O => OutOfFuel
  | S f =>
      Peek 0 (Deref 0 (fun c =>
        if c =? delim then Ret (steps, buf)
        else
          let grow := bufsz <? steps + 1 in
          let bufsz := if grow then bufsz + (steps + 10) else bufsz in
          let buf := if grow then resize buf bufsz else buf in
          let go left :=
            let! (n, buf') := substitute_token buf steps left in read_substitute f delim buf' bufsz (steps + n) in
          TryPeek 2 (fun ok => if ok then go 2 else LeftM1 go)))
  end.

(** PJson.cpp:38-47: the string, and the buffer *)
Definition read_unescape (fuel : nat) (buf : bytes) : prog (bytes * bytes) :=
  let! (n, buf') := read_substitute fuel 34 buf (zlen buf) 0 in Ret (firstn (Z.to_nat n) buf', buf').

(** PJson.cpp:60-75 *)
Definition is_literal (c : Z) : bool :=
  ((48 <=? c) && (c <=? 57)) ||
  existsb (Z.eqb c) [116; 114; 117; 101; 102; 97; 108; 115; 84; 70; 110; 78; 43; 46; 45; 69; 105].

(** PJson.cpp:77-94 *)
Definition skip_comment (fuel : nat) : prog unit :=
  TryPeek 1 (fun ok =>
    if ok then
      Deref 1 (fun c =>
        if c =? 42 then let! _ := move_until fuel [TkPair 42 47] in Ret tt
        else if c =? 47 then let! _ := move_until fuel [TkChar 10; TkChar 13] in Ret tt
        else Ret tt)
    else Ret tt).

(** PJson.h:31-38 *)
Record jstate : Type := mkJs { s_name : bytes; s_value : value; s_complete : bool; s_named : bool; s_reading : bool }.
Definition js_init : jstate := mkJs [] (val_type TNull) false false false.

(** PJson.cpp:228-251; any closing bracket closes the scope *)
Definition process_bracket (st : pjson) (c : Z) (s : jstate) : prog (pjson * jstate) :=
  let t := if c =? 123 then TObject else if c =? 91 then TArray else TScopeEnd in
  let done_ stack ty := Ret (mkPjson (j_compact st) stack ty (j_closed st) (j_nbuf st) (j_vbuf st),
                             mkJs (s_name s) (val_type t) true (s_named s) (s_reading s)) in
  if ty_eqb t TScopeEnd then
    match j_stack st with
    | [] => Throw
    | _ :: rest => done_ rest (stack_top rest)
    end
  else done_ (t :: j_stack st) t.

(** PJson.cpp:267-281 *)
Definition process_string (st : pjson) (content : bytes) (s : jstate) : prog jstate :=
  if s_reading s || ty_eqb (j_type st) TArray
  then Ret (mkJs (s_name s) (val_string content EUTF8) true (s_named s) (s_reading s))
  else if s_named s then Throw
  else Ret (mkJs content (s_value s) (s_complete s) true (s_reading s)).

(** PJson.cpp:253-265 *)
Definition process_quote (fuel : nat) (st : pjson) (s : jstate) : prog (pjson * jstate) :=
  if ty_eqb (j_type st) TNull then Throw
  else
    Move 1 (
      let! (content, buf) := read_unescape fuel (if s_named s then j_vbuf st else j_nbuf st) in
      let st' := if s_named s then mkPjson (j_compact st) (j_stack st) (j_type st) (j_closed st) (j_nbuf st) buf
                 else mkPjson (j_compact st) (j_stack st) (j_type st) (j_closed st) buf (j_vbuf st) in
      let! s' := process_string st' content s in Ret (st', s')).

(** PJson.cpp:284-317; the second component is [out_move] *)
Definition process_char (x : fp_text) (fuel : nat) (s : jstate) : prog (jstate * bool) :=
  Deref 0 (fun c =>
    if is_literal c then
      let! (block, fp) := read_block_until fuel [TkChar 44; TkChar 32; TkChar 125; TkChar 93; TkNotify 46] in
      match str_to_type x block (if fp then TFP64 else TNull) with
      | None => Throw
      | Some v => Deref 0 (fun d => Ret (mkJs (s_name s) v true (s_named s) (s_reading s), negb ((d =? 125) || (d =? 93))))
      end
    else Ret (s, true)).

(** PJson.cpp:189-198 *)
Definition seek_item (fuel : nat) (st : pjson) (s : jstate) : prog (Z * bool) :=
  if negb (s_reading s) && negb (ty_eqb (j_type st) TArray)
  then move_until fuel [TkChar 34; TkChar 58; TkChar 123; TkChar 91; TkChar 125; TkChar 93; TkChar 47]
  else move_while fuel [TkChar 32; TkChar 44; TkChar 10; TkChar 9; TkChar 13].

(** PJson.cpp:200-219; the last component tells whether to move on *)
Definition process_item (x : fp_text) (fuel : nat) (st : pjson) (s : jstate) : prog (pjson * jstate * bool) :=
  Deref 0 (fun c =>
    if c =? 34 then let! (st', s') := process_quote fuel st s in Ret (st', s', true)
    else if c =? 58 then
      if s_reading s then Throw
      else Ret (st, mkJs (s_name s) (s_value s) (s_complete s) (s_named s) true, true)
    else if existsb (Z.eqb c) [123; 125; 91; 93] then let! (st', s') := process_bracket st c s in Ret (st', s', true)
    else if c =? 47 then let! _ := skip_comment fuel in Ret (st, s, true)
    else let! (s', move) := process_char x fuel s in Ret (st, s', move)).

(** PJson.cpp:184-226; [fuel] bounds the scanning loops, [n] the rounds *)
Fixpoint json_loop (x : fp_text) (fuel n : nat) (st : pjson) (s : jstate) : prog (pjson * event) :=
  match n with
  | O => OutOfFuel
  | S m =>
      let! _ := seek_item fuel st s in
      let! (st', s', move) := process_item x fuel st s in
      let next := if s_complete s' then Ret (st', (s_name s', s_value s')) else json_loop x fuel m st' s' in
      if move then Move 1 next else next
  end.
Definition json_read (x : fp_text) (fuel : nat) (st : pjson) : prog (pjson * event) := json_loop x fuel fuel st js_init.
