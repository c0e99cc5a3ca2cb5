(** Model of Srl::String as a member of a class (include/Srl/String.h, include/Srl/String.hpp, Switch<String> in
    include/Srl/Resolve.hpp:243-259): a Srl::String does not own its characters, it holds the pointer that the Value had from
    which it was restored.  Definitions only.

    Simplifications.  Classes all of whose members are Srl::Strings with non-empty names, not optional.  Buffers that grow are
    taken to be moved (what std::vector::resize does when the capacity is used up), and the buffer of an In that reads a
    stream is taken to be unusable once its contents changed (In.cpp:55-92 moves or overwrites them).  Strings are shorter
    than 2^32 bytes (the size of a Value is a uint32_t, Blocks.h:41). *)
From Coq Require Import ZArith List Bool.
From Verif Require Import Base M_Types M_Conv M_TpTools M_Charset M_In S_Doc M_Env M_Event M_PSrl M_MsgPack M_Json M_Tree M_TreeIO M_Object M_ObjIO.
Import ListNotations.
Open Scope Z_scope.

(** the two kinds of sources of an In (In.h:17-31, In.cpp:8-23) *)
Inductive input : Type := IBlock (b : blk) | IStream (s : strm).
Definition block_input (src : bytes) : input := IBlock (set_block src).
Definition stream_input (src : bytes) : input := IStream (set_stream src).
Definition run_input {R} (p : prog R) (i : input) : res (R * input) :=
  match i with
  | IBlock b => let* (r, b') := run_block p b in Ok (r, IBlock b')
  | IStream s => let* (r, s') := run_stream p s in Ok (r, IStream s')
  end.
(** the items that [p] asks for are read with the parser as it is (Node.cpp:344, 388) *)
Definition read_with {R} (x : fp_text) (F : nat) (q : parser) (p : eprog R) : prog (parser * R) :=
  match q with
  | PsrlP st => let! (st', r) := ecomp psrl_read p st in Ret (PsrlP st', r)
  | MsgpP st => let! (st', r) := ecomp msgp_read p st in Ret (MsgpP st', r)
  | JsonP st => let! (st', r) := ecomp (json_read x F) p st in Ret (JsonP st', r)
  end.

(** where the characters are *)
Inductive place : Type :=
| PlSource (off : Z)              (* in the caller's memory *)
| PlInput (win : bytes) (off : nat)   (* in the buffer of the In, which held [win] *)
| PlBuffer (size : Z)             (* at the start of PJson::value_buffer, which had this size *)
| PlTree (bs : bytes)             (* in the memory of the tree, which keeps it *)
| PlGone.                         (* in a Value that does not exist any more *)
(** String.h:19-62 *)
Record sstring : Type := mkSs { ss_place : place; ss_len : Z; ss_enc : enc }.

(** Where a parser leaves the characters of a value that it has just read: PSrl.cpp:249-255 and PMsgPack.cpp:300-314 return the
    block of the input, PJson.cpp:253-265 with a name that was read before returns the value_buffer *)
Definition fresh_place (q : parser) (i : input) (v : value) : place :=
  match q, i with
  | JsonP st, _ => PlBuffer (zlen (j_vbuf st))
  | _, IBlock b => PlSource (zlen (b_done b) - zlen (v_data v))
  | _, IStream s => PlInput (s_win s) (s_pos s - length (v_data v))
  end.
(** Node.hpp:119-130 and Switch<String>::Paste (Resolve.hpp:253-258).  A value of a node whose items are all read stays in the
    node; one that was read earlier is taken out of the node into a local Value (Node.cpp:375-381), which holds up to eight
    bytes of data itself (Blocks.h:46-63, Environment.cpp:138).  [pred F]: as much fuel as [restore_prog] leaves for members *)
Definition paste_string (x : fp_text) (F : nat) (k : bytes) (q : parser) (i : input) (n : lnode)
  : res (parser * input * lnode * sstring) :=
  let* (r, i') := run_input (read_with x F q (field_value (pred F) (IdName k) n)) i in
  let '(q', (v, stored, n')) := r in
  if negb (ty_eqb (v_type v) TString) && negb (ty_eqb (v_type v) TBinary) then Err
  else
    let pl := if l_parsed n then PlTree (v_data v)
              else if stored then (if zlen (v_data v) <=? 8 then PlGone else PlTree (v_data v))
              else fresh_place q' i' v in
    Ok (q', i', n', mkSs pl (zlen (v_data v)) (v_enc v)).
(** the members one after the other (Context.hpp:61-86) *)
Fixpoint paste_strings (x : fp_text) (F : nat) (ks : list bytes) (q : parser) (i : input) (n : lnode)
  : res (parser * input * lnode * list sstring) :=
  match ks with
  | [] => Ok (q, i, n, [])
  | k :: ks' =>
      let* (q1, i1, n1, s) := paste_string x F k q i n in
      let* (q2, i2, n2, ss) := paste_strings x F ks' q1 i1 n1 in Ok (q2, i2, n2, s :: ss)
  end.
(** Tree::restore (Tree.cpp:30-50, 77-83) of an object whose class has Srl::Strings with the names [ks] as its members: parser,
    input and members afterwards *)
Definition restore_strings (x : fp_text) (F : nat) (ks : list bytes) (q : parser) (i : input) : res (parser * input * list sstring) :=
  let* (r, i1) := run_input (read_with x F (parser_clear q) (ERead (fun e => ERet e))) i in
  let '(q1, (_, v)) := r in
  if negb (is_scope (v_type v)) then Err
  else let* (q2, i2, _, ss) := paste_strings x F ks q1 i1 (mkL false (empty_node (v_type v))) in Ok (q2, i2, ss).
(** the members from a tree that was loaded (Node.hpp:165-175, 188-195): the values stay in the tree *)
Fixpoint members_of_tree (ks : list bytes) (n : node) : res (list sstring) :=
  match ks with
  | [] => Ok []
  | k :: ks' =>
      let* kv := value_named n (k, EUTF8) in
      let v := snd kv in
      if negb (ty_eqb (v_type v) TString) && negb (ty_eqb (v_type v) TBinary) then Err
      else let* ss := members_of_tree ks' n in Ok (mkSs (PlTree (v_data v)) (zlen (v_data v)) (v_enc v) :: ss)
  end.
(** Node::paste (Node.hpp:74-81) of such an object from a tree that was loaded *)
Definition strings_of_tree (ks : list bytes) (n : node) : res (list sstring) :=
  if negb (is_scope (n_type n)) then Err else members_of_tree ks n.

(** the bytes a Srl::String points to, when parser and input are [q] and [i] *)
(** String.h:42: data() *)
Definition bytes_at (q : parser) (i : input) (s : sstring) : res bytes :=
  let len := Z.to_nat (ss_len s) in
  match ss_place s, q, i with
  | PlSource off, _, IBlock b => Ok (firstn len (skipn (Z.to_nat off) (rev (b_done b) ++ b_rest b)))
  | PlInput win off, _, IStream st => if bytes_eqb win (s_win st) then Ok (firstn len (skipn off win)) else UB UbDangling
  | PlBuffer size, JsonP st, _ => if size =? zlen (j_vbuf st) then Ok (firstn len (j_vbuf st)) else UB UbDangling
  | PlTree bs, _, _ => Ok bs
  | _, _, _ => UB UbDangling
  end.
(** String::unwrap<char> (String.hpp:9-14, Tools.hpp:10-30) *)
Definition unwrap (q : parser) (i : input) (s : sstring) : res bytes :=
  if ss_len s <? 1 then Ok [] else let* bs := bytes_at q i s in unwrap_text EUTF8 (ss_enc s) bs.
