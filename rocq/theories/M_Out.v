(** Model of Lib::Out (include/Srl/Out.h, include/Srl/Out.hpp, src/lib/Out.cpp).  Definitions only.

    The operations a parser performs are the [oop]s of M_OutOps.  An std::ostream is a byte array with a put
    position; writing at the end extends it; it is seekable and does not fail. *)
From Coq Require Import ZArith List Bool.
From Verif Require Import Base M_OutOps M_Heap.
Import ListNotations.
Open Scope Z_scope.

(** Out.h:43-56 [Ticket]: address, size, pos, seg_id *)
Record ticket : Type := mkTicket { tk_blk : nat; tk_off : Z; tk_size : nat; tk_pos : Z; tk_seg : Z }.

(** Out.h:61-74.  [o_start]: mem_start (None = null pointer), crr_mem = mem_start + (cap - left);
    [o_file], [o_put]: contents and put position of the stream; [o_tickets]: the tickets handed out, in order. *)
Record outst : Type := mkOut {
  o_heap : heap; o_total : Z; o_left : Z; o_cap : Z; o_flushed : Z; o_start : option (nat * Z);
  o_streaming : bool; o_file : bytes; o_put : nat; o_tickets : list ticket }.

(** Out.cpp:8-16 [set] on memory, on a stream whose contents are [file] with the put position at the end *)
Definition out_set_buffer (h : heap) : outst := mkOut (clear h) 0 0 0 0 None false [] 0 [].
Definition out_set_stream (h : heap) (file : bytes) : outst := mkOut (clear h) 0 0 0 0 None true file (length file) [].

(** stream.write at the put position *)
(** Out.cpp:37-48 *)
Definition stream_write (file : bytes) (put : nat) (bs : bytes) : bytes := firstn put file ++ bs ++ skipn (put + length bs) file.

(** Out.cpp:37-48 [write_to_stream] *)
Definition write_to_stream (o : outst) : outst :=
  match o_start o with
  | None => o
  | Some (b, p) =>
      let bs := mget (h_mem (o_heap o)) b p (o_cap o - o_left o) in
      mkOut (o_heap o) (o_total o) (o_cap o) (o_cap o) (o_flushed o + 1) (o_start o) (o_streaming o)
            (stream_write (o_file o) (o_put o) bs) (o_put o + length bs) (o_tickets o)
  end.

Definition stream_buffer_size : Z := 1024.
(** Out.cpp:18-24 [inc_cap] *)
Definition inc_cap (o : outst) (n : Z) : outst :=
  let cap := if stream_buffer_size <? n then n else stream_buffer_size in
  let (p, h) := get_mem (o_heap o) cap 1 in
  mkOut h (o_total o) cap cap (o_flushed o) (Some p) (o_streaming o) (o_file o) (o_put o) (o_tickets o).

(** Out.hpp:9-29 [alloc].  crr_mem is null only before the first inc_cap, and then n = 0: the address is not used *)
Definition out_alloc (o : outst) (n : Z) : (nat * Z) * outst :=
  let o := mkOut (o_heap o) (o_total o + n) (o_left o) (o_cap o) (o_flushed o) (o_start o) (o_streaming o)
                 (o_file o) (o_put o) (o_tickets o) in
  if negb (o_streaming o) then
    let (p, h) := get_mem (o_heap o) n 1 in
    (p, mkOut h (o_total o) (o_left o) (o_cap o) (o_flushed o) (o_start o) (o_streaming o) (o_file o) (o_put o) (o_tickets o))
  else
    let o := if o_left o <? n then write_to_stream o else o in
    let o := if o_cap o <? n then inc_cap o n else o in
    let '(b, p) := match o_start o with Some s => s | None => (O, 0) end in
    ((b, p + (o_cap o - o_left o)),
     mkOut (o_heap o) (o_total o) (o_left o - n) (o_cap o) (o_flushed o) (o_start o) (o_streaming o) (o_file o) (o_put o)
           (o_tickets o)).

Definition with_mem (o : outst) (m : memory) : outst :=
  let h := o_heap o in
  mkOut (mkHeap (h_cap h) (h_crr h) (h_links h) (h_used h) (h_free h) (h_ulinks h) (h_flinks h) (h_blocks h) m)
        (o_total o) (o_left o) (o_cap o) (o_flushed o) (o_start o) (o_streaming o) (o_file o) (o_put o) (o_tickets o).

(** Out.hpp:31-112: the writing operations; [OPatch] of an unknown ticket or outside it has no meaning (the
    assertion of Out.hpp:44): UbOob *)
Definition out_op (o : outst) (op : oop) : res outst :=
  match op with
  | OWrite bs =>
      let '((b, p), o) := out_alloc o (zlen bs) in
      Ok (with_mem o (mset (h_mem (o_heap o)) b p bs))
  | OReserve n =>
      let pos := o_total o in
      let '((b, p), o) := out_alloc o (Z.of_nat n) in
      let o := with_mem o (mset (h_mem (o_heap o)) b p (repeat 0 n)) in
      Ok (mkOut (o_heap o) (o_total o) (o_left o) (o_cap o) (o_flushed o) (o_start o) (o_streaming o) (o_file o) (o_put o)
                (o_tickets o ++ [mkTicket b p n pos (o_flushed o)]))
  | OPatch k off bs =>
      match nth_error (o_tickets o) k with
      | None => UB UbOob
      | Some t =>
          if Nat.ltb (tk_size t) (off + length bs) then UB UbOob
          else if negb (o_streaming o) || (tk_seg t =? o_flushed o) then
            Ok (with_mem o (mset (h_mem (o_heap o)) (tk_blk t) (tk_off t + Z.of_nat off) bs))
          else
            (* seekp(ticket.pos + offset); write; seekp back, Out.hpp:49-56 *)
            Ok (mkOut (o_heap o) (o_total o) (o_left o) (o_cap o) (o_flushed o) (o_start o) (o_streaming o)
                      (stream_write (o_file o) (Z.to_nat (tk_pos t) + off) bs) (o_put o) (o_tickets o))
      end
  end.

Fixpoint out_ops (o : outst) (ops : list oop) : res outst :=
  match ops with
  | [] => Ok o
  | op :: r => let* o' := out_op o op in out_ops o' r
  end.

(** Out.cpp:50-65 [write_to_buffer]: the vector is resized to sz_total and the filled part of every used segment
    copied to [pos], an [unsigned int] *)
Fixpoint copy_segs (h : heap) (segs : list nat) (pos : Z) (buf : bytes) : bytes :=
  match segs with
  | [] => buf
  | i :: r =>
      let s := seg_of h i in
      let fill := sg_size s - sg_left s in
      copy_segs h r (u32 (pos + fill)) (stream_write buf (Z.to_nat pos) (mget (h_mem h) (sg_blk s) (sg_off s) fill))
  end.
Definition write_to_buffer (o : outst) : bytes :=
  copy_segs (o_heap o) (h_used (o_heap o)) 0 (repeat 0 (Z.to_nat (o_total o))).

(** One document: [set] (Environment.cpp:161), the operations, [flush] (Tree.cpp:68, Tree.hpp:68, Node.hpp:199;
    Out.cpp:26-35).  The Out object, with its heap, is used again for the next document. *)
Definition save_buffer (h : heap) (ops : list oop) : res (bytes * heap) :=
  let* o := out_ops (out_set_buffer h) ops in Ok (write_to_buffer o, o_heap o).
Definition save_stream (h : heap) (file : bytes) (ops : list oop) : res (bytes * heap) :=
  let* o := out_ops (out_set_stream h file) ops in
  let o := write_to_stream o in Ok (o_file o, o_heap o).

(** Documents saved one after the other with the same Out object (one Tree, Tree.cpp:47-69) *)
Inductive job : Type := ToMemory (ops : list oop) | ToStream (file : bytes) (ops : list oop).
Definition run_job (h : heap) (j : job) : res (bytes * heap) :=
  match j with ToMemory ops => save_buffer h ops | ToStream file ops => save_stream h file ops end.
Fixpoint run_jobs (h : heap) (js : list job) : res (list bytes * heap) :=
  match js with
  | [] => Ok ([], h)
  | j :: r => let* (b, h1) := run_job h j in let* (bs, h2) := run_jobs h1 r in Ok (b :: bs, h2)
  end.
