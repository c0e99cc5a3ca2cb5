(** Model of the life of Lib::Heap objects (include/Srl/Heap.h:40-46, src/lib/Heap.cpp:244-287).  Definitions only.

    The numbers of links and blocks inside a [heap] (M_Heap) are relative to the memory this object has obtained.
    A [space] names that memory: it stays with the links when they are moved to another object, and an object whose
    chain is emptied starts a new one.  [op_delete] of links and blocks is recorded in two logs. *)
From Coq Require Import ZArith List Bool.
From Verif Require Import Base M_Heap S_Heap.
Import ListNotations.
Open Scope Z_scope.

(** one object of class Heap: the name of its memory, its members, and the blocks that were obtained from it and not
    given back (the client's knowledge; S_Heap) *)
(** Heap.h:34-57 *)
Record hobj : Type := mkHo { ho_space : nat; ho_heap : heap; ho_held : list hblock }.

(** [l_objs]: the objects in order of construction, [None] once destroyed.  [l_next]: spaces used so far.
    [l_blocks], [l_links]: every block (new uint8_t[]) and link (new ChainLink) ever obtained.
    [l_fblocks], [l_flinks]: every delete of one, in order *)
(** Heap.cpp:244-287 *)
Record life : Type := mkLife {
  l_objs : list (option hobj); l_next : nat;
  l_blocks : list (nat * nat); l_links : list (nat * nat);
  l_fblocks : list (nat * nat); l_flinks : list (nat * nat) }.
(** no object was constructed, Heap.h:40 *)
Definition life_init : life := mkLife [] 0 [] [] [] [].

(** Heap.cpp:249-265: the addresses deleted *)
Definition tag (s : nat) (l : list nat) : list (nat * nat) := map (fun i => (s, i)) l.

(** Heap.cpp:249-265 [destroy], the loops: the links deleted *)
Definition destroyed_links (h : heap) : list nat := h_ulinks h ++ h_flinks h.
(** Heap.cpp:281-287 [~Segment]: the blocks deleted with them.  A link is given its segment as soon as it is made, so
    [data] is never null *)
Definition destroyed_blocks (h : heap) : list nat :=
  map (fun i => sg_blk (seg_of h i)) (filter (fun i => negb (sg_sub (seg_of h i))) (destroyed_links h)).
(** Heap.cpp:263-264, 275-276: an object without a chain *)
Definition emptied (h : heap) : heap := mkHeap (h_cap h) None [] [] [] [] [] [] (h_mem h).

(** what programs do with Heap objects *)
(** Heap.h:40-56 *)
Inductive lop : Type :=
| LNew (m : memory)            (* Heap() *)
| LUse (i : nat) (op : hop)    (* get_mem, put_mem of a block obtained from it, clear, or a store into such a block *)
| LMove (i j : nat)            (* object i = std::move(object j) *)
| LMoveNew (m : memory) (j : nat)   (* Heap(std::move(object j)) *)
| LCopy (j : nat)              (* Heap(object j) *)
| LEnd (i : nat).              (* ~Heap *)

(** Heap.h:34 *)
Definition obj (st : life) (i : nat) : option hobj := nth i (l_objs st) None.
(** Heap.h:34 *)
Definition set_obj (st : life) (i : nat) (x : option hobj) : life :=
  mkLife (set_nth i x (l_objs st)) (l_next st) (l_blocks st) (l_links st) (l_fblocks st) (l_flinks st).
(** delete of everything the object has *)
(** Heap.cpp:249-265 *)
Definition release (st : life) (o : hobj) : life :=
  mkLife (l_objs st) (l_next st) (l_blocks st) (l_links st)
         (l_fblocks st ++ tag (ho_space o) (destroyed_blocks (ho_heap o)))
         (l_flinks st ++ tag (ho_space o) (destroyed_links (ho_heap o))).
(** the next unused space *)
(** Heap.h:40: the constructor *)
Definition new_space (st : life) : nat * life :=
  (l_next st, mkLife (l_objs st) (S (l_next st)) (l_blocks st) (l_links st) (l_fblocks st) (l_flinks st)).
(** Heap.h:40 *)
Definition add_obj (st : life) (o : hobj) : life :=
  mkLife (l_objs st ++ [Some o]) (l_next st) (l_blocks st) (l_links st) (l_fblocks st) (l_flinks st).

(** Heap.h:41 *)
Definition construct (st : life) (m : memory) : life :=
  let (s, st) := new_space st in add_obj st (mkHo s (heap_init m) []).

(** Heap.hpp:8-26, Heap.cpp:154-161, 217-242 by way of [client_step]; the blocks and links made on the way *)
Definition use (st : life) (i : nat) (o : hobj) (op : hop) : life :=
  let (h, held) := client_step (ho_heap o, ho_held o) op in
  let st := set_obj st i (Some (mkHo (ho_space o) h held)) in
  mkLife (l_objs st) (l_next st)
         (l_blocks st ++ tag (ho_space o) (seq (length (h_blocks (ho_heap o)))
                                               (length (h_blocks h) - length (h_blocks (ho_heap o)))))
         (l_links st ++ tag (ho_space o) (seq (length (h_links (ho_heap o)))
                                              (length (h_links h) - length (h_links (ho_heap o)))))
         (l_fblocks st) (l_flinks st).

(** Heap.cpp:267-279 [operator=(Heap&&)]: 269; 271-273; 275-276.  When both are the same object line 269 has emptied
    the source too *)
Definition move_assign (st : life) (i j : nat) : life :=
  match obj st i with
  | None => st
  | Some x =>
      let st := release st x in
      let (s, st) := new_space st in
      let st := set_obj st i (Some (mkHo s (emptied (ho_heap x)) [])) in
      match obj st j with
      | None => st
      | Some m =>
          let st := set_obj st i (Some m) in
          let (s, st) := new_space st in
          set_obj st j (Some (mkHo s (emptied (ho_heap m)) []))
      end
  end.

Definition life_step (st : life) (op : lop) : life :=
  match op with
  | LNew m => construct st m
  | LUse i u => match obj st i with Some o => use st i o u | None => st end
  | LMove i j => match obj st j with Some _ => move_assign st i j | None => st end
  | LMoveNew m j =>                                                          (* Heap.h:44 *)
      match obj st j with
      | Some _ => move_assign (construct st m) (length (l_objs st)) j
      | None => st
      end
  | LCopy j => match obj st j with Some o => add_obj st o | None => st end   (* Heap.h:42, all members *)
  | LEnd i => match obj st i with Some o => set_obj (release st o) i None | None => st end   (* 244-247 *)
  end.
Definition life_run (ops : list lop) (st : life) : life := fold_left life_step ops st.
