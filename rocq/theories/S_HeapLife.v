(** Specification of the life of allocators: an account of everything obtained from the system. *)
From Coq Require Import ZArith List Bool Permutation.
From Verif Require Import Base M_Heap S_Heap M_HeapLife.
Import ListNotations.
Open Scope Z_scope.

(** what the objects that exist still have to delete: the blocks and the links they obtained or took over *)
Definition owned_blocks (x : option hobj) : list (nat * nat) :=
  match x with Some o => tag (ho_space o) (seq 0 (length (h_blocks (ho_heap o)))) | None => [] end.
Definition owned_links (x : option hobj) : list (nat * nat) :=
  match x with Some o => tag (ho_space o) (seq 0 (length (h_links (ho_heap o)))) | None => [] end.

(** everything obtained was obtained once, and has either been deleted, once, or belongs to one object that exists *)
Definition accounted (st : life) : Prop :=
  NoDup (l_blocks st) /\ Permutation (l_blocks st) (l_fblocks st ++ concat (map owned_blocks (l_objs st))) /\
  NoDup (l_links st) /\ Permutation (l_links st) (l_flinks st ++ concat (map owned_links (l_objs st))).

(** a program that does not copy heaps and asks for sizes and alignments that exist *)
Definition uncopied (op : lop) : Prop :=
  match op with LCopy _ => False | LUse _ u => op_ok u | _ => True end.

(** the address [o] of block [b] of memory [s] belongs to a block that was obtained from object [i] *)
Definition held_at (st : life) (i k : nat) (s b : nat) (o : Z) : Prop :=
  exists x y, obj st i = Some x /\ nth_error (ho_held x) k = Some y /\ ho_space x = s /\ holds y b o.

(** memory that was obtained and not deleted *)
Definition exists_at (st : life) (s b : nat) : Prop := In (s, b) (l_blocks st) /\ ~ In (s, b) (l_fblocks st).
