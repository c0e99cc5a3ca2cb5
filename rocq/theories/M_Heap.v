(** Model of the allocator Lib::Heap (include/Srl/Heap.h, include/Srl/Heap.hpp, src/lib/Heap.cpp).  Definitions only.

    An address is a block number (the k-th [new uint8_t[]]) and an offset.  [operator new[]] returns memory
    aligned to 16 bytes, so the residue of an address modulo an alignment dividing 16 is that of the offset.
    Segments live in chain links; the model keeps all links in one list, a link is named by its index, and the
    four linked lists of [Chain] are lists of indices (Aux::SList, Heap.cpp:57-152, is an ordinary linked list;
    every link is in at most one SList<Segment> and one list of links at a time, so the lists do not interfere).
    Memory is not limited: new does not fail. *)
From Coq Require Import ZArith List Bool.
From Verif Require Import Base.
Import ListNotations.
Open Scope Z_scope.

(** contents of all memory; cells that were never written hold arbitrary values *)
(** Heap.h:58-70: what the segments point to *)
Definition memory := nat -> Z -> Z.
(** memcpy into memory *)
(** Out.hpp:36, 47 *)
Definition mset (m : memory) (b : nat) (o : Z) (bs : bytes) : memory :=
  fun b' o' => if Nat.eqb b' b && (o <=? o') && (o' <? o + zlen bs) then nth (Z.to_nat (o' - o)) bs 0 else m b' o'.
(** memset(.., 0, n) *)
(** Heap.cpp:14, 32 *)
Definition mzero (m : memory) (b : nat) (o n : Z) : memory :=
  fun b' o' => if Nat.eqb b' b && (o <=? o') && (o' <? o + n) then 0 else m b' o'.
(** n bytes from memory *)
(** Out.cpp:61 *)
Definition mget (m : memory) (b : nat) (o n : Z) : bytes :=
  map (fun i => m b (o + Z.of_nat i)) (seq 0 (Z.to_nat n)).

(** Heap.h:58-70 [Segment]; left and size are uint32_t *)
Record seg : Type := mkSeg { sg_blk : nat; sg_off : Z; sg_size : Z; sg_left : Z; sg_sub : bool }.
Definition no_seg : seg := mkSeg 0 0 0 0 false.
(** Heap.h:69 *)
Definition sg_pointer (s : seg) : Z := sg_off s + sg_size s - sg_left s.

(** Heap.h:73-88.  [h_links]: the segment of every link.  [h_blocks]: sizes of the blocks obtained from the system *)
Record heap : Type := mkHeap {
  h_cap : Z; h_crr : option nat; h_links : list seg;
  h_used : list nat; h_free : list nat;         (* used_segs, free_segs *)
  h_ulinks : list nat; h_flinks : list nat;     (* used_links, free_links *)
  h_blocks : list Z; h_mem : memory }.

Definition max_cap : Z := 262144.   (* Heap.h:73 *)
(** Heap.h:40, 75-76 *)
Definition heap_init (m : memory) : heap := mkHeap 256 None [] [] [] [] [] [] m.

Fixpoint set_nth {A} (i : nat) (x : A) (l : list A) : list A :=
  match l, i with
  | [], _ => []
  | _ :: l', O => x :: l'
  | y :: l', S i' => y :: set_nth i' x l'
  end.
Definition seg_of (h : heap) (i : nat) : seg := nth i (h_links h) no_seg.

Definition set_link (h : heap) (i : nat) (s : seg) : heap :=
  mkHeap (h_cap h) (h_crr h) (set_nth i s (h_links h)) (h_used h) (h_free h) (h_ulinks h) (h_flinks h)
         (h_blocks h) (h_mem h).

(** Heap.cpp:173-184 [get_link]; find_rm(Any()) takes the first free link *)
Definition get_link (h : heap) : nat * heap :=
  match h_flinks h with
  | i :: fl => (i, mkHeap (h_cap h) (h_crr h) (h_links h) (h_used h) (h_free h) (h_ulinks h ++ [i]) fl
                          (h_blocks h) (h_mem h))
  | [] => let i := length (h_links h) in
          (i, mkHeap (h_cap h) (h_crr h) (h_links h ++ [no_seg]) (h_used h) (h_free h) (h_ulinks h ++ [i]) []
                     (h_blocks h) (h_mem h))
  end.

(** Heap.cpp:154-161 [put_mem] with Heap.cpp:12-19 [set_subsegment] *)
Definition put_mem (h : heap) (b : nat) (o sz : Z) : heap :=
  let (i, h1) := get_link h in
  let h2 := set_link h1 i (mkSeg b o (u32 sz) (u32 sz) true) in
  mkHeap (h_cap h2) (h_crr h2) (h_links h2) (h_used h2) (h_free h2 ++ [i]) (h_ulinks h2) (h_flinks h2)
         (h_blocks h2) (mzero (h_mem h2) b o sz).

(** Heap.cpp:41-54 [Size] *)
Definition size_pred (size align : Z) (s : seg) : bool :=
  (size + align - 1 <=? sg_size s) || ((size <=? sg_size s) && (sg_off s mod align =? 0)).

(** Heap.cpp:135-152 [find_rm] *)
Fixpoint find_rm (p : nat -> bool) (l : list nat) : option (nat * list nat) :=
  match l with
  | [] => None
  | i :: l' =>
      if p i then Some (i, l')
      else match find_rm p l' with Some (j, r) => Some (j, i :: r) | None => None end
  end.

(** Heap.cpp:200-204, the loop; 32 rounds are more than it can take (Max_Cap = 2^18) *)
Fixpoint grow_cap (fuel : nat) (cap n : Z) : Z :=
  match fuel with
  | O => cap
  | S f => if (cap <? n) && (cap <? max_cap) then grow_cap f (cap * 2) n else cap
  end.

(** Heap.cpp:186-215 [alloc] with Heap.cpp:21-27 [set_segment] and 163-171 [find_free_seg] *)
Definition alloc (h : heap) (n align : Z) : nat * heap :=
  let h :=
    match h_crr h with
    | Some c => let s := seg_of h c in
                if 0 <? sg_left s then put_mem h (sg_blk s) (sg_pointer s) (sg_left s) else h
    | None => h
    end in
  match find_rm (fun i => size_pred n align (seg_of h i)) (h_free h) with
  | Some (i, free) =>
      (i, mkHeap (h_cap h) (h_crr h) (h_links h) (h_used h ++ [i]) free (h_ulinks h) (h_flinks h)
                 (h_blocks h) (h_mem h))
  | None =>
      let cap := if h_cap h <? 1 then 1 else if h_cap h * 2 <? max_cap then h_cap h * 2 else max_cap in
      let cap := if (n <? max_cap) && (cap <? n) then grow_cap 32 cap n else cap in
      let alloc_sz := if n <? cap then cap else n in
      let (i, h1) := get_link h in
      let h2 := set_link h1 i (mkSeg (length (h_blocks h)) 0 (u32 alloc_sz) (u32 alloc_sz) false) in
      (i, mkHeap cap (h_crr h2) (h_links h2) (h_used h2 ++ [i]) (h_free h2) (h_ulinks h2) (h_flinks h2)
                 (h_blocks h2 ++ [alloc_sz]) (h_mem h2))
  end.

Definition set_crr (h : heap) (c : nat) : heap :=
  mkHeap (h_cap h) (Some c) (h_links h) (h_used h) (h_free h) (h_ulinks h) (h_flinks h) (h_blocks h) (h_mem h).

(** Heap.hpp:8-26 [get_mem]: [sz] = n_elems * sizeof(T), [align] = alignof(T); with NDEBUG [dec] (Heap.h:68)
    subtracts without a check *)
Definition get_mem (h : heap) (sz align : Z) : (nat * Z) * heap :=
  let enough := match h_crr h with
                | Some c => negb (sg_left (seg_of h c) <? sz + align - 1)
                | None => false
                end in
  let '(c, h) :=
    if enough then (match h_crr h with Some c => c | None => O end, h)
    else let (c, h1) := alloc h sz align in (c, set_crr h1 c) in
  let s := seg_of h c in
  let mem := sg_pointer s in
  let rem := mem mod align in
  let offset := if rem =? 0 then 0 else align - rem in
  ((sg_blk s, mem + offset),
   set_link h c (mkSeg (sg_blk s) (sg_off s) (sg_size s) (u32 (sg_left s - (sz + offset))) (sg_sub s))).

(** Heap.cpp:79-110 [prepend] with the predicate Size(size, 1) *)
Fixpoint insert_free (links : list seg) (size : Z) (i : nat) (l : list nat) : list nat :=
  match l with
  | [] => [i]
  | j :: l' => if size_pred size 1 (nth j links no_seg) then i :: l else j :: insert_free links size i l'
  end.

(** Heap.cpp:217-242 [clear], the loop over used_links, with Heap.cpp:29-34 [reset_segment] *)
Fixpoint clear_loop (todo : list nat) (h : heap) : heap :=
  match todo with
  | [] => h
  | i :: todo' =>
      let s := seg_of h i in
      if sg_sub s then
        clear_loop todo' (mkHeap (h_cap h) None (h_links h) [] (h_free h) (h_ulinks h) (h_flinks h ++ [i])
                                 (h_blocks h) (h_mem h))
      else
        let h1 := set_link h i (mkSeg (sg_blk s) (sg_off s) (sg_size s) (sg_size s) false) in
        clear_loop todo' (mkHeap (h_cap h1) None (h_links h1) [] (insert_free (h_links h1) (sg_size s) i (h_free h1))
                                 (h_ulinks h1 ++ [i]) (h_flinks h1) (h_blocks h1)
                                 (mzero (h_mem h1) (sg_blk s) (sg_off s) (sg_size s)))
  end.
Definition clear (h : heap) : heap :=
  clear_loop (h_ulinks h)
    (mkHeap (h_cap h) None (h_links h) [] [] [] (h_flinks h) (h_blocks h) (h_mem h)).
