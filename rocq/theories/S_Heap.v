(** Specification of an allocator: a client holds blocks; no address belongs to two blocks of the client,
    every block is aligned as requested and lies inside memory obtained from the system, and the allocator never
    changes the contents of a block that the client holds. *)
From Coq Require Import ZArith List Bool.
From Verif Require Import Base M_Heap.
Import ListNotations.
Open Scope Z_scope.

(** what the client does *)
Inductive hop : Type :=
| HGet (sz align : Z)            (* get_mem *)
| HPut (k : nat)                 (* put_mem of the k-th block it holds *)
| HStore (k : nat) (bs : bytes)  (* writes into the k-th block it holds *)
| HClear.                        (* clear; the client holds nothing any more *)

(** block number, offset, size, requested alignment *)
Record hblock : Type := mkHb { hb_blk : nat; hb_off : Z; hb_size : Z; hb_align : Z }.

Definition remove_nth {A} (k : nat) (l : list A) : list A := firstn k l ++ skipn (S k) l.

Definition client_step (st : heap * list hblock) (op : hop) : heap * list hblock :=
  let (h, live) := st in
  match op with
  | HGet sz align => let '((b, o), h') := get_mem h sz align in (h', live ++ [mkHb b o sz align])
  | HPut k =>
      match nth_error live k with
      | Some x => (put_mem h (hb_blk x) (hb_off x) (hb_size x), remove_nth k live)
      | None => (h, live)
      end
  | HStore k bs =>
      match nth_error live k with
      | Some x =>
          if zlen bs <=? hb_size x
          then (mkHeap (h_cap h) (h_crr h) (h_links h) (h_used h) (h_free h) (h_ulinks h) (h_flinks h) (h_blocks h)
                       (mset (h_mem h) (hb_blk x) (hb_off x) bs), live)
          else (h, live)
      | None => (h, live)
      end
  | HClear => (clear h, [])
  end.
Definition client_run (ops : list hop) (st : heap * list hblock) := fold_left client_step ops st.

Definition op_ok (op : hop) : Prop :=
  match op with
  | HGet sz align => 0 <= sz < 2 ^ 32 /\ In align [1; 2; 4; 8; 16]
  | _ => True
  end.

(** the address (b, o) belongs to the block *)
Definition holds (x : hblock) (b : nat) (o : Z) : Prop := hb_blk x = b /\ hb_off x <= o < hb_off x + hb_size x.
Definition disjoint_blocks (live : list hblock) : Prop :=
  forall i j x y b o, nth_error live i = Some x -> nth_error live j = Some y ->
    holds x b o -> holds y b o -> i = j.
Definition placed_block (blocks : list Z) (x : hblock) : Prop :=
  hb_off x mod hb_align x = 0 /\
  exists size, nth_error blocks (hb_blk x) = Some size /\ 0 <= hb_off x /\ hb_off x + hb_size x <= size.
