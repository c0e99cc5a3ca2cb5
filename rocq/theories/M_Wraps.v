(** Srl::VecWrap objects that are kept, used several times and copied (include/Srl/BitWrap.h:21-52).  Proof-free. *)
From Coq Require Import ZArith List Bool.
From Verif Require Import Base M_Types M_Conv M_Bits.
Import ListNotations.
Open Scope Z_scope.

(** A VecWrap, BitWrap.h:36-52: whether it exists, its bitwrap.data (which allocation of the vector it points to, whether it is null, the
    size) and the VecWrap that the function captured ([this], 43-48); the pointer to the vector is left out, there is one vector *)
Record wrap : Type := mkWrap { k_live : bool; k_gen : nat; k_null : bool; k_size : Z; k_this : nat }.
(** BitWrap.h:50: the vector, how often it has got new memory, and the wraps in the order they were made *)
Record wstate : Type := mkWs { g_vec : vec; g_gen : nat; g_wraps : list wrap }.
(** What a program does, BitWrap.h:40-52: make a wrap, copy or move wrap [i] (implicit constructors; the captured pointer is copied, and
    BitWrap::alloc is const and so also copied when moved), destroy it, change the vector ([moved]: also if the memory would suffice), restore and store with wrap [i] *)
Inductive wop : Type := WNew | WCopy (i : nat) | WEnd (i : nat) | WSet (bs : bytes) (moved : bool) | WPaste (i : nat) (v : value) | WInsert (i : nat).

(** BitWrap.h:41, 46: [{ vec->data(), size }] *)
Definition points (s : wstate) (size : Z) (this : nat) : wrap := mkWrap true (g_gen s) (x_mem (g_vec s) =? 0) size this.
(** BitWrap.h:41: the wrap [i] replaced *)
Definition put_wrap (i : nat) (k : wrap) (l : list wrap) : list wrap := firstn i l ++ k :: skipn (S i) l.
(** BitWrap.h:36-52: wrap [i], if it exists *)
Definition live_wrap (s : wstate) (i : nat) : option wrap :=
  match nth_error (g_wraps s) i with Some k => if k_live k then Some k else None | None => None end.
(** Resolve.hpp:842-852 with what the pointer points to: memory that was released, or the elements of the vector *)
Definition wrap_insert (s : wstate) (k : wrap) : res value :=
  if k_size k =? 0 then Ok (val_block [] TBinary)
  else if k_null k then Err
  else if negb (Nat.eqb (k_gen k) (g_gen s)) then UB UbDangling
  else if zlen (x_data (g_vec s)) <? k_size k then UB UbOob
  else Ok (val_block (firstn (Z.to_nat (k_size k)) (x_data (g_vec s))) TBinary).
(** Resolve.hpp:894-898, 854-883 and the function in BitWrap.h:43-48: [k] is used, but [this] of the function is resized and pointed to the new memory *)
Definition wrap_paste (grow : Z -> Z -> Z) (u : Z) (s : wstate) (k : wrap) (v : value) : wstate * res unit :=
  if negb (bits_type v) then (s, Err)
  else
    match live_wrap s (k_this k) with
    | None => (s, UB UbDangling)
    | Some j =>
        let y := vec_resize grow u (Z.of_nat (bits_size v) / u) (g_vec s) in
        let s1 := mkWs y (if x_mem (g_vec s) <? Z.of_nat (bits_size v) / u * u then S (g_gen s) else g_gen s) (g_wraps s) in
        let ws := put_wrap (k_this k) (points s1 (Z.of_nat (bits_size v)) (k_this j)) (g_wraps s) in
        let (x, r) := vecwrap_paste grow u (g_vec s) v in (mkWs x (g_gen s1) ws, r)
    end.
(** one operation, BitWrap.h:40-52; using a wrap that does not exist is undefined *)
Definition wstep (grow : Z -> Z -> Z) (u : Z) (s : wstate) (o : wop) : wstate * res (option value) :=
  match o with
  | WNew => (mkWs (g_vec s) (g_gen s) (g_wraps s ++ [points s (zlen (x_data (g_vec s))) (length (g_wraps s))]), Ok None)
  | WCopy i => match live_wrap s i with None => (s, UB UbDangling) | Some k => (mkWs (g_vec s) (g_gen s) (g_wraps s ++ [k]), Ok None) end
  | WEnd i => match live_wrap s i with
              | None => (s, UB UbDangling)
              | Some k => (mkWs (g_vec s) (g_gen s) (put_wrap i (mkWrap false (k_gen k) (k_null k) (k_size k) (k_this k)) (g_wraps s)), Ok None)
              end
  | WSet bs moved =>
      let new := moved || (x_mem (g_vec s) <? zlen bs) in
      (mkWs (mkVec bs (if x_mem (g_vec s) <? zlen bs then grow (x_mem (g_vec s)) (zlen bs) else x_mem (g_vec s))) (if new then S (g_gen s) else g_gen s) (g_wraps s), Ok None)
  | WPaste i v => match live_wrap s i with
                  | None => (s, UB UbDangling)
                  | Some k => let (s', r) := wrap_paste grow u s k v in (s', let* _ := r in Ok None)
                  end
  | WInsert i => match live_wrap s i with None => (s, UB UbDangling) | Some k => (s, let* v := wrap_insert s k in Ok (Some v)) end
  end.
(** one after the other, BitWrap.h:40-52 *)
Fixpoint wrun (grow : Z -> Z -> Z) (u : Z) (s : wstate) (os : list wop) : wstate * list (res (option value)) :=
  match os with
  | [] => (s, [])
  | o :: os' => let (s1, r) := wstep grow u s o in let (s2, rs) := wrun grow u s1 os' in (s2, r :: rs)
  end.
