(** Which objects can be stored and restored, and what it means that two object graphs are the same. *)
From Coq Require Import ZArith List Bool.
From Verif Require Import Base M_Types M_TpTools S_Doc M_Tree M_Object S_Chars.
Import ListNotations.
Open Scope Z_scope.

(** objects without shared and weak pointers *)
Fixpoint plain (v : cv) : bool :=
  match v with
  | VNum _ | VStr _ | VNone => true
  | VList vs | VPoly _ vs => forallb plain vs
  | VMap l => forallb (fun q => plain (fst q) && plain (snd q)) l
  | VTab l => forallb (fun q => plain (snd q)) l
  | VSome x => plain x
  | VRef _ => false
  end.

(** the same object up to the identity of shared objects: [r a b] if the shared objects [a] and [b] correspond *)
Inductive same_object (r : nat -> nat -> Prop) : cv -> cv -> Prop :=
| so_num n : same_object r (VNum n) (VNum n)
| so_str s : same_object r (VStr s) (VStr s)
| so_none : same_object r VNone VNone
| so_list vs cs : Forall2 (same_object r) vs cs -> same_object r (VList vs) (VList cs)
| so_poly c vs cs : Forall2 (same_object r) vs cs -> same_object r (VPoly c vs) (VPoly c cs)
| so_map l m : Forall2 (same_object r) (map fst l) (map fst m) -> Forall2 (same_object r) (map snd l) (map snd m) -> same_object r (VMap l) (VMap m)
| so_tab l m : map fst l = map fst m -> Forall2 (same_object r) (map snd l) (map snd m) -> same_object r (VTab l) (VTab m)
| so_some x y : same_object r x y -> same_object r (VSome x) (VSome y)
| so_ref a b : r a b -> same_object r (VRef a) (VRef b).

(** two heaps with the same objects: the correspondence is one to one and the objects that correspond have the same type and
    the same content *)
Definition same_heap (r : nat -> nat -> Prop) (h g : heap_t) : Prop :=
  (forall a b b', r a b -> r a b' -> b = b') /\ (forall a a' b, r a b -> r a' b -> a = a') /\
  (forall a b, r a b -> exists e x y, nth_error h a = Some (e, x) /\ nth_error g b = Some (e, y) /\ same_object r x y).

(** what an object that is pasted into looks like: members, elements of arrays, pairs and tuples are there; character arrays
    are filled with zeros *)
Inductive shape (w : world) : ct -> cv -> Prop :=
| sh_any t v : match t with CCls _ | CArr _ _ | CPair _ _ | CTup _ | CChars _ _ => False | _ => True end -> shape w t v
| sh_cls c vs : Forall2 (fun f v => shape w (f_type f) v) (w_cls w c) vs -> shape w (CCls c) (VList vs)
| sh_tup c vs : Forall2 (fun f v => shape w (f_type f) v) (w_cls w c) vs -> shape w (CTup c) (VList vs)
| sh_arr n e vs : length vs = n -> Forall (shape w e) vs -> shape w (CArr n e) (VList vs)
| sh_pair a b x y : shape w a x -> shape w b y -> shape w (CPair a b) (VList [x; y])
| sh_chars e n : shape w (CChars e n) (VStr (repeat 0 (Z.to_nat (n * unit_size e)))).

(** ordered as in a std::set / std::map *)
Definition sorted_by (lt : cv -> cv -> bool) (ks : list cv) : Prop :=
  forall i j a b, (i < j)%nat -> nth_error ks i = Some a -> nth_error ks j = Some b -> lt a b = true /\ lt b a = false.

(** The objects that can be restored; [leaf t v]: [v] is a value of the type [t] of a number, string, character or block that
    the format can carry.  [lev] is a rank of the shared objects: an object refers to objects of smaller rank only. *)
Section Storable.
Variables (w : world) (hp : heap_t) (lev : nat -> nat) (leaf : ct -> cv -> Prop).
Inductive storable (n : nat) : ct -> cv -> Prop :=
| st_leaf t v : match t with CNum _ | CStr _ | CChar _ | CChars _ _ | CBits => True | _ => False end -> scoped t = false -> leaf t v -> storable n t v
| st_cls c vs : Forall2 (fun f v => storable n (f_type f) v) (w_cls w c) vs -> storable n (CCls c) (VList vs)
| st_tup c vs : Forall2 (fun f v => storable n (f_type f) v) (w_cls w c) vs -> storable n (CTup c) (VList vs)
| st_seq e vs : Forall (storable n e) vs -> storable n (CSeq e) (VList vs)
| st_set e vs : Forall (storable n e) vs -> forallb plain vs = true -> sorted_by (w_lt w) vs -> storable n (CSet e) (VList vs)
| st_arr e vs : Forall (storable n e) vs -> storable n (CArr (length vs) e) (VList vs)
| st_map k e l : Forall (storable n k) (map fst l) -> Forall (storable n e) (map snd l) -> forallb plain (map fst l) = true ->
    sorted_by (w_lt w) (map fst l) -> storable n (CMap k e) (VMap l)
| st_tab e l : Forall (storable n e) (map snd l) -> NoDup (map fst l) -> storable n (CTab e) (VTab l)
| st_pair a b x y : storable n a x -> storable n b y -> storable n (CPair a b) (VList [x; y])
| st_ptr e x : storable n e x -> x <> VNone -> storable n (CPtr e) (VSome x)
| st_uniq e x : storable n e x -> x <> VNone -> storable n (CUniq e) (VSome x)
| st_null e : scoped e = false -> storable n (CPtr e) VNone
| st_shared e x a : nth_error hp a = Some (e, x) -> (lev a < n)%nat -> storable n (CShared e) (VRef a)
| st_weak e x a : nth_error hp a = Some (e, x) -> (lev a < n)%nat -> storable n (CWeak e) (VRef a)
| st_poly u c vs : Forall2 (fun f v => storable n (f_type f) v) (w_cls w c) vs -> w_reg w u (w_id w c, EUTF8) = Ok (Some c) -> leaf (CStr EUTF8) (VStr (w_id w c)) ->
    storable n (CPoly u) (VPoly c vs).
(** the shared objects *)
Definition heap_ok : Prop := (forall a e x, nth_error hp a = Some (e, x) -> storable (lev a) e x) /\ zlen hp < two64.
End Storable.

(** the values of the C++ types that have no parts; what JSON does not give back is excepted: minus zero, and floats that are
    not numbers; of the character arrays the terminated ones of [char], with zeros behind the text *)
Definition cpp_value (json : bool) (t : ct) (v : cv) : Prop :=
  match t, v with
  | CNum TBool, VNum n => n = 0 \/ n = 1
  | CNum TFP32, VNum n => 0 <= n < 2 ^ 32 /\ (json = true -> n <> 2 ^ 31 /\ f32_isnan n = false)
  | CNum TFP64, VNum n => 0 <= n < 2 ^ 64 /\ (json = true -> n <> 2 ^ 63)
  | CNum t, VNum n => match t with TI8 | TUI8 | TI16 | TUI16 | TI32 | TUI32 | TI64 | TUI64 => int_min t <= n <= int_max t | _ => False end
  | CStr _, VStr s | CBits, VStr s => zlen s < 2 ^ 32
  | CChar e, VStr s => zlen s = unit_size e
  | CChars EUTF8 n, VStr mem => n < 2 ^ 32 /\ exists s, padded n s mem
  | _, _ => False
  end.
