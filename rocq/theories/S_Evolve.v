(** Programs whose classes have changed: what an object stored by the old program is for the new one. *)
From Coq Require Import ZArith List Bool.
From Verif Require Import Base M_Types M_TpTools S_Doc M_Tree M_Object S_Object S_ObjStore.
Import ListNotations.
Open Scope Z_scope.

Inductive all3 {A B C} (P : A -> B -> C -> Prop) : list A -> list B -> list C -> Prop :=
| all3_nil : all3 P [] [] []
| all3_cons a b c l m n : P a b c -> all3 P l m n -> all3 P (a :: l) (b :: m) (c :: n).

(** types without parts; integers; keys of sets and maps *)
Definition leaf_type (t : ct) : Prop := match t with CNum _ | CStr _ | CChar _ | CChars _ _ | CBits => True | _ => False end.
Definition integer (t : ty) : Prop := match t with TI8 | TUI8 | TI16 | TUI16 | TI32 | TUI32 | TI64 | TUI64 => True | _ => False end.
Definition names (fs : list field) : list bytes := map f_name fs.

(** [w1]: the classes of the program that stores, [w2]: those of the program that restores, [R c1 c2]: the class [c1] of the
    one has become the class [c2] of the other *)
Section Evolve.
Variables (w1 w2 : world) (R : nat -> nat -> Prop).

(** The types of members: integers may become wider; the keys of sets and maps, the sizes of arrays and the kinds of
    containers and pointers stay the same; there are no shared pointers. *)
Inductive becomes : ct -> ct -> Prop :=
| bc_leaf t : leaf_type t -> becomes t t
| bc_int a b : integer a -> integer b -> int_min b <= int_min a -> int_max a <= int_max b -> becomes (CNum a) (CNum b)
| bc_cls c1 c2 : R c1 c2 -> becomes (CCls c1) (CCls c2)
| bc_pos c1 c2 : unnamed_class (w_cls w1 c1) -> unnamed_class (w_cls w2 c2) -> Forall2 (fun f g => becomes (f_type f) (f_type g)) (w_cls w1 c1) (w_cls w2 c2) ->
    becomes (CCls c1) (CCls c2)
| bc_tup c1 c2 : Forall2 (fun f g => becomes (f_type f) (f_type g)) (w_cls w1 c1) (w_cls w2 c2) -> becomes (CTup c1) (CTup c2)
| bc_seq a b : becomes a b -> becomes (CSeq a) (CSeq b)
| bc_set a : leaf_type a -> becomes (CSet a) (CSet a)
| bc_map k a b : leaf_type k -> becomes a b -> becomes (CMap k a) (CMap k b)
| bc_tab a b : becomes a b -> becomes (CTab a) (CTab b)
| bc_arr n a b : becomes a b -> becomes (CArr n a) (CArr n b)
| bc_pair a b a' b' : becomes a a' -> becomes b b' -> becomes (CPair a b) (CPair a' b')
| bc_ptr a b : becomes a b -> becomes (CPtr a) (CPtr b)
| bc_uniq a b : becomes a b -> becomes (CUniq a) (CUniq b)
| bc_poly u1 u2 : (forall c1, w_reg w1 u1 (w_id w1 c1, EUTF8) = Ok (Some c1) -> exists c2, w_reg w2 u2 (w_id w1 c1, EUTF8) = Ok (Some c2) /\ R c1 c2) ->
    becomes (CPoly u1) (CPoly u2).

(** The members of the new class, in any order: members of the old one, or new ones that are optional.  Any member of the
    old class may be missing. *)
Definition compatible (c1 c2 : nat) : Prop :=
  named_class (w_cls w1 c1) /\ named_class (w_cls w2 c2) /\
  forall g, In g (w_cls w2 c2) ->
    (exists f, In f (w_cls w1 c1) /\ f_name f = f_name g /\ becomes (f_type f) (f_type g)) \/ (f_opt g = true /\ ~ In (f_name g) (names (w_cls w1 c1))).
(** the new class has a new member, or no member that is a scope has been removed from the end of the old one *)
Definition tail_kept (c1 c2 : nat) : Prop :=
  (exists g, In g (w_cls w2 c2) /\ ~ In (f_name g) (names (w_cls w1 c1))) \/
  forall pre f post, w_cls w1 c1 = pre ++ f :: post -> scoped (f_type f) = true -> exists f', In f' (f :: post) /\ In (f_name f') (names (w_cls w2 c2)).

(** [direct]: restoring from an input without a tree in between *)
Definition evolution (direct : bool) : Prop :=
  (forall c1 c2, R c1 c2 -> compatible c1 c2 /\ (direct = true -> tail_kept c1 c2)) /\ (forall a b, w_lt w2 a b = w_lt w1 a b) /\ w_fp w2 = w_fp w1.
(** the root: nothing is asked of the end of the class *)
Definition becomes_root (t1 t2 : ct) : Prop := becomes t1 t2 \/ exists c1 c2, t1 = CCls c1 /\ t2 = CCls c2 /\ compatible c1 c2.

(** [turns t1 t2 v old c]: what the object [v] of the type [t1] is as an object of type [t2] that was [old] before: what the
    classes have in common is as in [v], what is new as in [old] *)
Inductive turns : ct -> ct -> cv -> cv -> cv -> Prop :=
| tu_leaf t v old : leaf_type t -> turns t t v old v
| tu_int a b n old : turns (CNum a) (CNum b) (VNum n) old (VNum n)
| tu_cls c1 c2 vs olds cs : named_class (w_cls w1 c1) ->
    all3 (fun g old c => (exists f v, In (f, v) (combine (w_cls w1 c1) vs) /\ f_name f = f_name g /\ turns (f_type f) (f_type g) v old c) \/
                         (~ In (f_name g) (names (w_cls w1 c1)) /\ c = old)) (w_cls w2 c2) olds cs ->
    turns (CCls c1) (CCls c2) (VList vs) (VList olds) (VList cs)
| tu_pos c1 c2 vs olds cs : unnamed_class (w_cls w1 c1) -> turns_all (w_cls w1 c1) (w_cls w2 c2) vs olds cs -> turns (CCls c1) (CCls c2) (VList vs) (VList olds) (VList cs)
| tu_tup c1 c2 vs olds cs : turns_all (w_cls w1 c1) (w_cls w2 c2) vs olds cs -> turns (CTup c1) (CTup c2) (VList vs) (VList olds) (VList cs)
| tu_seq a b vs cs old : Forall2 (fun v c => turns a b v (w_new w2 b) c) vs cs -> turns (CSeq a) (CSeq b) (VList vs) old (VList cs)
| tu_set a vs old : turns (CSet a) (CSet a) (VList vs) old (VList vs)
| tu_map k a b l m old : map fst m = map fst l -> Forall2 (fun v c => turns a b v (w_new w2 b) c) (map snd l) (map snd m) -> turns (CMap k a) (CMap k b) (VMap l) old (VMap m)
| tu_tab a b l m old : map fst m = map fst l -> Forall2 (fun v c => turns a b v (w_new w2 b) c) (map snd l) (map snd m) -> turns (CTab a) (CTab b) (VTab l) old (VTab m)
| tu_arr n a b vs olds cs : all3 (turns a b) vs olds cs -> turns (CArr n a) (CArr n b) (VList vs) (VList olds) (VList cs)
| tu_pair a b a' b' x y ox oy cx cy : turns a a' x ox cx -> turns b b' y oy cy -> turns (CPair a b) (CPair a' b') (VList [x; y]) (VList [ox; oy]) (VList [cx; cy])
| tu_ptr a b x c old : turns a b x (w_new w2 b) c -> turns (CPtr a) (CPtr b) (VSome x) old (VSome c)
| tu_null a b old : turns (CPtr a) (CPtr b) VNone old VNone
| tu_uniq a b x c old : turns a b x (w_new w2 b) c -> turns (CUniq a) (CUniq b) (VSome x) old (VSome c)
| tu_poly u1 u2 c1 c2 vs cs old : w_reg w2 u2 (w_id w1 c1, EUTF8) = Ok (Some c2) -> turns (CCls c1) (CCls c2) (VList vs) (w_new w2 (CCls c2)) (VList cs) ->
    turns (CPoly u1) (CPoly u2) (VPoly c1 vs) old (VPoly c2 cs)
with turns_all : list field -> list field -> list cv -> list cv -> list cv -> Prop :=
| ta_nil : turns_all [] [] [] [] []
| ta_cons f g fs gs v vs o olds c cs : turns (f_type f) (f_type g) v o c -> turns_all fs gs vs olds cs -> turns_all (f :: fs) (g :: gs) (v :: vs) (o :: olds) (c :: cs).
End Evolve.
