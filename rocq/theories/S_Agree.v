(** Documents that say the same about an object of a type: the items that the members of the type refer to agree, whatever
    their order and whatever other items there are. *)
From Coq Require Import ZArith List Bool.
From Verif Require Import Base M_Types S_Doc M_Tree S_Tree M_Object S_Object.
Import ListNotations.
Open Scope Z_scope.

(** a type, or items with names; [need]: those that are read in any case *)
Inductive target : Type := Of (t : ct) | Rec (fs need : list field).
Definition field_item (f : field) (its : list doc) : option (nat * doc) := select (scoped (f_type f)) (IdName (f_name f)) its.
Definition key_field (k : ct) : field := mkField str_key false k.
Definition value_field (e : ct) : field := mkField str_value false e.
Definition first_field (a : ct) : field := mkField str_first false a.
Definition second_field (b : ct) : field := mkField str_second false b.
Definition shared_key_field : field := mkField str_shared_key false (CNum TUI64).
Definition shared_value_field (e : ct) : field := mkField str_shared_value false e.
Definition type_id_field : field := mkField str_type_id false (CStr EUTF8).

(** Restoring directly from an input has two more conditions.  No item of the other kind has the name of an optional member: *)
Definition unambiguous (fs : list field) (its : list doc) : Prop :=
  forall f, In f fs -> f_opt f = true -> existsb (of_name (negb (scoped (f_type f))) (f_name f)) its = false.
(** behind every scope there is, or is missing, an item that is read: *)
Definition covered (need : list field) (its : list doc) : Prop :=
  forall i d, nth_error its i = Some d -> is_sc d = true ->
    (exists f j e, In f need /\ field_item f its = Some (j, e) /\ (i <= j)%nat) \/ (exists f, In f need /\ f_opt f = true /\ field_item f its = None).
Definition same_layout (fs : list field) (its its' : list doc) : Prop :=
  map is_sc its = map is_sc its' /\
  forall f j d j' d', In f fs -> field_item f its = Some (j, d) -> field_item f its' = Some (j', d') -> j' = j.

Section Agree.
  Variable w : world.
  (** restored directly from an input, or from a tree *)
  Variable direct : bool.

  (** [root]: the outermost scope, behind which nothing has to be found again *)
  Inductive agree : bool -> target -> doc -> doc -> Prop :=
  | ag_same r t d : agree r t d d
  | ag_rec r fs need k ty its its' :
      (forall f, In f fs -> (field_item f its = None /\ field_item f its' = None) \/
         exists i j a b, field_item f its = Some (i, a) /\ field_item f its' = Some (j, b) /\ agree false (Of (f_type f)) a b) ->
      (direct = true -> unambiguous fs its' /\ (r = true \/ covered need its' \/ same_layout fs its its')) ->
      agree r (Rec fs need) (DScope k ty its) (DScope k ty its')
  | ag_class r c d d' : named_class (w_cls w c) -> agree r (Rec (w_cls w c) (w_cls w c)) d d' -> agree r (Of (CCls c)) d d'
  | ag_pair r a b d d' : agree r (Rec [first_field a; second_field b] [first_field a; second_field b]) d d' -> agree r (Of (CPair a b)) d d'
  | ag_shared r t e d d' : t = CShared e \/ t = CWeak e -> agree r (Rec [shared_key_field; shared_value_field e] [shared_key_field]) d d' -> agree r (Of t) d d'
  | ag_poly r u n ty its its' j k v c :
      select false (IdName str_type_id) its = Some (j, DVal k v) -> w_reg w u (v_data v, v_enc v) = Ok (Some c) -> named_class (w_cls w c) ->
      agree r (Rec (type_id_field :: w_cls w c) (type_id_field :: w_cls w c)) (DScope n ty its) (DScope n ty its') ->
      agree r (Of (CPoly u)) (DScope n ty its) (DScope n ty its')
  | ag_pointer r t e d d' : t = CPtr e \/ t = CUniq e -> agree r (Of e) d d' -> agree r (Of t) d d'
  | ag_items r t e k ty its its' : match t with CSeq a | CSet a | CTab a | CArr _ a => a = e | _ => False end ->
      Forall2 (agree false (Of e)) its its' -> agree r (Of t) (DScope k ty its) (DScope k ty its')
  | ag_map r k e n ty its its' : Forall2 (agree false (Rec [key_field k; value_field e] [key_field k; value_field e])) its its' ->
      agree r (Of (CMap k e)) (DScope n ty its) (DScope n ty its')
  | ag_tuple r t c k ty its its' : t = CTup c \/ (t = CCls c /\ unnamed_class (w_cls w c)) -> map is_sc its = map is_sc its' ->
      (forall e i, nth_error (filter (fun g => Bool.eqb (scoped g) (scoped e)) (map f_type (w_cls w c))) i = Some e ->
         (select (scoped e) (IdPos (Z.of_nat i)) its = None /\ select (scoped e) (IdPos (Z.of_nat i)) its' = None) \/
         exists j a b, select (scoped e) (IdPos (Z.of_nat i)) its = Some (j, a) /\ select (scoped e) (IdPos (Z.of_nat i)) its' = Some (j, b) /\ agree false (Of e) a b) ->
      agree r (Of t) (DScope k ty its) (DScope k ty its').
End Agree.

(** the items that members refer to *)
Definition requested (fs : list field) (d : doc) : bool := existsb (fun f => of_name (scoped (f_type f)) (f_name f) d) fs.

(** two calls of store, and what is done afterwards, on one tree *)
Definition twice (F : nat) (w : world) (hp : heap_t) (t : ct) (v : cv) (name : bytes) : res doc * res doc :=
  let (r1, e1) := tree_store F w hp t v name tenv_new in (r1, fst (tree_store F w hp t v name e1)).

(** Parts of an object: a way through members, elements, entries and pointers. *)
Inductive way : Type := Item (i : nat) | Key (i : nat) | Val (i : nat) | Target.
Definition into (hp : heap_t) (v : cv) (s : way) : option cv :=
  match v, s with
  | VList vs, Item i | VPoly _ vs, Item i => nth_error vs i
  | VMap l, Key i => option_map fst (nth_error l i)
  | VMap l, Val i => option_map snd (nth_error l i)
  | VTab l, Val i => option_map snd (nth_error l i)
  | VSome x, Target => Some x
  | VRef a, Target => option_map snd (nth_error hp a)
  | _, _ => None
  end.
Fixpoint part (hp : heap_t) (v : cv) (path : list way) : option cv :=
  match path with
  | [] => Some v
  | s :: path' => match into hp v s with Some x => part hp x path' | None => None end
  end.
