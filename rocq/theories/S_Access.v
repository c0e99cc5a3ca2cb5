(** The parts of an object, and the way to them. *)
From Coq Require Import ZArith List Bool.
From Verif Require Import Base M_Types M_Tree M_Object S_ObjStore M_Pack S_Pack M_Access.
Import ListNotations.
Open Scope Z_scope.

(** [inside w t v hs t' v']: in the object [v] of type [t], [hs] leads to the part [v'] of type [t'].  Members by their names, elements by their position,
    keys and values of maps by the position of the entry; what a raw or unique pointer points to is where the pointer is.  Not through shared pointers. *)
Inductive inside (w : world) : ct -> cv -> list hop -> ct -> cv -> Prop :=
| in_here t v : inside w t v [] t v
| in_member c vs i f x hs t' v' : nth_error (w_cls w c) i = Some f -> f_name f <> [] -> nth_error vs i = Some x ->
    inside w (f_type f) x hs t' v' -> inside w (CCls c) (VList vs) (ByName (f_name f) :: hs) t' v'
| in_poly u c vs i f x hs t' v' : nth_error (w_cls w c) i = Some f -> nth_error vs i = Some x ->
    inside w (f_type f) x hs t' v' -> inside w (CPoly u) (VPoly c vs) (ByName (f_name f) :: hs) t' v'
| in_elem t e vs i x hs t' v' : (t = CSeq e \/ t = CSet e \/ t = CArr (length vs) e) -> nth_error vs i = Some x ->
    inside w e x hs t' v' -> inside w t (VList vs) (ByIndex (Z.of_nat i) :: hs) t' v'
| in_key k e l i x y hs t' v' : nth_error l i = Some (x, y) -> inside w k x hs t' v' -> inside w (CMap k e) (VMap l) (ByIndex (Z.of_nat i) :: ByName str_key :: hs) t' v'
| in_value k e l i x y hs t' v' : nth_error l i = Some (x, y) -> inside w e y hs t' v' -> inside w (CMap k e) (VMap l) (ByIndex (Z.of_nat i) :: ByName str_value :: hs) t' v'
| in_entry e l k x hs t' v' : In (k, x) l -> inside w e x hs t' v' -> inside w (CTab e) (VTab l) (ByName k :: hs) t' v'
| in_first a b x y hs t' v' : inside w a x hs t' v' -> inside w (CPair a b) (VList [x; y]) (ByName str_first :: hs) t' v'
| in_second a b x y hs t' v' : inside w b y hs t' v' -> inside w (CPair a b) (VList [x; y]) (ByName str_second :: hs) t' v'
| in_ptr t e x hs t' v' : (t = CPtr e \/ t = CUniq e) -> inside w e x hs t' v' -> inside w t (VSome x) hs t' v'.

(** the names of the items of an object *)
Fixpoint item_names (w : world) (t : ct) (v : cv) : option (list bytes) :=
  match t, v with
  | CCls c, _ => Some (map f_name (w_cls w c))
  | CPoly _, VPoly c _ => Some (str_type_id :: map f_name (w_cls w c))
  | CTab _, VTab l => Some (map fst l)
  | CPair _ _, _ => Some [str_first; str_second]
  | CPtr e, VSome x | CUniq e, VSome x => item_names w e x
  | _, _ => None
  end.
(** raw pointers to something that is no scope cannot be unwrapped (but what they point to) *)
Definition initialized (t : ct) : Prop := match t with CPtr e => scoped e = true | _ => True end.
(** parts that do not depend on others *)
Definition own_part (w : world) (t : ct) (v : cv) : Prop := plain v = true /\ unshared w t.
(** What a Union [u] gives that stands for the part [v'] of type [t']: unwrap and copy_to give the part, whatever the table of shared objects and the
    object written to held; other kinds of types are refused; names that the part does not have are not found;
    a value has no names, and asking it for a position dereferences a null pointer. *)
Definition reached (w : world) (size : nat) (t' : ct) (v' : cv) (u : handle) : Prop :=
  (own_part w t' v' -> initialized t' -> forall F s, (size <= F)%nat -> handle_unwrap F w t' u s = ERet (v', s)) /\
  (own_part w t' v' -> forall F s old, (size <= F)%nat -> shape w t' old -> handle_copy F w t' old u s = ERet (v', s)) /\
  (forall t2, scoped t2 <> scoped t' -> forall F s, handle_unwrap F w t2 u s = EThrow) /\
  (forall ks k, item_names w t' v' = Some ks -> ~ In k ks -> handle_get u (k, EUTF8) = Err /\ handle_try_get u (k, EUTF8) = Ok None) /\
  (scoped t' = false -> (forall k, handle_get u (k, EUTF8) = Err /\ handle_try_get u (k, EUTF8) = Ok None) /\ forall i, take_hop u (ByIndex i) = UB UbNull).
