(** Ownership: ways from an object that do not go through a weak pointer. *)
From Coq Require Import ZArith List Bool.
From Verif Require Import Base M_Types M_Object S_Agree.
Import ListNotations.

(** one step into an object of a type, to a part with its type *)
Definition own_into (w : world) (hp : heap_t) (q : ct * cv) (s : way) : option (ct * cv) :=
  let field (fs : list ct) (vs : list cv) i := match nth_error fs i, nth_error vs i with Some f, Some x => Some (f, x) | _, _ => None end in
  match q, s with
  | (CCls c, VList vs), Item i | (CTup c, VList vs), Item i | (CPoly _, VPoly c vs), Item i => field (map f_type (w_cls w c)) vs i
  | (CPair a b, VList vs), Item i => field [a; b] vs i
  | (CSeq e, VList vs), Item i | (CSet e, VList vs), Item i | (CArr _ e, VList vs), Item i => option_map (fun x => (e, x)) (nth_error vs i)
  | (CMap k e, VMap l), Key i => option_map (fun x => (k, fst x)) (nth_error l i)
  | (CMap k e, VMap l), Val i => option_map (fun x => (e, snd x)) (nth_error l i)
  | (CTab e, VTab l), Val i => option_map (fun x => (e, snd x)) (nth_error l i)
  | (CPtr e, VSome x), Target | (CUniq e, VSome x), Target => Some (e, x)
  | (CShared _, VRef a), Target => nth_error hp a
  | _, _ => None
  end.
Fixpoint own_part (w : world) (hp : heap_t) (q : ct * cv) (path : list way) : option (ct * cv) :=
  match path with
  | [] => Some q
  | s :: path' => match own_into w hp q s with Some q' => own_part w hp q' path' | None => None end
  end.
(** the object [a] is owned: a way over owning pointers only ends at a shared pointer to it *)
Definition owned (w : world) (hp : heap_t) (t : ct) (v : cv) (a : nat) : Prop :=
  exists path e, own_part w hp (t, v) path = Some (CShared e, VRef a).
