(** Model of the owners of restored shared objects: who holds a std::shared_ptr after Tree::restore / Node::unwrap, and
    which objects are destroyed when the table of the tree is cleared (src/lib/Environment.cpp:220-226, which
    Tree::clear, the next load and the destructor of the Tree run).  Definitions only.

    Simplifications.  std::shared_ptr counts owners as the C++ standard says: the destructor of the last owner destroys
    the object, which destroys its members.  An object deletes what its plain pointers point to.  The local shared
    pointers of Paste are taken away together with those of the table: no object is reached through them in between. *)
From Coq Require Import ZArith List Bool Arith.
From Verif Require Import Base M_Types M_Object.
Import ListNotations.

(** the shared pointers inside an object (not inside what they point to): members, elements, entries and pointers
    that own what they point to.  A weak_ptr owns nothing (Resolve.hpp:818-836) *)
(** Resolve.hpp:469-835 *)
Fixpoint strong (w : world) (t : ct) (v : cv) {struct v} : list nat :=
  let fix fields (fs : list ct) (vs : list cv) {struct vs} : list nat :=
    match fs, vs with f :: fs', x :: vs' => strong w f x ++ fields fs' vs' | _, _ => [] end in
  match t, v with
  | CShared _, VRef a => [a]
  | CSeq e, VList vs | CSet e, VList vs | CArr _ e, VList vs => flat_map (strong w e) vs
  | CCls c, VList vs | CTup c, VList vs | CPoly _, VPoly c vs => fields (map f_type (w_cls w c)) vs
  | CPair a b, VList vs => fields [a; b] vs
  | CMap k e, VMap l => flat_map (fun q => match q with (x, y) => strong w k x ++ strong w e y end) l
  | CTab e, VTab l => flat_map (fun q => match q with (_, y) => strong w e y end) l
  | CPtr e, VSome x | CUniq e, VSome x => strong w e x
  | _, _ => []
  end.
(** Resolve.hpp:760-816: the shared pointers inside a shared object *)
Definition held (w : world) (hp : heap_t) (a : nat) : list nat :=
  match nth_error hp a with Some (u, x) => strong w u x | None => [] end.

Definition set_count (cnt : nat -> nat) (a k : nat) : nat -> nat := fun b => if Nat.eqb b a then k else cnt b.
(** ~shared_ptr for each pointer of [work]: Hash.hpp:362-381 on Environment.h:52.  The objects destroyed, the last one first *)
Fixpoint release (held : nat -> list nat) (fuel : nat) (work : list nat) (cnt : nat -> nat) (dead : list nat) : res (list nat) :=
  match fuel with
  | O => Fuel
  | S f =>
      match work with
      | [] => Ok dead
      | a :: r =>
          match cnt a with
          | O => UB UbDangling
          | S O => release held f (held a ++ r) (set_count cnt a 0) (a :: dead)
          | S k => release held f r (set_count cnt a k) dead
          end
      end
  end.
(** Resolve.hpp:788-797, Node.cpp:553-555: the owners made while restoring, besides those in the objects: one shared pointer of Paste per
    object and those of the table *)
Definition owners (s : rstate) : list nat := seq 0 (length (r_heap s)) ++ map snd (r_tab s).
(** Environment.cpp:220-226 after an object has been restored: what is destroyed *)
Definition expired (w : world) (t : ct) (v : cv) (s : rstate) : res (list nat) :=
  let inner := flat_map (held w (r_heap s)) (seq 0 (length (r_heap s))) in
  release (held w (r_heap s)) (S (length (owners s ++ inner))) (owners s)
    (fun a => count_occ Nat.eq_dec (strong w t v ++ inner ++ owners s) a) [].
