(** Documents that differ in the order of the elements of sets and maps. *)
From Coq Require Import ZArith List Bool Sorting.Permutation.
From Verif Require Import Base M_Types S_Doc M_Tree S_Tree M_Object S_Object S_Again S_Restored.
Import ListNotations.
Open Scope Z_scope.

(** What the elements of a set in this document are: [n] different ones, all of them ordered by the order of the set. *)
Definition all_differ (w : world) (e : ct) (d : doc) (n : nat) : Prop :=
  forall F strict old s vs s' u, said F w strict (CSet e) old d s = Ok (VList vs, s', u) -> length vs = n /\ exists P, weak_order P (w_lt w) /\ Forall P vs.
(** the same for a map and its keys *)
Definition keys_differ (w : world) (k e : ct) (d : doc) (n : nat) : Prop :=
  forall F strict old s l s' u, said F w strict (CMap k e) old d s = Ok (VMap l, s', u) -> length l = n /\ exists P, weak_order P (w_lt w) /\ Forall (fun q => P (fst q)) l.

(** [mixed w t d d']: what stands in [d] for an object of type [t] stands in [d'] in another order, as far as elements of sets and
    entries of maps are concerned that are in it, in its members, elements and behind its pointers. *)
Inductive mixed (w : world) : ct -> doc -> doc -> Prop :=
| mx_same t d : mixed w t d d
| mx_set e k ty its mid its' : unshared w e -> all_differ w e (DScope k ty its) (length (kind_items (scoped e) its)) ->
    Permutation its mid -> Forall2 (mixed w e) mid its' -> mixed w (CSet e) (DScope k ty its) (DScope k ty its')
| mx_map a e k ty its mid its' : unshared w a -> unshared w e -> keys_differ w a e (DScope k ty its) (length (kind_items true its)) ->
    Permutation its mid ->
    Forall2 (fun x y => x = y \/ exists k' ty' l l', x = DScope k' ty' l /\ y = DScope k' ty' l' /\
      Forall2 (fun p q => p = q \/ (doc_name p = str_key /\ mixed w a p q) \/ (doc_name p = str_value /\ mixed w e p q)) l l') mid its' ->
    mixed w (CMap a e) (DScope k ty its) (DScope k ty its')
| mx_seq e k ty its its' : Forall2 (mixed w e) its its' -> mixed w (CSeq e) (DScope k ty its) (DScope k ty its')
| mx_arr n e k ty its its' : Forall2 (mixed w e) its its' -> mixed w (CArr n e) (DScope k ty its) (DScope k ty its')
| mx_tab e k ty its its' : Forall2 (mixed w e) its its' -> mixed w (CTab e) (DScope k ty its) (DScope k ty its')
| mx_pair a b k ty its its' :
    Forall2 (fun p q => p = q \/ (doc_name p = str_first /\ mixed w a p q) \/ (doc_name p = str_second /\ mixed w b p q)) its its' ->
    mixed w (CPair a b) (DScope k ty its) (DScope k ty its')
| mx_cls c k ty its its' : named_class (w_cls w c) ->
    Forall2 (fun p q => p = q \/ exists f, In f (w_cls w c) /\ doc_name p = f_name f /\ mixed w (f_type f) p q) its its' ->
    mixed w (CCls c) (DScope k ty its) (DScope k ty its')
| mx_ptr e d d' : mixed w e d d' -> mixed w (CPtr e) d d'
| mx_uniq e d d' : mixed w e d d' -> mixed w (CUniq e) d d'.
