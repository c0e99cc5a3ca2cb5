(** How VecWrap objects may be used. *)
From Coq Require Import ZArith List Bool.
From Verif Require Import Base M_Types M_Bits S_Bits M_Wraps.
Import ListNotations.
Open Scope Z_scope.

(** for every wrap the one it is a copy of (in the end; itself if it is none), those that were destroyed, those that know the
    vector as it is, and the bytes of the vector *)
Record view : Type := mkView { made : list nat; gone : list nat; fresh : list nat; held : bytes }.
Definition exists_ (V : view) (i : nat) : Prop := (i < length (made V))%nat /\ ~ In i (gone V).
Inductive does (u : Z) : view -> wop -> view -> res (option value) -> Prop :=
| do_new V : does u V WNew (mkView (made V ++ [length (made V)]) (gone V) (length (made V) :: fresh V) (held V)) (Ok None)
| do_copy V i o f : exists_ V i -> nth_error (made V) i = Some o -> f = (if existsb (Nat.eqb i) (fresh V) then [length (made V)] else []) ->
    does u V (WCopy i) (mkView (made V ++ [o]) (gone V) (f ++ fresh V) (held V)) (Ok None)
| do_end V i : exists_ V i -> does u V (WEnd i) (mkView (made V) (i :: gone V) (fresh V) (held V)) (Ok None)
| do_set V bs moved : does u V (WSet bs moved) (mkView (made V) (gone V) [] bs) (Ok None)
(** restoring: the wrap that this one is a copy of still exists, and only that one knows the vector afterwards *)
| do_restore V i o v bs : exists_ V i -> nth_error (made V) i = Some o -> exists_ V o -> brings bs v -> zlen bs mod u = 0 ->
    does u V (WPaste i v) (mkView (made V) (gone V) [o] bs) (Ok None)
| do_refuse V i v : exists_ V i -> v_type v <> TString -> v_type v <> TBinary -> does u V (WPaste i v) V Err
(** storing: what the vector holds *)
| do_store V i : exists_ V i -> In i (fresh V) -> does u V (WInsert i) V (Ok (Some (val_block (held V) TBinary))).
Inductive do_all (u : Z) : view -> list wop -> view -> list (res (option value)) -> Prop :=
| da_nil V : do_all u V [] V []
| da_cons V o V1 r os V2 rs : does u V o V1 r -> do_all u V1 os V2 rs -> do_all u V (o :: os) V2 (r :: rs).
