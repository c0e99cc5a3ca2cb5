(** Specification of an output document: what the sequence of write / reserve / patch operations means. *)
From Coq Require Import ZArith List Bool.
From Verif Require Import Base M_OutOps.
Import ListNotations.

(** [l] with the bytes from position [p] on replaced by [b] *)
Definition overwrite (l : bytes) (p : nat) (b : bytes) : bytes :=
  firstn p l ++ b ++ skipn (p + length b) l.

(** the document so far and the positions of the reserved places *)
Definition spec_op (st : bytes * list (nat * nat)) (o : oop) : bytes * list (nat * nat) :=
  match o with
  | OWrite b => (fst st ++ b, snd st)
  | OReserve n => (fst st ++ repeat 0%Z n, snd st ++ [(length (fst st), n)])
  | OPatch k off b =>
      match nth_error (snd st) k with
      | Some (p, _) => (overwrite (fst st) (p + off) b, snd st)
      | None => st
      end
  end.
Definition spec_run (ops : list oop) (st : bytes * list (nat * nat)) := fold_left spec_op ops st.
Definition spec_out (ops : list oop) : bytes := fst (spec_run ops ([], [])).

(** patches stay inside the place reserved before *)
Fixpoint valid_ops (tickets : list nat) (ops : list oop) : Prop :=
  match ops with
  | [] => True
  | OWrite _ :: r => valid_ops tickets r
  | OReserve n :: r => valid_ops (tickets ++ [n]) r
  | OPatch k off b :: r =>
      (exists n, nth_error tickets k = Some n /\ (off + length b <= n)%nat) /\ valid_ops tickets r
  end.
