(** What stands between quotes, whatever it is.  Independent of PJson. *)
From Coq Require Import ZArith List Bool.
From Verif Require Import Base.
Import ListNotations.
Open Scope Z_scope.

(** the escapes of JSON with a fixed meaning, and [\'] *)
Definition read_escapes : list (Z * Z) := [(34, 34); (39, 39); (92, 92); (47, 47); (110, 10); (116, 9); (114, 13); (98, 8); (102, 12)].
Definition escape_of (k : Z) : option Z := option_map snd (find (fun q => fst q =? k) read_escapes).

(** the text up to the closing quote, and what is left from the quote on *)
Inductive between : Type := Text (s rest : bytes) | Unicode | NoEnd.
Definition qcons (c : Z) (q : between) : between := match q with Text s r => Text (c :: s) r | _ => q end.
Fixpoint unquote (t : bytes) : between :=
  match t with
  | [] => NoEnd
  | c :: t1 =>
      if c =? 34 then Text [] t
      else if c =? 92 then
        match t1 with
        | [] => NoEnd
        | k :: t2 => match escape_of k with Some x => qcons x (unquote t2) | None => if k =? 117 then Unicode else qcons 92 (unquote t1) end
        end
      else qcons c (unquote t1)
  end.
