(** Specification of the Srl format, written independently of the model of PSrl: the byte layout of a sequence
    of events. *)
From Coq Require Import ZArith List Bool.
From Verif Require Import Base M_Types M_Conv S_Doc.
Import ListNotations.
Open Scope Z_scope.

(** k base 128 digits, least significant first, all but the last marked with 128 *)
Fixpoint vlq (k : nat) (n : Z) : bytes :=
  match k with
  | O => []
  | S O => [n]
  | S k' => (128 + n mod 128) :: vlq k' (n / 128)
  end.
(** the number of digits a number needs *)
Definition groups7 (n : Z) : nat := S (Z.to_nat (Z.log2 n / 7)).
Definition varint (n : Z) : bytes := vlq (groups7 n) n.

(** the different elements of a list in the order of their first occurrence *)
Fixpoint distinct (l : list bytes) : list bytes :=
  match l with
  | [] => []
  | x :: l' => x :: filter (fun y => negb (bytes_eqb x y)) (distinct l')
  end.
Fixpoint position (n : bytes) (l : list bytes) : Z :=
  match l with [] => 0 | x :: l' => if bytes_eqb x n then 0 else 1 + position n l' end.
Definition seen (n : bytes) (prev : list bytes) : bool := existsb (bytes_eqb n) prev.

(** one byte of flags: kind of value *)
Definition kind (v : value) : Z :=
  match meaning_of v with
  | MeNull => 8
  | MeBool b => if b then 65 else 129
  | MeInt n => if n <? 0 then 9 else 1
  | MeFloat _ => if ty_eqb (v_type v) TFP32 then 17 else 33
  | MeStr _ => 32 | MeBin _ => 16 | MeObj => 64 | MeArr => 128 | MeEnd => 0
  end.
Definition payload (v : value) : bytes :=
  match meaning_of v with
  | MeInt n => varint (Z.abs n)
  | MeFloat _ => if ty_eqb (v_type v) TFP32 then le 4 (v_raw v) else le 8 (v_raw v)
  | MeStr bs | MeBin bs => varint (zlen bs) ++ bs
  | _ => []
  end.

(** [stack]: the open scopes, [prev]: the names of the named items so far.  The text of a name appears only at
    its first use, later uses are the number of different names that were first used before it. *)
Fixpoint layout (stack : list ty) (prev : list bytes) (es : list event) : bytes :=
  match es with
  | [] => []
  | (n, v) :: es' =>
      let stack' := match meaning_of v with MeObj => TObject :: stack | MeArr => TArray :: stack | MeEnd => tl stack | _ => stack end in
      let named := negb (zlen n =? 0) && match stack with TObject :: _ => negb (ty_eqb (v_type v) TScopeEnd) | _ => false end in
      if named then
        (if seen n prev then (kind v + 6) :: varint (position n (distinct prev))
         else (kind v + 2) :: varint (zlen n) ++ n) ++ payload v ++ layout stack' (prev ++ [n]) es'
      else kind v :: payload v ++ layout stack' prev es'
  end.
