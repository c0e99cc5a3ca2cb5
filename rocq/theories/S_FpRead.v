(** A reader of decimal numbers that rounds to the nearest double, ties to even.  It is not part of the library: it stands for
    the strtod of the C library, and shows that a reader as assumed in the theorems exists. *)
From Coq Require Import ZArith List Bool QArith.
From Verif Require Import Base S_Conv S_Fpconv.
Import ListNotations.
Open Scope Z_scope.

Definition digitb (c : Z) : bool := (48 <=? c) && (c <=? 57).
Fixpoint span (t : bytes) : bytes * bytes :=
  match t with
  | c :: r => if digitb c then let (a, b) := span r in (c :: a, b) else ([], t)
  | [] => ([], [])
  end.
Definition cut (c : Z) (t : bytes) : bool * bytes := match t with x :: r => if x =? c then (true, r) else (false, t) | [] => (false, t) end.
Definition isnil (t : bytes) : bool := match t with [] => true | _ => false end.
(** the sign and the value of the text of a decimal number *)
Definition parse_decimal (t : bytes) : option (bool * Q) :=
  let (neg, t1) := cut 45 t in
  let (i, t2) := span t1 in
  let (point, t3) := cut 46 t2 in
  let (f, t4) := if point then span t3 else ([], t3) in
  let (ex, t5) := cut 101 t4 in
  let (plus, t6) := cut 43 t5 in
  let (minus, t7) := cut 45 t6 in
  let (ds, t8) := span t7 in
  if isnil i || (point && isnil f) || negb (Bool.eqb ex (negb (isnil ds))) || (plus && minus) || negb (isnil t8) || (negb ex && negb (isnil t4)) then None
  else Some (neg, (inject_Z (dec_value (i ++ f)) * power 10 ((if minus then - dec_value ds else dec_value ds) - zlen f))%Q).
(** the last double not above [q], between [lo] and [hi] *)
Fixpoint search (fuel : nat) (q : Q) (lo hi : Z) : Z :=
  match fuel with
  | O => lo
  | S k => let mid := (lo + hi) / 2 in if Qle_bool (double_value mid) q then search k q mid hi else search k q lo mid
  end.
Definition too_large : Z := 2047 * 2 ^ 52.
Definition round_nearest (q : Q) : option Z :=
  if Qle_bool (double_value too_large) q then None
  else
    let lo := search 64 q 0 too_large in
    let hi := lo + 1 in
    let n := match (q - double_value lo ?= double_value hi - q)%Q with Lt => lo | Gt => hi | Eq => if Z.even lo then lo else hi end in
    if n <? too_large then Some n else None.
Definition ref_strtod (t : bytes) : option Z :=
  match parse_decimal t with
  | Some (neg, q) => match round_nearest q with Some n => Some (if neg then 2 ^ 63 + n else n) | None => None end
  | None => None
  end.
