(** Independent specifications for the text/byte conversions (no reference to the model). *)
From Coq Require Import ZArith List Bool.
From Verif Require Import Base.
Import ListNotations.
Open Scope Z_scope.

(** * RFC 4648 base64 *)
Definition b64_alphabet : bytes :=
  $"ABCDEFGHIJKLMNOPQRSTUVWXYZabcdefghijklmnopqrstuvwxyz0123456789+/".
(** value of a base64 character by the ranges of the RFC *)
Definition b64_val (c : Z) : option Z :=
  if (65 <=? c) && (c <=? 90) then Some (c - 65)
  else if (97 <=? c) && (c <=? 122) then Some (c - 97 + 26)
  else if (48 <=? c) && (c <=? 57) then Some (c - 48 + 52)
  else if c =? 43 then Some 62
  else if c =? 47 then Some 63
  else None.

(** reference decoder: four characters are a 24 bit number, most significant first; '=' only at the end.
    The unused low bits of a padded group are ignored. *)
Definition b64_quad (v0 v1 v2 v3 : Z) : Z := v0 * 262144 + v1 * 4096 + v2 * 64 + v3.
Fixpoint b64_ref (s : bytes) : option bytes :=
  match s with
  | [] => Some []
  | c0 :: c1 :: c2 :: c3 :: s' =>
      match b64_val c0, b64_val c1, b64_val c2, b64_val c3 with
      | Some v0, Some v1, Some v2, Some v3 =>
          let q := b64_quad v0 v1 v2 v3 in
          match b64_ref s' with
          | Some r => Some (q / 65536 :: (q / 256) mod 256 :: q mod 256 :: r)
          | None => None
          end
      | Some v0, Some v1, Some v2, None =>
          if (c3 =? 61) && (match s' with [] => true | _ => false end)
          then let q := b64_quad v0 v1 v2 0 in Some [q / 65536; (q / 256) mod 256] else None
      | Some v0, Some v1, None, None =>
          if (c2 =? 61) && (c3 =? 61) && (match s' with [] => true | _ => false end)
          then let q := b64_quad v0 v1 0 0 in Some [q / 65536] else None
      | _, _, _, _ => None
      end
  | _ => None
  end.
(** a text is well-formed base64 iff the reference decoder accepts it *)
Definition b64_wellformed (s : bytes) : Prop := exists d, b64_ref s = Some d.

(** * Hex *)
Definition hex_digit (c : Z) : option Z :=
  if (48 <=? c) && (c <=? 57) then Some (c - 48)
  else if (65 <=? c) && (c <=? 70) then Some (c - 55)
  else if (97 <=? c) && (c <=? 102) then Some (c - 87)
  else None.
(** bytes denoted by a hex text: two digits per byte, high digit first *)
Fixpoint hex_ref (s : bytes) : option bytes :=
  match s with
  | [] => Some []
  | h :: l :: s' =>
      match hex_digit h, hex_digit l, hex_ref s' with
      | Some a, Some b, Some r => Some (16 * a + b :: r)
      | _, _, _ => None
      end
  | _ => None
  end.

(** * Decimal texts *)
Definition is_digit (c : Z) : Prop := 48 <= c <= 57.
Definition digits (s : bytes) : Prop := s <> [] /\ Forall is_digit s.
(** number denoted by a digit string *)
Definition dec_value (s : bytes) : Z := fold_left (fun a c => a * 10 + (c - 48)) s 0.
(** ASCII white space *)
Definition white (c : Z) : Prop := c = 32 \/ 9 <= c <= 13.

(** * FNV-1a, the textbook definition *)
Definition fnv1a_ref (bs : bytes) : Z :=
  fold_left (fun h b => (Z.lxor h b * 1099511628211) mod 2 ^ 64) bs 14695981039346656037.
