(** Blocks of bytes in vectors. *)
From Coq Require Import ZArith List Bool.
From Verif Require Import Base M_Types S_Conv S_Json M_Bits.
Import ListNotations.
Open Scope Z_scope.

(** the memory allocated by std::vector is large enough *)
Definition grows (grow : Z -> Z -> Z) : Prop := forall mem need, mem < need -> need <= grow mem need.
Definition exact_grow (mem need : Z) : Z := need.
Definition vec_ok (x : vec) : Prop := zlen (x_data x) <= x_mem x.

(** how a block of bytes comes back: as it is from PSrl and PMsgPack, as base64 text from PJson *)
Definition brings (bs : bytes) (v : value) : Prop :=
  wf_bytes bs /\ zlen bs < 3 * 2 ^ 30 - 3 /\ (v = val_block bs TBinary \/ v = val_string (b64_text bs) EUTF8).
(** 7 bit text *)
Definition ascii_text (v : value) : Prop := v_type v = TString -> Forall (fun c => 0 <= c < 128) (v_data v).
(** a character of base64 *)
Definition b64_letter (c : Z) : Prop := b64_val c <> None \/ c = 61.
Definition defined {A} (r : res A) : Prop := match r with Ok _ | Err => True | _ => False end.
