(** What is needed of a document that was loaded in one format to save it in another one. *)
From Coq Require Import ZArith List.
From Verif Require Import Base M_Types M_Conv S_Doc M_Event S_Json M_Json M_TreeIO.
Import ListNotations.
Open Scope Z_scope.

(** the bytes in the buffers of a JSON parser are bytes, and strtod makes doubles *)
Definition sound_parser (x : fp_text) (p : parser) : Prop :=
  match p with
  | JsonP st => wf_bytes (j_nbuf st) /\ wf_bytes (j_vbuf st) /\ forall s d, x_strtod x s = Some d -> 0 <= d < 2 ^ 64
  | _ => True
  end.
(** Loaded with [p], saved with [q].  PSrl cannot write the least integer, but does not read it either; JSON has no binary data, no numbers for some
    doubles, and only some texts and names. *)
Definition fits_in (x : fp_text) (p q : parser) (d : doc) : Prop :=
  match q with
  | PsrlP _ => match p with PsrlP _ => True | _ => all_vals (fun _ v => meaning_of v <> MeInt (- 2 ^ 63)) d end
  | MsgpP _ => True
  | JsonP _ => all_vals (fun _ v => json_value x v) d /\ json_names false d
  end.
