(** Which documents the formats can carry and what remains of them; text in other encodings. *)
From Coq Require Import ZArith List Bool.
From Verif Require Import Base M_Types M_Conv S_Conv S_Charset M_In S_Doc M_OutOps S_Out M_Event S_MsgPack S_Json M_Heap M_Out M_Tree M_TreeIO.
Import ListNotations.
Open Scope Z_scope.

(** the same value with its text in UTF-8 *)
Inductive same_text : value -> value -> Prop :=
| same_plain v : (v_type v = TString -> v_enc v = EUTF8) -> same_text v v
| same_conv v cs : v_type v = TString -> v_enc v <> EUnknown -> v_enc v <> EUTF8 -> Forall scalar cs -> v_data v = text (v_enc v) cs ->
    zlen (text EUTF8 cs) < 2 ^ 32 -> same_text v (val_string (text EUTF8 cs) EUTF8).
Inductive utf8_doc : doc -> doc -> Prop :=
| ud_val k v v' : same_text v v' -> utf8_doc (DVal k v) (DVal k v')
| ud_scope k t its its' : Forall2 utf8_doc its its' -> utf8_doc (DScope k t its) (DScope k t its').

(** parsers of the same format; JSON output may differ in layout *)
Definition same_format (p q : parser) : Prop :=
  match p, q with PsrlP _, PsrlP _ | MsgpP _, MsgpP _ | JsonP _, JsonP _ => True | _, _ => False end.
(** what the format can carry *)
Definition carries (x : fp_text) (p : parser) (d : doc) : Prop :=
  wf_doc d /\ is_scope_doc d /\
  match p with
  | PsrlP _ => all_vals (fun _ v => meaning_of v <> MeInt (- 2 ^ 63)) d /\ Z.of_nat (length (events d)) < 2 ^ 63
  | MsgpP _ => small_scopes d
  | JsonP _ => all_vals (fun _ v => json_value x v) d /\ json_names false d
  end.
(** what is left of the document *)
Definition delivered (p : parser) (d : doc) : mdoc := match p with JsonP _ => json_denote false d | _ => denote false d end.
(** Saving the tree [n] named [k] with the parser [p] succeeds; [bs] are the bytes if they are less than 2^32 and the
    Out object is new, and any parser of the same format loads them, whatever follows, as the tree [n'] named [k']. *)
Definition saves_as (x : fp_text) (p : parser) (k : bytes) (n : node) (bs : bytes) : Prop :=
  exists p' ops, write_all x p (node_events k n) = Ok (p', ops) /\ valid_ops [] ops /\ spec_out ops = bs /\
    forall m, zlen bs < 2 ^ 32 -> exists h, save_tree x p (heap_init m) k n = Ok (p', bs, h).
Definition loads_as (x : fp_text) (p : parser) (bs : bytes) (k' : bytes) (n' : node) : Prop :=
  exists size, forall q F before rest, same_format p q -> (size <= F)%nat ->
    exists q', run_block (load_tree x F q) (mkBlk before (bs ++ rest)) = Ok ((q', (k', n')), mkBlk (rev bs ++ before) rest).
Definition rejected (x : fp_text) (p : parser) (bs : bytes) : Prop :=
  exists size, forall q F before rest, same_format p q -> (size <= F)%nat ->
    run_block (load_tree x F q) (mkBlk before (bs ++ rest)) = Err.
