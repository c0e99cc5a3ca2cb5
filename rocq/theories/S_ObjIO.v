(** Which objects a format can carry, and what it means that an object is stored and restored. *)
From Coq Require Import ZArith List Bool.
From Verif Require Import Base M_Types M_Conv M_TpTools M_In S_Conv S_Charset S_Doc M_Event M_PSrl M_MsgPack M_Json S_MsgPack S_Json M_Heap M_Tree M_TreeIO S_TreeIO M_Object S_Object S_ObjStore M_ObjIO.
Import ListNotations.
Open Scope Z_scope.

Definition is_json (p : parser) : bool := match p with JsonP _ => true | _ => false end.

(** characters that can be written in UTF-8 *)
Definition textual (e : enc) (s : bytes) : Prop :=
  wf_bytes s /\ (e = EUTF8 \/ exists cs, e <> EUnknown /\ Forall scalar cs /\ s = text e cs /\ zlen (text EUTF8 cs) < 2 ^ 32).
(** JSON: doubles that the functions for text print in a way that they can read, [S_Json.prints_well] *)
Definition printable (x : fp_text) (d : Z) : Prop := match whole d with Some n => Z.abs n <> 2 ^ 63 | None => prints_well x d end.
(** the values of the C++ types without parts that the format keeps: PSrl and JSON all but INT64_MIN *)
Definition carried (x : fp_text) (p : parser) (t : ct) (v : cv) : Prop :=
  cpp_value (is_json p) t v /\
  match t, v with
  | CNum TI64, VNum n => match p with MsgpP _ => True | _ => n <> - 2 ^ 63 end
  | CNum TFP32, VNum n => is_json p = true -> printable x (f32_to_f64 n)
  | CNum TFP64, VNum n => is_json p = true -> printable x n
  | CStr e, VStr s | CChar e, VStr s => textual e s
  | CChars _ _, VStr mem => wf_bytes mem
  | CBits, VStr s => wf_bytes s /\ (is_json p = true -> zlen s < 3 * 2 ^ 30 - 3)
  | _, _ => True
  end.
(** names of members and keys of tables *)
Definition name_fits (p : parser) (k : bytes) : Prop := wf_name k /\ (is_json p = true -> json_name k).
Fixpoint tab_keys (v : cv) : list bytes :=
  match v with
  | VNum _ | VStr _ | VNone | VRef _ => []
  | VList vs | VPoly _ vs => flat_map tab_keys vs
  | VMap l => flat_map (fun q => tab_keys (fst q) ++ tab_keys (snd q)) l
  | VTab l => flat_map (fun q => fst q :: tab_keys (snd q)) l
  | VSome x => tab_keys x
  end.
Definition names_fit (w : world) (p : parser) (hp : heap_t) (v : cv) : Prop :=
  (forall c f, In f (w_cls w c) -> name_fits p (f_name f)) /\ Forall (name_fits p) (tab_keys v) /\
  (forall a e x, nth_error hp a = Some (e, x) -> Forall (name_fits p) (tab_keys x)).
(** the size of the document *)
Definition size_fits (p : parser) (d : doc) : Prop :=
  (depth d <= 129)%nat /\
  match p with PsrlP _ => Z.of_nat (length (events d)) < 2 ^ 63 | MsgpP _ => small_scopes d | JsonP _ => True end.

(** [new] objects made by the constructors have the members of their class *)
Definition constructs (w : world) : Prop := forall t, shape w t (w_new w t).

(** Tree::store writes [bs] (if they are less than 2^32 bytes) into memory; [F]: enough fuel *)
Definition stores_as (w : world) (hp : heap_t) (p : parser) (name : bytes) (t : ct) (v : cv) (bs : bytes) : Prop :=
  exists size p', forall F m, (size <= F)%nat -> zlen bs < 2 ^ 32 -> exists h, store_object (w_fp w) F w hp p (heap_init m) name t v = Ok (p', bs, h).
(** Tree::restore with a parser of the same format reads [bs], whatever follows, as the object [c] and the shared objects [s] *)
Definition restores_as (w : world) (p : parser) (bs : bytes) (t : ct) (old c : cv) (s : rstate) : Prop :=
  exists size, forall q F before rest, same_format p q -> (size <= F)%nat ->
    exists q' b', run_block (restore_object (w_fp w) F w q t old) (mkBlk before (bs ++ rest)) = Ok ((q', (c, s)), b').
(** Loading the bytes into a tree and unwrapping the object *)
Definition unwraps_as (w : world) (p : parser) (bs : bytes) (t : ct) (old c : cv) (s : rstate) : Prop :=
  exists size k n, loads_as (w_fp w) p bs k n /\ forall F, (size <= F)%nat -> unwrap_prog F w t old n rs_new = ERet (c, s).

(** the parser [q] reads the items of the document [d] from the input [b] *)
Definition parse_items (x : fp_text) (F : nat) (q : parser) (n : nat) : prog (parser * list event) :=
  match parser_clear q with
  | PsrlP st => let! (st', es) := read_events psrl_read n st in Ret (PsrlP st', es)
  | MsgpP st => let! (st', es) := read_events msgp_read n st in Ret (MsgpP st', es)
  | JsonP st => let! (st', es) := read_events (json_read x F) n st in Ret (JsonP st', es)
  end.
Definition holds (x : fp_text) (F : nat) (q : parser) (b : blk) (d : doc) : Prop :=
  exists q' b', run_block (parse_items x F q (length (events d))) b = Ok ((q', events d), b').
