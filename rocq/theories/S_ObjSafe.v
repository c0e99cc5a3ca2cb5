(** What can go wrong when an object is restored from an input that nobody vouches for: the parts of a type, and which
    value is dangerous for which part. *)
From Coq Require Import ZArith List Bool.
From Verif Require Import Base M_Types M_Conv M_TpTools M_Charset M_In S_Doc M_Event M_PSrl M_MsgPack M_Json M_Tree M_TreeIO M_Object M_ObjIO.
Import ListNotations.
Open Scope Z_scope.

(** the types of the parts of an object, at any depth; a shared object is written with a key *)
Inductive part (w : world) : ct -> ct -> Prop :=
| pt_self t : part w t t
| pt_cls c f u : In f (w_cls w c) -> part w (f_type f) u -> part w (CCls c) u
| pt_tup c f u : In f (w_cls w c) -> part w (f_type f) u -> part w (CTup c) u
| pt_seq e u : part w e u -> part w (CSeq e) u
| pt_set e u : part w e u -> part w (CSet e) u
| pt_key k e u : part w k u -> part w (CMap k e) u
| pt_map k e u : part w e u -> part w (CMap k e) u
| pt_tab e u : part w e u -> part w (CTab e) u
| pt_arr n e u : part w e u -> part w (CArr n e) u
| pt_fst a b u : part w a u -> part w (CPair a b) u
| pt_snd a b u : part w b u -> part w (CPair a b) u
| pt_ptr e u : part w e u -> part w (CPtr e) u
| pt_uniq e u : part w e u -> part w (CUniq e) u
| pt_shared e u : part w e u -> part w (CShared e) u
| pt_weak e u : part w e u -> part w (CWeak e) u
| pt_shared_key e : part w (CShared e) (CNum TUI64)
| pt_weak_key e : part w (CWeak e) (CNum TUI64)
| pt_poly b id c f u : w_reg w b id = Ok (Some c) -> In f (w_cls w c) -> part w (f_type f) u -> part w (CPoly b) u.

Definition int_types : list ty := [TI8; TUI8; TI16; TUI16; TI32; TUI32; TI64; TUI64].
(** the double is an integer *)
Definition equals_int (d n : Z) : Prop := f64_exp d <> 2047 /\ f64_scaled d = n * 2 ^ 1074.
(** doubles that cannot be converted to the integer type and are not refused *)
Definition awkward (t : ty) (d : Z) : Prop :=
  f64_isnan d = true \/ (t = TI64 /\ equals_int d (2 ^ 63)) \/ (t = TUI64 /\ equals_int d (2 ^ 64)).
Definition is_double (v : value) : Prop := v_type v = TFP32 \/ v_type v = TFP64.

(** pasting [v] into an object of that type can be undefined in the way [u] *)
Inductive danger (x : fp_text) : ct -> value -> ub -> Prop :=
| dg_number t v : In t int_types -> is_double v -> awkward t (v_double v) -> danger x (CNum t) v UbCast
| dg_number_text t v s d : In t int_types -> v_type v = TString -> (v_enc v = EUTF8 -> s = trim_space (v_data v)) ->
    x_strtod x s = Some d -> awkward t d -> danger x (CNum t) v UbCast
| dg_text_int e v : v_type v = TI64 -> int_value v = - 2 ^ 63 -> danger x (CStr e) v UbSigned
| dg_text_fp e v : is_double v -> equals_int (v_double v) (2 ^ 63) -> danger x (CStr e) v UbCast
| dg_text_fp_neg e v : is_double v -> equals_int (v_double v) (- 2 ^ 63) -> danger x (CStr e) v UbSigned
| dg_bits v : v_type v = TString -> Exists (fun b => 128 <= b) (v_data v) -> danger x CBits v UbOob
| dg_chars e n v : v_type v = TString \/ v_type v = TBinary -> v_enc v <> e -> (n - 1) * unit_size e < zlen (v_data v) ->
    danger x (CChars e n) v UbOob.

(** Restoring an object of type [t] is undefined in the way [u] because
    - one of the values is dangerous for one of the parts;
    - the document uses one key for shared objects of two types;
    - the table of classes fails to make an object for one of the values, or makes one that the pointer cannot point to (C87). *)
Definition mishap (w : world) (t : ct) (vs : list value) (u : ub) : Prop :=
  (exists p v, part w t p /\ In v vs /\ danger (w_fp w) p v u) \/
  (u = UbCast /\ exists a b, a <> b /\ (part w t (CShared a) \/ part w t (CWeak a)) /\ (part w t (CShared b) \/ part w t (CWeak b))) \/
  (exists b v, part w t (CPoly b) /\ In v vs /\ wf_bytes (v_data v) /\ w_reg w b (v_data v, v_enc v) = UB u).

(** the memory of the character arrays has their size *)
Inductive sized (w : world) : ct -> cv -> Prop :=
| sz_any t v : match t with CCls _ | CArr _ _ | CPair _ _ | CTup _ | CChars _ _ => False | _ => True end -> sized w t v
| sz_chars e n mem : 1 <= n -> zlen mem = n * unit_size e -> sized w (CChars e n) (VStr mem)
| sz_cls c vs : Forall2 (fun f v => sized w (f_type f) v) (w_cls w c) vs -> sized w (CCls c) (VList vs)
| sz_tup c vs : Forall2 (fun f v => sized w (f_type f) v) (w_cls w c) vs -> sized w (CTup c) (VList vs)
| sz_arr n e vs : Forall (sized w e) vs -> sized w (CArr n e) (VList vs)
| sz_pair a b x y : sized w a x -> sized w b y -> sized w (CPair a b) (VList [x; y]).
(** numbers are those of C++ *)
Definition real_types (w : world) (t : ct) : Prop := forall p, part w t (CNum p) -> In p (TBool :: TFP32 :: TFP64 :: int_types).
(** the object to restore into, and those that constructors make; strtod yields doubles, and texts consist of bytes *)
Definition well_made (w : world) (t : ct) (old : cv) : Prop :=
  (forall s d, x_strtod (w_fp w) s = Some d -> 0 <= d < 2 ^ 64) /\ (forall d, wf_bytes (x_dtoa (w_fp w) d)) /\ real_types w t /\ sized w t old /\ (forall p, part w t p -> sized w p (w_new w p)) /\
  (forall b id c, part w t (CPoly b) -> w_reg w b id = Ok (Some c) -> sized w (CCls c) (w_new w (CCls c))).

(** what a parser hands over *)
Definition sound_event (e : event) : Prop :=
  match v_type (snd e) with TObject | TArray | TScopeEnd => True | _ => wf_value (snd e) end.

(** a type none of whose parts is in danger *)
Definition harmless (w : world) (t : ct) : Prop := forall p, part w t p ->
  match p with
  | CNum t => In t [TBool; TFP32; TFP64]
  | CStr _ | CBits | CChars _ _ | CShared _ | CWeak _ | CPoly _ => False
  | _ => True
  end.

(** the parser's buffers hold bytes *)
Definition parser_ok (q : parser) : Prop := match q with JsonP st => wf_bytes (j_nbuf st) /\ wf_bytes (j_vbuf st) | _ => True end.

(** the values in a tree *)
Fixpoint values_of (n : node) : list value :=
  match n with mkNode _ vs ns => map snd vs ++ (fix go (l : list (bytes * node)) : list value := match l with [] => [] | q :: l' => values_of (snd q) ++ go l' end) ns end.
