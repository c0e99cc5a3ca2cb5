(** What is said about Srl::String members.  Independent of the functions that paste them. *)
From Coq Require Import ZArith List Bool.
From Verif Require Import Base M_Types M_Conv M_In M_Tree M_TreeIO M_Object M_ObjIO S_Doc S_ObjIO M_StrRef.
Import ListNotations.
Open Scope Z_scope.

(** the members of the class are strings with the names [ks] *)
Definition string_class (w : world) (c : nat) (ks : list bytes) : Prop :=
  w_cls w c = map (fun k => mkField k false (CStr EUTF8)) ks /\ Forall (fun k => k <> []) ks.
(** the source is still in memory; the parser (of whatever state) is not PJson *)
Definition memory_at (src : bytes) (q : parser) (i : input) : Prop :=
  is_json q = false /\ match i with IBlock b => rev (b_done b) ++ b_rest b = src | IStream _ => False end.
(** the Srl::String says what the std::string [v] says, or it had at most 8 bytes and points to memory that is gone *)
Definition says_or_gone (q : parser) (i : input) (v : cv) (s : sstring) : Prop :=
  exists bs, v = VStr bs /\ (unwrap q i s = Ok bs \/ (unwrap q i s = UB UbDangling /\ 1 <= ss_len s <= 8)).
Definition says (q : parser) (i : input) (v : cv) (s : sstring) : Prop := exists bs, v = VStr bs /\ unwrap q i s = Ok bs.
(** a source: memory or a stream *)
Definition source (src : bytes) (i : input) : Prop := wf_bytes src /\ zlen src < 2 ^ 32 /\ (i = block_input src \/ i = stream_input src).
(** a member of a document: a named string that converts to UTF-8 *)
Definition is_text (kv : bytes * value) : Prop :=
  fst kv <> [] /\ v_type (snd kv) = TString /\ exists bs, unwrap_text EUTF8 (v_enc (snd kv)) (v_data (snd kv)) = Ok bs.
