(** Model of the texts of exceptions: Exception.h, Aux::throw_error and the checks in include/Srl/Resolve.hpp:998-1062, where numbers and
    members of classes are made from a tree (include/Srl/Resolve.hpp:299-342, 399-421, include/Srl/Node.hpp:105-130,
    include/Srl/Context.hpp:61-86, src/lib/Node.cpp:32-115, 166-195).  Definitions only. *)
From Coq Require Import ZArith List Bool.
From Verif Require Import Base M_Types M_Conv M_TpTools M_Charset M_In M_Event M_Tree M_Object M_Access M_Try.
Import ListNotations.
Open Scope Z_scope.

(** an outcome: an object and the shared objects, an exception with what what() returns, or nothing if that text is not modelled *)
(** Exception.h:8-22 *)
Inductive told (A : Type) : Type := Told (a : A) (s : rstate) | Thrown (m : option bytes) | Broken (u : ub) | Endless.
Arguments Told {A}. Arguments Thrown {A}. Arguments Broken {A}. Arguments Endless {A}.
(** statements one after the other (Context.hpp:61-86) *)
Definition kbind {A B} (m : told A) (f : A -> rstate -> told B) : told B :=
  match m with Told a s => f a s | Thrown x => Thrown x | Broken u => Broken u | Endless => Endless end.
(** functions whose texts are not modelled; Exception.h:8-22 *)
Definition untold {A} (r : res A) (s : rstate) : told A := match r with Ok a => Told a s | Err => Thrown None | UB u => Broken u | Fuel => Endless end.
(** functions that throw this text and no other; Exception.h:8-22 *)
Definition telling {A} (m : bytes) (r : res A) (s : rstate) : told A := match r with Ok a => Told a s | Err => Thrown (Some m) | UB u => Broken u | Fuel => Endless end.

(** what() returns c_str(): a text that is read up to its first zero (Exception.h:11-16) *)
Fixpoint to_zero (m : bytes) : bytes := match m with [] => [] | c :: m' => if c =? 0 then [] else c :: to_zero m' end.
Definition what (m : bytes) : bytes := to_zero ($"Srl error: " ++ m).
(** TpTools.h:35-48 with Type.h:13-31 *)
Definition type_name (t : ty) : bytes :=
  match t with
  | TBool => $"Bool" | TI8 => $"I8" | TUI8 => $"UI8" | TI16 => $"I16" | TUI16 => $"UI16" | TI32 => $"I32" | TUI32 => $"UI32" | TI64 => $"I64" | TUI64 => $"UI64"
  | TFP32 => $"FP32" | TFP64 => $"FP64" | TNull => $"Null" | TString => $"String" | TBinary => $"Binary" | TObject => $"Object" | TArray => $"Array" | TScopeEnd => $"Scope_End"
  end.
(** String::unwrap(false) (String.hpp:10-14, Tools.hpp:10-30) *)
Definition unwrap_quiet (d : bytes) (e : enc) : res bytes :=
  if zlen d <? 1 then Ok [] else if enc_eqb e EUTF8 then Ok d else conv_charset_vec EUTF8 e d false.
(** std::to_string of a position (Resolve.hpp:1000, Node.cpp:74); positions have at most 20 digits *)
Fixpoint position_loop (fuel : nat) (n : Z) (acc : bytes) : bytes :=
  match fuel with
  | O => acc
  | S f => let acc' := (48 + n mod 10) :: acc in if n / 10 =? 0 then acc' else position_loop f (n / 10) acc'
  end.
Definition position (n : Z) : bytes := position_loop 20 n [].
(** Resolve.hpp:998-1009; names of fields are UTF-8 *)
Definition set_error (msg : bytes) (id : fid) : bytes :=
  what (match id with
        | IdPos i => $"Unable to set field at pos : " ++ position i ++ $". " ++ msg
        | IdName k => $"Unable to set field" ++ (if 0 <? zlen k then $" " ++ k else []) ++ $". " ++ msg
        end).
(** Node.cpp:32-35, 109-112 and 72-76; [kind]: "Value" or "Node" *)
Definition not_found (kind : bytes) (id : fid) (node_name : bytes) : bytes :=
  what (match id with
        | IdName k => $"Field <" ++ k ++ $"> in <" ++ node_name ++ $"> not found."
        | IdPos i => $"Cannot access <" ++ kind ++ $"> at index <" ++ position i ++ $">, index out of bounds."
        end).

(** [Switch<T>::Apply] (Resolve.hpp:330-341) *)
Definition tell_apply (t : ty) (id : fid) (v : value) (s : rstate) : told Z :=
  telling (set_error ($"Cannot cast type " ++ type_name (v_type v) ++ $" to " ++ type_name t ++ $". Overflow detected.") id) (apply_or_throw t v) s.
(** [Switch<T>::Apply_String] (Resolve.hpp:314-328), str_to_type (ToolsStrConv.cpp:232-244); as in [paste_number] the converted text is
    a value, so that texts of 4 GiB are shorter than in the code *)
Definition tell_string (x : fp_text) (t : ty) (id : fid) (d : bytes) (e : enc) (s : rstate) : told Z :=
  kbind (untold (if enc_eqb e EUTF8 then Ok (str_to_type x d TNull)
                 else let* c := conv_charset_vec EUTF8 e d false in Ok (if zlen c <? 1 then None else str_to_type x (v_data (val_string c EUTF8)) TNull)) s) (fun conv s =>
  match conv with
  | None => kbind (untold (unwrap_quiet d e) s) (fun text s => Thrown (Some (set_error ($"Cannot convert string '" ++ text ++ $"' to numeric type " ++ type_name t ++ $".") id)))
  | Some v => tell_apply t id v s
  end).
(** [Switch<T>::Paste] (Resolve.hpp:299-312), check_type_value (1019-1027) *)
Definition tell_number (x : fp_text) (t : ty) (id : fid) (v : value) (s : rstate) : told Z :=
  if negb (ty_eqb (v_type v) TString) && negb (is_scalar (v_type v)) then
    Thrown (Some (set_error ($"Type mismatch, expected: string or literal, got: " ++ type_name (v_type v) ++ $".") id))
  else if ty_eqb (v_type v) TString then tell_string x t id (v_data v) (v_enc v) s
  else tell_apply t id v s.

(** check_type_string (Resolve.hpp:1029-1035) *)
Definition string_error (id : fid) (t : ty) : bytes := set_error ($"Type mismatch, expected: string or binary, got: " ++ type_name t ++ $".") id.
(** check_size, check_size_max (Resolve.hpp:1048-1062) *)
Definition size_error (id : fid) : bytes := set_error ($"Size mismatch.") id.
(** the text of a value in encoding [e] (Resolve.hpp:196-206, 982-991); the texts of conv_charset are not modelled *)
Definition chars_of (e : enc) (v : value) : res bytes := if enc_eqb (v_enc v) e then Ok (v_data v) else conv_charset_vec e (v_enc v) (v_data v) true.
(** [Switch<T>::Paste(object, value, id)]: strings (Resolve.hpp:102-122), arrays of characters (190-212) and characters (143-147, 976-996); the texts
    of the other types are not modelled *)
Definition tell_value (w : world) (t : ct) (id : fid) (old : cv) (v : value) (s : rstate) : told cv :=
  let is_text := ty_eqb (v_type v) TString || ty_eqb (v_type v) TBinary in
  match t with
  | CNum num => kbind (tell_number (w_fp w) num id v s) (fun z s => Told (VNum z) s)
  | CStr _ =>
      if negb (ty_eqb (v_type v) TNull) && negb (ty_eqb (v_type v) TString) && negb (is_scalar (v_type v)) then
        Thrown (Some (set_error ($"Type mismatch, expected: string or literal, got: " ++ type_name (v_type v) ++ $".") id))
      else untold (paste_value w t old v) s
  | CChars e n =>
      if negb is_text then Thrown (Some (string_error id (v_type v)))
      else match old with
           | VStr _ => kbind (untold (chars_of e v) s) (fun c s => if (n - 1) * unit_size e <? zlen c then Thrown (Some (size_error id)) else untold (paste_value w t old v) s)
           | _ => Thrown None
           end
  | CChar e =>
      if negb is_text then Thrown (Some (string_error id (v_type v)))
      else kbind (untold (chars_of e v) s) (fun c s => if negb (zlen c =? unit_size e) then Thrown (Some (size_error id)) else untold (paste_value w t old v) s)
  | _ => untold (paste_value w t old v) s
  end.

Section Tell.
  Variable w : world.
  (** [Switch<T>::Paste(object, node, id)] for the types inside, with the name of the node *)
  Variable tn : fid -> bytes -> ct -> cv -> node -> rstate -> told cv.

  (** Node.hpp:105-130 *)
  Definition tell_field (name : bytes) (t : ct) (id : fid) (old : cv) (n : node) (s : rstate) : told cv :=
    if scoped t then
      kbind (telling (not_found ($"Node") id name) (match id with IdName k => node_named n (k, EUTF8) | IdPos i => node_at n i end) s) (fun c s => tn id (fst c) t old (snd c) s)
    else
      kbind (telling (not_found ($"Value") id name) (match id with IdName k => value_named n (k, EUTF8) | IdPos i => value_at n i end) s) (fun c s => tell_value w t id old (snd c) s).
  (** Context.hpp:61-86 *)
  Fixpoint tell_fields (name : bytes) (fs : list field) (olds : list cv) (n : node) (s : rstate) (vi ni : Z) : told (list cv) :=
    match fs, olds with
    | [], _ => Told [] s
    | _ :: _, [] => Thrown None
    | f :: fs', old :: olds' =>
        let sc := scoped (f_type f) in
        kbind (untold (if f_opt f then if sc then has_node n (f_name f, EUTF8) else has_value n (f_name f, EUTF8) else Ok true) s) (fun h s =>
          if negb h then kbind (tell_fields name fs' olds' n s vi ni) (fun vs s => Told (old :: vs) s)
          else
            kbind (tell_field name (f_type f) (if 0 <? zlen (f_name f) then IdName (f_name f) else IdPos (if sc then ni else vi)) old n s) (fun v s =>
            kbind (tell_fields name fs' olds' n s (if sc then vi else vi + 1) (if sc then ni + 1 else ni)) (fun vs s => Told (v :: vs) s)))
    end.
  (** elements one after the other, with their positions (Resolve.hpp:494-530) *)
  Fixpoint tell_each {A} (f : Z -> bytes * A -> rstate -> told cv) (l : list (bytes * A)) (i : Z) (acc : list cv) (s : rstate) : told (list cv) :=
    match l with [] => Told acc s | a :: l' => kbind (f i a s) (fun v s => tell_each f l' (i + 1) (acc ++ [v]) s) end.
  Definition tell_elems (e : ct) (n : node) (s : rstate) : told (list cv) :=
    if scoped e then tell_each (fun i a s => tn (IdPos i) (fst a) e (w_new w e) (snd a) s) (n_nodes n) 0 [] s
    else tell_each (fun i a s => tell_value w e (IdPos i) (w_new w e) (snd a) s) (n_values n) 0 [] s.
End Tell.
(** check_type_scope (Resolve.hpp:1037-1044) *)
Definition scope_error (id : fid) (t : ty) : bytes :=
  set_error ($"Type mismatch, expected: " ++ type_name TObject ++ $" or " ++ type_name TArray ++ $", got: " ++ type_name t ++ $".") id.
(** classes (Resolve.hpp:399-421) and vectors, lists and deques (494-530); the texts of the other types are not modelled *)
Fixpoint tell_paste (F : nat) (w : world) (id : fid) (name : bytes) (t : ct) (old : cv) (n : node) (s : rstate) : told cv :=
  match F with
  | O => Endless
  | S f =>
      match t with
      | CCls c =>
          if negb (is_scope (n_type n)) then
            Thrown (Some (scope_error id (n_type n)))
          else match old with
               | VList olds => kbind (tell_fields w (tell_paste f w) name (w_cls w c) olds n s 0 0) (fun vs s => Told (VList vs) s)
               | _ => Thrown None
               end
      | CSeq e =>
          if negb (is_scope (n_type n)) then Thrown (Some (scope_error id (n_type n)))
          else kbind (tell_elems w (tell_paste f w) e n s) (fun vs s => Told (VList vs) s)
      | _ => let (r, s') := tpaste F w t old n s in untold r s'
      end
  end.
(** Tree::root().unwrap / paste of an object at the root: no name, no field (Node.hpp:139-154, Environment.cpp:14-20) *)
Definition tell_root (F : nat) (w : world) (t : ct) (old : cv) (n : node) (s : rstate) : told cv := tell_paste F w (IdName []) [] t old n s.
(** Union::unwrap of a number (Union.hpp:15-42, 60-67, 98-116): every exception becomes another one *)
Definition tell_union (x : fp_text) (t : ty) (u : union) (s : rstate) : told Z :=
  let again := fun k tp m => Thrown (Some (what ($"Failed to convert union <" ++ k ++ $"> of type <" ++ type_name tp ++ $"> to type <" ++ type_name t ++
                                                 $"> because the following error occured: " ++ m))) in
  match u with
  | UnNode k n => again k (n_type n) (what ($"Union <" ++ k ++ $"> cannot be converted to requested type"))
  | UnValue k v => match tell_number x t (IdName []) v s with Thrown (Some m) => again k (v_type v) m | r => r end
  end.
