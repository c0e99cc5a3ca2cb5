(** Model of Environment::write_conv and conv_type (src/lib/Environment.cpp:164-218): what is done to a value before
    it is handed to the parser.  Definitions only. *)
From Coq Require Import ZArith List Bool.
From Verif Require Import Base M_Types M_Conv M_Charset S_Doc.
Import ListNotations.
Open Scope Z_scope.

(** Tools::conv_charset with the default index 0 into a work buffer, and the first [size] bytes of that buffer
    (Environment.cpp:170-174, 201-205, 217).  Simplification: the buffer starts empty; what it held before does not
    matter (C27_convert_text, C27_rejects). *)
Definition to_utf8 (data : bytes) (e : enc) : res bytes :=
  let* (n, buf) := conv_charset EUTF8 e data [] true 0 in Ok (firstn (Z.to_nat n) buf).

(** Environment.cpp:196-218 *)
Definition conv_type (x : fp_text) (v : value) : res value :=
  let* d := match v_type v with
            | TString => to_utf8 (v_data v) (v_enc v)
            | t => if is_scalar t then type_to_str x v else Ok (bytes_to_base64 (v_data v))
            end in
  Ok (val_block d (v_type v)).

(** Environment.cpp:166-174: the name *)
Definition env_name (name : bytes) (e : enc) : res bytes :=
  if enc_eqb e EUTF8 then Ok name else to_utf8 name e.

(** Environment.cpp:176-194: the value; [text] = the parser's format is Format::Text *)
Definition env_value (text : bool) (x : fp_text) (v : value) : res value :=
  let t := v_type v in
  if is_scope t || ty_eqb t TScopeEnd
     || (ty_eqb t TString && negb text && enc_eqb (v_enc v) EUTF8)
     || (negb (ty_eqb t TString) && negb text)
  then Ok v else conv_type x v.
Definition env_event (text : bool) (x : fp_text) (e : event) : res event :=
  let* v := env_value text x (snd e) in Ok (fst e, v).
