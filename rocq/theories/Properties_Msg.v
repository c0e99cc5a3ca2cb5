(** C101: the texts of exceptions. *)
From Coq Require Import ZArith List Bool Lia.
From Verif Require Import Base M_Types M_Conv M_TpTools M_In M_Event M_Env M_Tree M_TreeIO M_PSrl M_MsgPack M_Json M_Object M_ObjIO M_Access M_Try M_Msg S_Msg S_Tree P_Tree P_Try P_Msg Properties_Object.
Import ListNotations.
Open Scope Z_scope.

(** * C101.  Full statement: if a class cannot be made from a tree, the text of the exception names the member that failed and says why, and nothing else fails first.
    Not true: names with a zero byte are cut; of nested classes only the innermost name is told. *)
Definition msg_cls (c : nat) : list field :=
  match c with
  | 0 => [mkField ($"x") false (CNum TI32); mkField ($"y") false (CNum TUI8)]
  | 1 => [mkField ($"p") false (CCls 0); mkField ($"q") false (CCls 0)]
  | 2 => [mkField ($"a") false (CNum TUI8); mkField ($"r") true (CCls 1); mkField [] false (CNum TI16)]
  | 3 => [mkField ($"y") false (CNum TI32); mkField [] false (CNum TI8)]
  | 4 => [mkField ($"t") false (CChars EUTF8 3); mkField ($"u") false (CStr EUTF8)]
  | _ => []
  end%nat.
Definition msg_world : world := mkWorld ex_fp msg_cls (w_id ex_world) (w_reg ex_world) (w_new ex_world) ex_lt.
Definition two (x y : value) : node := mkNode TObject [($"y", y); ($"x", x)] [].
Definition word (s : bytes) : value := mkValue TString 0 s EUTF8.
Definition zeros : cv := VList [VNum 0; VNum 0].
(** the text of the exception *)
Definition text {A} (m : told A) : option bytes := match m with Thrown x => x | _ => None end.

(** a zero byte in the name hides the rest of the text: the reason is not told, and different members give the same text *)
Theorem C101_zero_refuted : exists x t v s k k' m, k <> k' /\ tell_number x t (IdName k) v s = Thrown (Some m) /\ tell_number x t (IdName k') v s = Thrown (Some m) /\ m = $"Srl error: Unable to set field a".
Proof. exists ex_fp, TI32, (word ($"zzz")), rs_new, [97; 0], [97; 0; 98], ($"Srl error: Unable to set field a"). split; [discriminate|]. split; [vm_compute; reflexivity|]. split; [vm_compute; reflexivity|reflexivity]. Qed.
(** the same mistake in two members of a nested class: the texts do not say which *)
Theorem C101_where_refuted : exists F w c n n' old s m,
  n = mkNode TObject [] [($"p", two (val_int TI32 1) (word ($"no"))); ($"q", two (val_int TI32 1) (val_int TI32 2))] /\
  n' = mkNode TObject [] [($"p", two (val_int TI32 1) (val_int TI32 2)); ($"q", two (val_int TI32 1) (word ($"no")))] /\
  tell_root F w (CCls c) old n s = Thrown (Some m) /\ tell_root F w (CCls c) old n' s = Thrown (Some m) /\ m = $"Srl error: Unable to set field y. Cannot convert string 'no' to numeric type UI8.".
Proof. exists 9%nat, msg_world, 1%nat. do 2 eexists. exists (VList [zeros; zeros]), rs_new, ($"Srl error: Unable to set field y. Cannot convert string 'no' to numeric type UI8."). split; [reflexivity|]. split; [reflexivity|]. split; [vm_compute; reflexivity|]. split; [vm_compute; reflexivity|reflexivity]. Qed.

(** with the texts the outcome is that of the model without them (M_Object), whatever the class and the tree *)
Theorem C101_same : forall F w id name t old n s,
  match tell_paste F w id name t old n s with
  | Told v s' => paste_node F w t old (mkL true n) s = ERet (v, mkL true n, s')
  | Thrown _ => paste_node F w t old (mkL true n) s = EThrow
  | Broken u => paste_node F w t old (mkL true n) s = EUndef u
  | Endless => paste_node F w t old (mkL true n) s = EFuel
  end.
Proof. exact tell_node. Qed.
(** a value that cannot be set: the text names the field and a reason that applies to the value, up to the first zero byte *)
Theorem C101_reason_partial : forall x t k v s, 0 < zlen k -> v_type v <> TString \/ v_enc v = EUTF8 -> paste_number x t v = Err ->
  exists m r, tell_number x t (IdName k) v s = Thrown (Some m) /\ reason t v r /\ shown (set_text k r) m.
Proof. exact number_says. Qed.
(** names without zero bytes are always told, whatever the text of the value and its encoding *)
Theorem C101_field_partial : forall x t k v s m, 0 < zlen k -> printable k -> tell_number x t (IdName k) v s = Thrown (Some m) ->
  exists more, m = $"Srl error: Unable to set field " ++ k ++ $". " ++ more.
Proof. exact number_field. Qed.
(** of a class of numbers the first member that cannot be set is blamed, by its name or, if it has none, by its position: all members before it can be set, and it is
    absent or its value is refused *)
Theorem C101_first_partial : forall F w id name c olds n s m,
  Forall plain_number (w_cls w c) -> (length (w_cls w c) <= length olds)%nat -> Z.of_nat (length (w_cls w c)) < 18446744073709551616 -> is_scope (n_type n) = true ->
  Forall (fun q => v_type (snd q) <> TString \/ v_enc (snd q) = EUTF8) (n_values n) ->
  tell_paste (S F) w id name (CCls c) (VList olds) n s = Thrown m ->
  exists i f t, nth_error (w_cls w c) i = Some f /\ f_type f = CNum t /\ (forall h g, (h < i)%nat -> nth_error (w_cls w c) h = Some g -> good_member w n h g) /\
    match value_for i f n with
    | None => exists whole seen, m = Some seen /\ says_absent i f name whole /\ shown whole seen
    | Some v => paste_number (w_fp w) t v = Err /\ exists whole seen r, m = Some seen /\ reason t v r /\ says_set i f r whole /\ shown whole seen
    end.
Proof. exact class_blames. Qed.
(** a first member that is a class: the text is that of the inner class with the name of the inner node, and nothing tells of the outer one *)
Theorem C101_inner : forall F w id name c d f fs old olds n k' n' s m, w_cls w c = f :: fs -> f_opt f = false -> f_type f = CCls d -> f_name f <> [] -> is_scope (n_type n) = true ->
  first_named (f_name f) (n_nodes n) = Some (k', n') -> tell_paste F w (IdName (f_name f)) (f_name f) (CCls d) old n' s = Thrown m ->
  tell_paste (S F) w id name (CCls c) (VList (old :: olds)) n s = Thrown m.
Proof. exact inner_text. Qed.
(** of a vector of numbers the first element that cannot be set is told by its position *)
Theorem C101_vector : forall F w id name t old n s m, scoped (CNum t) = false -> is_scope (n_type n) = true -> Z.of_nat (length (n_values n)) < 18446744073709551616 ->
  Forall (fun q => v_type (snd q) <> TString \/ v_enc (snd q) = EUTF8) (n_values n) ->
  tell_paste (S F) w id name (CSeq (CNum t)) old n s = Thrown m ->
  exists i k v, nth_error (n_values n) i = Some (k, v) /\ (forall h k' v', (h < i)%nat -> nth_error (n_values n) h = Some (k', v') -> exists z, paste_number (w_fp w) t v' = Ok z) /\ paste_number (w_fp w) t v = Err /\
    exists ds seen r, m = Some seen /\ decimal (Z.of_nat i) ds /\ reason t v r /\ shown ($"Srl error: Unable to set field at pos : " ++ ds ++ $". " ++ r) seen.
Proof. exact vector_blames. Qed.
(** strings, arrays of characters and characters (here the first member of a class): wrong types and sizes are told with the name of the member *)
Theorem C101_text : forall F w id name c f fs old olds n v s r, w_cls w c = f :: fs -> f_opt f = false -> 0 < zlen (f_name f) -> scoped (f_type f) = false -> is_scope (n_type n) = true ->
  value_of (f_name f) n = Some v -> text_reason v (f_type f) r -> (exists bs, old = VStr bs) ->
  exists m, tell_paste (S F) w id name (CCls c) (VList (old :: olds)) n s = Thrown (Some m) /\ shown (set_text (f_name f) r) m.
Proof. exact text_first. Qed.
(** a Union that is not a number: the text has the name of the Union, both types and the text of the reason *)
Theorem C101_union : forall x t k v s, v_type v <> TString \/ v_enc v = EUTF8 -> paste_number x t v = Err ->
  exists m seen r, tell_union x t (UnValue k v) s = Thrown (Some m) /\ reason t v r /\ shown ($"Srl error: Unable to set field. " ++ r) seen /\
    shown ($"Srl error: Failed to convert union <" ++ k ++ $"> of type <" ++ called (v_type v) ++ $"> to type <" ++ called t ++ $"> because the following error occured: " ++ seen) m.
Proof. exact union_text. Qed.

Example C101_ex_texts :
  text (tell_root 9 msg_world (CCls 0) zeros (two (val_int TI32 1) (val_int TI32 256)) rs_new) = Some ($"Srl error: Unable to set field y. Cannot cast type I32 to UI8. Overflow detected.") /\
  text (tell_root 9 msg_world (CCls 0) zeros (two (word ($"12x")) (val_int TI32 256)) rs_new) = Some ($"Srl error: Unable to set field x. Cannot convert string '12x' to numeric type I32.") /\
  text (tell_root 9 msg_world (CCls 0) zeros (two (word ($"-1")) (word ($"-1"))) rs_new) = Some ($"Srl error: Unable to set field y. Cannot cast type I64 to UI8. Overflow detected.") /\
  text (tell_root 9 msg_world (CCls 0) zeros (two (mkValue TBinary 0 [1; 2] EUnknown) (val_int TI32 1)) rs_new) = Some ($"Srl error: Unable to set field x. Type mismatch, expected: string or literal, got: Binary.") /\
  text (tell_root 9 msg_world (CCls 1) (VList [zeros; zeros]) (mkNode TObject [] [($"p", two (val_int TI32 1) (val_int TI32 1)); ($"q", mkNode TObject [($"x", val_int TI32 4)] [])]) rs_new) =
    Some ($"Srl error: Field <y> in <q> not found.") /\
  tell_root 9 msg_world (CCls 1) (VList [zeros; zeros]) (mkNode TObject [] [($"p", two (val_int TI32 1) (val_int TI32 7)); ($"q", two (word ($"-3")) (word ($" 9")))]) rs_new =
    Told (VList [VList [VNum 1; VNum 7]; VList [VNum (-3); VNum 9]]) rs_new.
Proof. repeat (split; [vm_compute; reflexivity|]). vm_compute. reflexivity. Qed.
Example C101_ex_places :
  text (tell_root 9 msg_world (CCls 2) (VList [VNum 0; VList [zeros; zeros]; VNum 0]) (mkNode TObject [($"b", val_int TI32 1); ($"a", val_int TI32 2)] []) rs_new) = None /\
  text (tell_root 9 msg_world (CCls 2) (VList [VNum 0; VList [zeros; zeros]; VNum 0]) (mkNode TObject [($"a", val_int TI32 1)] []) rs_new) =
    Some ($"Srl error: Cannot access <Value> at index <1>, index out of bounds.") /\
  text (tell_root 9 msg_world (CCls 2) (VList [VNum 0; VList [zeros; zeros]; VNum 0]) (mkNode TObject [($"a", val_int TI32 1); ($"b", word ($"q"))] []) rs_new) =
    Some ($"Srl error: Unable to set field at pos : 1. Cannot convert string 'q' to numeric type I16.") /\
  text (tell_root 9 msg_world (CCls 2) (VList [VNum 0; VList [zeros; zeros]; VNum 0]) (mkNode TObject [($"a", val_int TI32 1)] [($"r", empty_node TObject)]) rs_new) =
    Some ($"Srl error: Field <p> in <r> not found.") /\
  position 1203 = $"1203" /\
  text (tell_union ex_fp TI8 (UnValue ($"u") (val_int TI32 300)) rs_new) =
    Some ($"Srl error: Failed to convert union <u> of type <I32> to type <I8> because the following error occured: Srl error: Unable to set field. Cannot cast type I32 to I8. Overflow detected.").
Proof. repeat (split; [vm_compute; reflexivity|]). vm_compute. reflexivity. Qed.
Example C101_ex_vectors :
  text (tell_root 9 msg_world (CSeq (CNum TUI8)) (VList []) (mkNode TArray [([], val_int TI32 1); ([], word ($"2")); ([], val_int TI32 300); ([], word ($"no"))] []) rs_new) =
    Some ($"Srl error: Unable to set field at pos : 2. Cannot cast type I32 to UI8. Overflow detected.") /\
  text (tell_root 9 msg_world (CSeq (CSeq (CNum TUI8))) (VList []) (mkNode TArray [] [([], mkNode TArray [([], val_int TI32 1)] []); ([], mkNode TArray [([], val_int TI32 (-1))] [])]) rs_new) =
    Some ($"Srl error: Unable to set field at pos : 0. Cannot cast type I32 to UI8. Overflow detected.").
Proof. split; vm_compute; reflexivity. Qed.
Example C101_ex_strings :
  text (tell_root 9 msg_world (CCls 4) (VList [VStr [0; 0; 0]; VStr []]) (mkNode TObject [($"t", word ($"abc")); ($"u", word ($"d"))] []) rs_new) = Some ($"Srl error: Unable to set field t. Size mismatch.") /\
  text (tell_root 9 msg_world (CCls 4) (VList [VStr [0; 0; 0]; VStr []]) (mkNode TObject [($"t", val_int TI32 3); ($"u", word ($"d"))] []) rs_new) =
    Some ($"Srl error: Unable to set field t. Type mismatch, expected: string or binary, got: I32.") /\
  text (tell_root 9 msg_world (CCls 4) (VList [VStr [0; 0; 0]; VStr []]) (mkNode TObject [($"t", word ($"ab")); ($"u", mkValue TBinary 0 [1] EUnknown)] []) rs_new) =
    Some ($"Srl error: Unable to set field u. Type mismatch, expected: string or literal, got: Binary.").
Proof. split; [vm_compute; reflexivity|]. split; vm_compute; reflexivity. Qed.
(** the premises of [C101_first_partial] hold *)
Example C101_ex_first : Forall plain_number (w_cls msg_world 0) /\ Forall plain_number (w_cls msg_world 3) /\ is_scope (n_type (two (val_int TI32 1) (val_int TI32 256))) = true /\
  text (tell_root 9 msg_world (CCls 3) zeros (two (word ($"no")) (val_int TI32 256)) rs_new) = Some ($"Srl error: Unable to set field at pos : 1. Cannot convert string 'no' to numeric type I8.").
Proof. split; [repeat constructor; eexists; split; reflexivity|]. split; [repeat constructor; eexists; split; reflexivity|]. split; [reflexivity|]. vm_compute. reflexivity. Qed.

Print Assumptions C101_zero_refuted.
Print Assumptions C101_where_refuted.
Print Assumptions C101_same.
Print Assumptions C101_reason_partial.
Print Assumptions C101_field_partial.
Print Assumptions C101_first_partial.
Print Assumptions C101_inner.
Print Assumptions C101_union.
Print Assumptions C101_vector.
Print Assumptions C101_text.
