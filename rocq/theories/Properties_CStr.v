(** Property C98: pointers to characters. *)
From Coq Require Import ZArith List Bool Lia.
From Verif Require Import Base Lemmas M_Types M_Conv M_Charset S_Doc M_In M_Tree S_Tree M_Object S_Object S_Chars P_ObjEager M_CStr P_CStr Properties_Charset Properties_Object.
Import ListNotations.
Open Scope Z_scope.

(** * C98 members of type const char* (const char16_t*, const char32_t*, const wchar_t* ).
    Full statement: they are stored and restored as other strings are.  False: nothing is restored, and no exception is thrown,
    whatever the value is *)
Theorem C98_round_trip_refuted : exists n mem d name, insert_cclass [mkC name EUTF8 (Some (n, mem))] [] = Ok d /\ holds_text EUTF8 n mem ($"abc") /\
  erun (paste_cstrs 9 [mkC name EUTF8 None] (mkL true (doc_node d))) [] = Some (Ok (([mkC name EUTF8 None], mkL true (doc_node d)), [])).
Proof.
  exists 5, ($"abc" ++ [0; 7]), (DScope [] TObject [DVal ($"s") (val_string ($"abc") EUTF8)]), ($"s"). split; [vm_compute; reflexivity|]. split.
  - split; [split; [lia|reflexivity]|]. exists 3. split; [lia|]. split; [|reflexivity]. split; [lia|]. split; [reflexivity|]. intros j J. assert (j = 0 \/ j = 1 \/ j = 2) as [->|[->| ->]] by lia; discriminate.
  - vm_compute. reflexivity.
Qed.
(** Restoring from a tree: every pointer stays as it is, from values of any type, and all that can fail is that there is no value of the name *)
Theorem C98_never_restored : forall F ty its ms,
  (Forall (fun m => exists v, In (DVal (c_name m) v) its) ms -> paste_cstrs F ms (pnode ty its) = ERet (ms, pnode ty its)) /\
  (~ Forall (fun m => exists v, In (DVal (c_name m) v) its) ms -> paste_cstrs F ms (pnode ty its) = EThrow).
Proof. exact paste_cstrs_tree. Qed.
(** from a tree or an input: the value is passed over, as a member of any other type would do that takes the value *)
Theorem C98_passed_over : forall w pn F t id old n s es v n' s' es' p, scoped t = false ->
  erun (paste_field w pn F t id old n s) es = Some (Ok ((v, n', s'), es')) -> erun (paste_cstr_field F id p n) es = Some (Ok ((p, n'), es')).
Proof. exact paste_cstr_place. Qed.
(** whole objects, from a tree or an input: where a class with members of other types without parts takes the input, the pointers all stay
    as they are and the input is left at the same place *)
Theorem C98_all_passed_over : forall w pn F t ms olds n s vi ni es vs n' s' es', Forall (fun m => 0 < zlen (c_name m) /\ scoped (t m) = false) ms ->
  erun (paste_fields w pn F (map (fun m => mkField (c_name m) false (t m)) ms) olds n s vi ni) es = Some (Ok ((vs, n', s'), es')) -> erun (paste_cstrs F ms n) es = Some (Ok ((ms, n'), es')).
Proof. exact paste_cstrs_place. Qed.
(** Storing: the text before the first zero character, as from a std::basic_string of that text *)
Theorem C98_stored : forall F w hp e n mem s name tab, holds_text e n mem s ->
  insert_cstr e (Some (n, mem)) name = Ok (DVal name (val_string s e)) /\
  emit (S F) w hp (CStr e) (VStr s) name tab = Ok (DVal name (val_string s e), tab).
Proof. intros F w hp e n mem s name tab H. unfold insert_cstr. rewrite (wrap_cstr_text _ _ _ _ H). now split. Qed.
(** whole objects: as the same class with std::basic_string members, which therefore can be restored from it (C39) *)
Theorem C98_stored_as_strings : forall F w hp c ms ss name tab, w_cls w c = map (fun m => mkField (c_name m) false (CStr (c_enc m))) ms ->
  Forall2 (fun m s => exists n mem, c_ptr m = Some (n, mem) /\ holds_text (c_enc m) n mem s) ms ss ->
  exists d, insert_cclass ms name = Ok d /\ emit (S (S F)) w hp (CCls c) (VList (map VStr ss)) name tab = Ok (d, tab).
Proof. exact class_emit. Qed.
(** Without a terminator the array is read beyond its end, and a null pointer is dereferenced, while other null pointers are
    stored as Null.  There is nothing else: every array has a text or no terminator *)
Theorem C98_undefined : forall e name, insert_cstr e None name = UB UbNull /\
  (forall n mem, array_of e n mem -> (insert_cstr e (Some (n, mem)) name = UB UbOob <-> unterminated e n mem) /\
     (unterminated e n mem \/ exists s, holds_text e n mem s)).
Proof.
  intros e name. split; [reflexivity|]. intros n mem A. destruct (terminated_or_not e n mem A) as [[s T]|U]; (split; [|eauto]); unfold insert_cstr.
  - rewrite (wrap_cstr_text _ _ _ _ T). cbn [rbind]. split; [discriminate|]. intros [_ U]. destruct T as (_ & i & L & (I & Z0 & _) & _). destruct (U i); [lia|exact Z0].
  - rewrite (wrap_cstr_none _ _ _ U). cbn [rbind]. now split.
Qed.
Print Assumptions C98_round_trip_refuted.
Print Assumptions C98_never_restored.
Print Assumptions C98_passed_over.
Print Assumptions C98_all_passed_over.
Print Assumptions C98_stored.
Print Assumptions C98_stored_as_strings.
Print Assumptions C98_undefined.

(** char16_t "ab", then a number, in the place of pointers *)
Example C98_ex_wide : insert_cstr EUTF16 (Some (4, [97; 0; 98; 0; 0; 0; 99; 0])) ($"w") = Ok (DVal ($"w") (val_string [97; 0; 98; 0] EUTF16)) /\
  insert_cstr EUTF16 (Some (2, [97; 0; 98; 0])) ($"w") = UB UbOob /\ insert_cstr EUTF8 (Some (1, [0])) [] = Ok (DVal [] (val_string [] EUTF8)).
Proof. repeat (split; [vm_compute; reflexivity|]). vm_compute. reflexivity. Qed.
Example C98_ex_tree : let old := [mkC ($"a") EUTF8 (Some (2, [120; 0])); mkC ($"b") EUTF32 None] in
  let n := pnode TObject [DVal ($"b") (num_value TI32 5); DScope ($"c") TArray []; DVal ($"a") (val_string ($"new") EUTF8)] in
  paste_cstrs 9 old n = ERet (old, n) /\ paste_cstrs 9 (mkC ($"c") EUTF8 None :: old) n = EThrow.
Proof. split; vm_compute; reflexivity. Qed.
(** the place is taken in an input: the member behind it gets its value *)
Example C98_ex_input : forall es,
  erun (ebind (paste_cstr_field 9 (IdName ($"s")) None (mkL false (mkNode TObject [] []))) (fun r => paste_field ex_world (fun _ _ _ _ => EThrow) 9 (CNum TI32) (IdName ($"n")) (VNum 0) (snd r) rs_new))
    ((($"s"), val_string ($"abc") EUTF8) :: (($"n"), num_value TI32 7) :: es) = Some (Ok ((VNum 7, mkL false (mkNode TObject [] []), rs_new), es)).
Proof. intros es. vm_compute. reflexivity. Qed.
(** two of them in another order than in the class, and what is behind them *)
Example C98_ex_object : let ms := [mkC ($"a") EUTF8 None; mkC ($"b") EUTF8 (Some (2, [120; 0]))] in
  exists n, forall es, erun (paste_cstrs 9 ms (mkL false (mkNode TObject [] []))) ((($"b"), val_string ($"abc") EUTF8) :: (($"a"), num_value TI32 7) :: es) = Some (Ok ((ms, n), es)).
Proof. eexists. intros es. vm_compute. reflexivity. Qed.
(** a pointer to characters that are not constant points to a single one *)
Example C98_ex_char : emit 3 ex_world [] (CPtr (CChar EUTF8)) (VSome (VStr ($"a"))) ($"p") [] = Ok (DVal ($"p") (val_string ($"a") EUTF8), []) /\
  emit 3 ex_world [] (CPtr (CChar EUTF8)) VNone ($"p") [] = Ok (DVal ($"p") (val_type TNull), []).
Proof. split; vm_compute; reflexivity. Qed.
