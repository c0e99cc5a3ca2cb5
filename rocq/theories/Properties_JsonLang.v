(** C90: the texts PJson takes for documents, exactly. *)
From Coq Require Import ZArith List Bool Lia.
From Verif Require Import Base M_Types M_Conv M_In S_Conv S_Doc S_Json M_Event M_Json S_JsonQuoted S_JsonStream S_JsonText M_Tree S_Tree M_TreeIO S_JsonLang P_JsonLang Properties_Charset Properties_Object.
Import ListNotations.
Open Scope Z_scope.

(** Full statement: what loads is JSON.  False: any closing bracket closes any scope, *)
Theorem C90_bracket_refuted : exists src p b, (forall x, run_block (load_tree x 10 (JsonP (json_init true))) (set_block src) = Ok ((p, ([], empty_node TObject)), b)) /\
  forall x u nm t rest m, src = t ++ rest -> ~ js_value x u nm t m.
Proof.
  exists ($"{]"). eexists _, _. split; [intros x; vm_compute; reflexivity|]. intros x u nm t rest m E V.
  assert (H : t = [] \/ t = [123] \/ t = [123; 93]).
  { destruct t as [|a [|b [|c t]]]; [auto| | |]; cbn in E; injection E; intros; subst; auto. discriminate. }
  assert (D : forall s, t = s -> Forall is_digit s -> s <> [] -> False).
  { intros s -> F N. destruct H as [->|[->| ->]]; [congruence| |]; inversion F as [|? ? C _]; unfold is_digit in C; lia. }
  inversion V; subst; clear V; try (destruct H as [H|[H|H]]; discriminate H).
  - destruct H0 as (s & [[N F] _] & [[-> _]|[-> _]]); [eauto|]. destruct H as [H|[H|H]]; discriminate H.
  - destruct H0 as (i & n & f & e & -> & (s & [[N F] _] & I) & _). destruct s as [|c s]; [congruence|]. inversion F as [|? ? C _]; subst. unfold is_digit in C.
    destruct I as [[-> _]|[-> _]]; cbn [app] in H; destruct H as [H|[H|H]]; try discriminate H; injection H; intros; lia.
  - destruct H as [H|[H|H]]; [discriminate H| |]; injection H; intros A; [destruct t0; discriminate A|]. destruct t0 as [|a [|b t0]]; cbn in A; try discriminate A.
Qed.
(** and what is no JSON at all outside of the quotes is passed over, commas or not, *)
Theorem C90_garbage_refuted : exists src p b n, run_block (load_tree ex_fp 60 (JsonP (json_init true))) (set_block src) = Ok ((p, ([], n)), b) /\
  tree_doc [] n = DScope [] TObject [DVal ($"a") (val_int TUI64 2); DScope ($"b") TArray [DVal [] (val_int TUI64 1); DVal [] (val_int TUI64 3)]].
Proof. exists (js ($"hello: {two 'a' = 1 : 2 and 'b' is :[1 3 ?]]")). eexists _, _, _. split; vm_compute; reflexivity. Qed.
Print Assumptions C90_bracket_refuted.
Print Assumptions C90_garbage_refuted.

(** What loads is in the language of [text_of], and loads as the document that it says, up to what is left.
    Missing: texts with \u, whose reading depends on the buffers of the parser (C20, C25, C51). *)
Theorem C90_loaded_partial : forall x F st src p k n b, (length src < F)%nat -> ~ (exists l r, src = l ++ 92 :: 117 :: r) ->
  run_block (load_tree x F (JsonP st)) (set_block src) = Ok ((p, (k, n)), b) ->
  exists d, k = [] /\ n = doc_node d /\ text_of x d src (b_rest b) /\ (depth d <= 129)%nat.
Proof. exact json_sound. Qed.
(** Everything in the language loads, unless it is nested too deeply. *)
Theorem C90_read : forall x F st d src rest, text_of x d src rest -> (length src < F)%nat -> exists p before,
  run_block (load_tree x F (JsonP st)) (set_block src) = if Nat.leb (depth d) 129 then Ok ((p, ([], doc_node d)), mkBlk before rest) else Err.
Proof. exact json_complete. Qed.
(** A text has one reading at most. *)
Theorem C90_one_reading : forall x d t r d' r', text_of x d t r -> text_of x d' t r' -> d = d' /\ r = r'.
Proof. exact text_one. Qed.
(** Everything else is refused, or read beyond its end.  Missing: texts with \u, as above. *)
Theorem C90_rejected_partial : forall x F st src, wf_bytes src -> (2 * length src < F)%nat -> ~ (exists l r, src = l ++ 92 :: 117 :: r) -> (forall d rest, ~ text_of x d src rest) ->
  let r := run_block (load_tree x F (JsonP st)) (set_block src) in r = Err \/ r = UB UbEnd.
Proof. exact json_reject. Qed.
(** In particular commas in front of an item make no difference, and it makes none which bracket closes a scope. *)
Theorem C90_commas : forall x sc its t r, is_scope sc = true -> items_of x sc its (44 :: t) r <-> items_of x sc its t r.
Proof. exact commas_ignored. Qed.
Theorem C90_brackets : forall x sc k c t e r, item x sc k c (125 :: t) e r <-> item x sc k c (93 :: t) e r.
Proof. exact brackets_alike. Qed.
Print Assumptions C90_loaded_partial.
Print Assumptions C90_read.
Print Assumptions C90_one_reading.
Print Assumptions C90_rejected_partial.
Print Assumptions C90_commas.
Print Assumptions C90_brackets.

Ltac skip := eapply ITpass; [apply PSchar; split; [unfold significant; cbn; lia|first [discriminate|intros _; unfold literal_char; cbn; lia]]|].
(** a comment directly behind which another begins; a dangling name; a text, then what is left *)
Example C90_ex : forall x, text_of x (DScope [] TArray [DVal [] (val_string ($"x") EUTF8); DScope [] TObject []])
  (js ($"[/*,*//!]" ++ [10] ++ $" 'x',{'y'}} z")) ($" z").
Proof.
  intros x. match goal with |- text_of _ _ ?t ?r => let t' := eval vm_compute in t in let r' := eval vm_compute in r in change (text_of x (DScope [] TArray [DVal [] (val_string ($"x") EUTF8); DScope [] TObject []]) t' r') end.
  eapply TXroot; [apply ITarray|reflexivity|].
  eapply ISvalue; [|reflexivity|discriminate|].
  - eapply ITpass; [eapply PSblock; reflexivity|]. eapply ITpass; [eapply PSline; reflexivity|]. skip. eapply ITstring; [reflexivity|discriminate|reflexivity].
  - eapply ISscope; [skip; apply ITobject|reflexivity| |].
    + eapply ISend. eapply ITname; [reflexivity|discriminate|reflexivity|]. apply ITclose; [auto|discriminate].
    + eapply ISend. apply ITclose; [auto|discriminate].
Qed.
Example C90_ex_loads : forall x, exists p b, run_block (load_tree x 60 (JsonP (json_init true))) (set_block (js ($"[/*,*//!]" ++ [10] ++ $" 'x',{'y'}} z"))) =
  Ok ((p, ([], mkNode TArray [([], val_string ($"x") EUTF8)] [([], empty_node TObject)])), b).
Proof. intros x. eexists _, _. vm_compute. reflexivity. Qed.
(** two names, a name without a scope, a second colon, what never ends *)
Example C90_ex_rejected : forall x, Forall (fun src => let r := run_block (load_tree x 40 (JsonP (json_init true))) (set_block src) in r = Err \/ r = UB UbEnd)
  [js ($"{'a' 'b'}"); js ($"'a'"); js ($"{'a'::1}"); $"]"; $"[1"; $"[1/"; []].
Proof. intros x. repeat (constructor; [vm_compute; auto|]). constructor. Qed.
